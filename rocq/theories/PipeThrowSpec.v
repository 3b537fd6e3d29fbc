(** Specification of the lazy pipelines used by several threads, with exceptions. *)
From Coq Require Import QArith.
From Verif Require Import Res PipelineModel PipelineSpec PipeThreadSpec PipeThrowModel.

(** Threads which have to call get for lists of steps. *)
Definition easking {V : Type} (requests : list (list nat)) : list (@ethread V) := map (fun ss => mkEthread (map (EGet true) ss) []) requests.

(** All the threads have finished. *)
Definition EFinished {D V : Type} (g : @eshared D V) : Prop := forall i t, nth_error (ethreads g) i = Some t -> etodo t = [].

(** Thread [i] runs alone until [rest] is what it has to do. *)
Inductive Alone {D V : Type} (prerequisites : nat -> list nat) (doEvaluate : nat -> D -> D * option Q) (doGet : nat -> D -> option V) (i : nat) (rest : list eitem)
  : @eshared D V -> @eshared D V -> Prop :=
| Alone_end : forall g vs, nth_error (ethreads g) i = Some (mkEthread rest vs) -> Alone prerequisites doEvaluate doGet i rest g g
| Alone_step : forall g l vs g1 g2, nth_error (ethreads g) i = Some (mkEthread l vs) -> l <> rest -> estep prerequisites doEvaluate doGet g i = Some g1 ->
    Alone prerequisites doEvaluate doGet i rest g1 g2 -> Alone prerequisites doEvaluate doGet i rest g g2.

(** Whole calls, one after the other, as when get() is protected by a mutex: the threads which make them, and the steps. *)
Inductive ESerial {D V : Type} (prerequisites : nat -> list nat) (doEvaluate : nat -> D -> D * option Q) (doGet : nat -> D -> option V)
  : @eshared D V -> list (nat * nat) -> @eshared D V -> Prop :=
| ESerial_nil : forall g, ESerial prerequisites doEvaluate doGet g [] g
| ESerial_call : forall g i s rest vs g1 l g2, nth_error (ethreads g) i = Some (mkEthread (EGet true s :: rest) vs) ->
    Alone prerequisites doEvaluate doGet i rest g g1 ->
    ESerial prerequisites doEvaluate doGet g1 l g2 -> ESerial prerequisites doEvaluate doGet g ((i, s) :: l) g2.

(** What the calls of thread [i] returned, among all of them. *)
Definition returnedTo {V : Type} (i : nat) (l : list (nat * nat)) (vs : list (option V)) : list (option V) :=
  map snd (filter (fun e => Nat.eqb (fst (fst e)) i) (combine l vs)).

(** A call which a user of a single thread makes: doGet modifies nothing. *)
Definition readOnly {D V : Type} (doGet : nat -> D -> option V) (s : nat) (d : D) : D * option V := (d, doGet s d).

(** Example: the value of a step is the sum of its number and of the number of evaluations; there is none for step 7. *)
Definition throwingValue (s d : nat) : option nat := if Nat.eqb s 7 then None else Some (s + d)%nat.
