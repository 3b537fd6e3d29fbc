(** Specification of the lazy pipelines used by several threads. *)
From Verif Require Import Res PipelineSpec PipeThreadModel.

(** Threads which have to call get for lists of steps. *)
Definition asking {V : Type} (requests : list (list nat)) : list (@pthread V) := map (fun ss => mkPthread (map (Get true) ss) []) requests.

(** [s] is requested by thread [i]. *)
Definition Requests (requests : list (list nat)) (i s : nat) : Prop := exists ss, nth_error requests i = Some ss /\ In s ss.

(** The steps a request for [s] is about. *)
Definition About (prerequisites : nat -> list nat) (s t : nat) : Prop := t = s \/ Needs prerequisites s t.

(** All the threads have finished. *)
Definition Finished {D V : Type} (g : @shared D V) : Prop := forall i t, nth_error (sthreads g) i = Some t -> todo t = [].

(** Whole calls, one after the other, as when get() is protected by a mutex: each one is made by one of the threads. *)
Inductive Serial {D V : Type} (prerequisites : nat -> list nat) (doEvaluate : nat -> D -> D) (doGet : nat -> D -> V) : @shared D V -> list nat -> @shared D V -> Prop :=
| Serial_nil : forall g, Serial prerequisites doEvaluate doGet g [] g
| Serial_call : forall g i s ss vs n g1 vs1 is g2, nth_error (sthreads g) i = Some (mkPthread (map (Get true) (s :: ss)) vs) ->
    prun prerequisites doEvaluate doGet g (repeat i n) = Some g1 ->
    nth_error (sthreads g1) i = Some (mkPthread (map (Get true) ss) vs1) ->
    Serial prerequisites doEvaluate doGet g1 is g2 -> Serial prerequisites doEvaluate doGet g (s :: is) g2.

(** Evaluations: each one comes after those of the steps it transitively needs, unless they had been made before. *)
Definition InOrder (prerequisites : nat -> list nat) (before calls : list nat) : Prop :=
  forall a s b, calls = a ++ s :: b -> forall t, Needs prerequisites s t -> In t (before ++ a).

(** Example: the diamond, whose step s is evaluated as the sum of s and of the number of evaluations. *)
Definition exampleEvaluate (s : nat) (d : list (nat * nat)) : list (nat * nat) := (s, (s + length d)%nat) :: d.
Definition exampleValue (s : nat) (d : list (nat * nat)) : nat := match find (fun e => Nat.eqb (fst e) s) d with Some e => snd e | None => 0%nat end.
