(** Specification of the lazy pipelines whose steps use the pipeline themselves. *)
From Coq Require Import QArith.
From Verif Require Import Res NestedModel PipelineSpec.

(** A body may ask for step [t]. *)
Fixpoint MayAsk {D V R : Type} (b : @body D V R) (t : nat) : Prop :=
  match b with
  | Return _ _ => False
  | Ask _ u k => u = t \/ exists d v, MayAsk (k d v) t
  | Clear _ k => MayAsk k t
  end.

(** A body does not reset the pipeline. *)
Fixpoint NoReset {D V R : Type} (b : @body D V R) : Prop :=
  match b with
  | Return _ _ => True
  | Ask _ _ k => forall d v, NoReset (k d v)
  | Clear _ _ => False
  end.

(** A body may end in state [d] with result [o], depending on what it is answered. *)
Fixpoint MayReturn {D V R : Type} (b : @body D V R) (d : D) (o : option R) : Prop :=
  match b with
  | Return d' o' => d' = d /\ o' = o
  | Ask _ _ k => exists d' v, MayReturn (k d' v) d o
  | Clear _ k => MayReturn k d o
  end.

(** Step [s] directly uses step [t], as a prerequisite or in its bodies. *)
Definition Uses {D V : Type} (prerequisites : nat -> list nat) (doEvaluate : nat -> D -> @body D V Q) (doGet : nat -> D -> @body D V V) (s t : nat) : Prop :=
  In t (prerequisites s) \/ (exists d, MayAsk (doEvaluate s d) t) \/ exists d, MayAsk (doGet s d) t.

(** Transitively. *)
Inductive UsesAll {D V : Type} (prerequisites : nat -> list nat) (doEvaluate : nat -> D -> @body D V Q) (doGet : nat -> D -> @body D V V) : nat -> nat -> Prop :=
| Uses_self : forall s, UsesAll prerequisites doEvaluate doGet s s
| Uses_trans : forall s t u, Uses prerequisites doEvaluate doGet s t -> UsesAll prerequisites doEvaluate doGet t u -> UsesAll prerequisites doEvaluate doGet s u.

(** No step uses itself: they are ranked such that each one has a greater rank than those it uses. *)
Definition NoCycle {D V : Type} (prerequisites : nat -> list nat) (doEvaluate : nat -> D -> @body D V Q) (doGet : nat -> D -> @body D V V) (rank : nat -> nat) : Prop :=
  forall s t, Uses prerequisites doEvaluate doGet s t -> (rank t < rank s)%nat.

(** No step resets the pipeline. *)
Definition NeverReset {D V : Type} (doEvaluate : nat -> D -> @body D V Q) (doGet : nat -> D -> @body D V V) : Prop :=
  forall s d, NoReset (doEvaluate s d) /\ NoReset (doGet s d).

(** A step does not begin again, unless it had ended with an exception, and no success. *)
Definition Retried (log : list event) : Prop :=
  forall a s b c, log = a ++ Began s :: b ++ Began s :: c -> In (Ended s None) b /\ forall q, ~ In (Ended s (Some q)) b.

(** A step ends after it began, and does not end again without beginning again. *)
Definition Bracketed (log : list event) : Prop :=
  forall a s o c, log = a ++ Ended s o :: c -> exists a' b, a = a' ++ Began s :: b /\ forall o', ~ In (Ended s o') b.

(** A step begins after all those it transitively needs ended with success. *)
Definition Prepared (prerequisites : nat -> list nat) (log : list event) : Prop :=
  forall a s c, log = a ++ Began s :: c -> forall t, Needs prerequisites s t -> exists q, In (Ended t (Some q)) a.

(** [q] is the duration of the latest success of step [t] since the last reset, if any. *)
Definition Latest (log : list event) (t : nat) (q : Q) : Prop :=
  exists a b, log = a ++ Ended t (Some q) :: b /\ ~ In Cleared b /\ forall q', ~ In (Ended t (Some q')) b.

(** The step of an event. *)
Definition stepOf (e : event) : option nat := match e with Began s | Ended s _ => Some s | Cleared => None end.

(** Steps which use each other endlessly: the first prerequisite of each one,
    or what its body asks for first if it has no prerequisite, is one of them. *)
Definition Endless {D V R : Type} (prerequisites : nat -> list nat) (bodies : nat -> D -> @body D V R) (C : nat -> Prop) : Prop :=
  forall s, C s -> (exists t ts, prerequisites s = t :: ts /\ C t) \/
                   (prerequisites s = [] /\ forall d, exists d' t k, bodies s d = Ask d' t k /\ C t).

(** Examples. The state is a number and so are the values. Step 1 needs step 0, and its body asks for steps 0 and 2 and sums their values;
    it ignores an exception of step 2, which throws when first evaluated; step 3 needs step 1 and asks for step 2 again. *)
Definition examplePrerequisites (s : nat) : list nat := match s with 1 => [0] | 3 => [1] | _ => [] end%nat.
Definition exampleBody (s d : nat) : @body nat nat Q :=
  match s with
  | 0 => Return (S d) (Some 1%Q)
  | 1 => Ask d 0 (fun d v => Ask d 2 (fun d w => Return (d + match v with Some x => x | None => 0 end + match w with Some x => x | None => 0 end) (Some 2%Q)))
  | 2 => Return (S d) (if Nat.leb d 1 then None else Some 3%Q)
  | _ => Ask d 2 (fun d v => match v with Some _ => Return d (Some 4%Q) | None => Return d None end)
  end%nat.
Definition exampleRank (s : nat) : nat := match s with 0 | 2 => 0 | 1 => 1 | _ => 2 end%nat.
Definition exampleGet (s d : nat) : @body nat nat nat := Return d (Some (10 * s + d))%nat.

(** The value of step 1 is that of step 2, which throws when first evaluated. *)
Definition askingGet (s d : nat) : @body nat nat nat := match s with 1 => Ask d 2 (fun d v => Return d v) | _ => exampleGet s d end%nat.
Definition plainBody (s d : nat) : @body nat nat Q := Return (S d) (if andb (Nat.eqb s 2) (Nat.leb d 2) then None else Some 1%Q).

(** The value of step 2 is that of step 2. *)
Definition loopGet (s d : nat) : @body nat nat nat := match s with 2 => Ask d 2 (fun d v => Return d v) | _ => exampleGet s d end%nat.

(** Step 1 needs step 0, and resets the pipeline. *)
Definition resetBody (s d : nat) : @body nat nat Q := match s with 1 => Clear d (Return (S d) (Some 1%Q)) | _ => Return (S d) (Some 1%Q) end%nat.

(** Step 1 needs step 0, which asks for step 1. *)
Definition loopBody (s d : nat) : @body nat nat Q := match s with 0 => Ask d 1 (fun d v => Return d (Some 1%Q)) | _ => Return d (Some 1%Q) end%nat.

(** Step 1 asks for step 3, which needs it, the first time only. *)
Definition againBody (s d : nat) : @body nat nat Q :=
  match s, d with 1, 1 => Ask (S d) 3 (fun d v => Return (S d) (Some 9%Q)) | _, _ => Return (S d) (Some (inject_Z (Z.of_nat d))) end%nat.
