(** Specification of lazy evaluation. *)
From Coq Require Import QArith.
From Verif Require Import Res.

(** [s] transitively needs [t]. *)
Inductive Needs (prerequisites : nat -> list nat) : nat -> nat -> Prop :=
| Needs_direct : forall s t, In t (prerequisites s) -> Needs prerequisites s t
| Needs_trans : forall s t u, In t (prerequisites s) -> Needs prerequisites t u -> Needs prerequisites s u.

(** There is no cycle: steps are ranked such that each one has a greater rank than its prerequisites. *)
Definition Acyclic (prerequisites : nat -> list nat) (rank : nat -> nat) : Prop :=
  forall s t, In t (prerequisites s) -> (rank t < rank s)%nat.

(** In a sequence of evaluations (with durations or None for failures), no step is evaluated again once it was with success. *)
Definition Once (calls : list (nat * option Q)) : Prop :=
  forall before s q after, calls = before ++ (s, Some q) :: after -> forall o, ~ In (s, o) after.

(** Each evaluation comes after successful evaluations of all the steps it transitively needs. *)
Definition Ordered (prerequisites : nat -> list nat) (calls : list (nat * option Q)) : Prop :=
  forall before s o after, calls = before ++ (s, o) :: after -> forall t, Needs prerequisites s t -> exists q, In (t, Some q) before.

(** The sum of the durations of the successful evaluations. *)
Fixpoint duration (calls : list (nat * option Q)) : Q :=
  match calls with
  | [] => 0
  | (_, Some q) :: calls' => q + duration calls'
  | (_, None) :: calls' => duration calls'
  end%Q.

(** Example: the diamond of the documentation of PipelineStep, with a failure of step 2 if evaluated third. *)
Definition diamond (s : nat) : list nat := match s with 1 | 2 => [0] | 3 => [1; 2] | _ => [] end%nat.
Definition failing (s : nat) (d : nat) : nat * option Q := (S d, if Nat.eqb s 2 && Nat.eqb d 2 then None else Some (inject_Z (Z.of_nat s))).
