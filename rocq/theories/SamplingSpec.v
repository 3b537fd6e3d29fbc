(** Specification of balls: distances between positions. *)
From Verif Require Import Res.
From Coq Require Import QArith.
Open Scope Z_scope.

(** The P-th power of the distance between [p] and [c] for the P-norm. *)
Definition distancePower (P : Z) (p c : list Z) : Z :=
  fold_right Z.add 0 (map (fun xy => Z.abs (fst xy - snd xy) ^ P) (combine p c)).

(** [p] is at distance at most [r] from [c] for the P-norm. *)
Definition WithinBall (P : Z) (r : Q) (c p : list Z) : Prop :=
  length p = length c /\ (inject_Z (distancePower P p c) <= Qpower r P)%Q.
