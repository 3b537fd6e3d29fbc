(** Specification of differentiation filters. *)
From Verif Require Import Res Spec SeparableModel.

(** An affine image: [c] at the origin, and some slope along each axis. *)
Definition affine (c : Z) (slopes p : list Z) : Z := c + fold_right Z.add 0 (map (fun st => fst st * snd st) (combine slopes p)).

(** The position has two neighbours along each of the axes. *)
Definition AwayFromBorders (shape : list Z) (axes : list nat) (p : list Z) : Prop :=
  InDomain shape p /\ forall a, In a axes -> 1 <= nth a p 0 <= nth a shape 0 - 2.

(** Raising to the power [n]. *)
Fixpoint power (x : Z) (n : nat) : Z := match n with O => 1 | S n' => x * power x n' end.

(** The filters and the sums of their averaging values. *)
Definition factories (sign : Z) : list (Z * (Z -> list Z -> skernel)) :=
  [(3, prewitt sign); (4, sobel sign); (16, scharr sign)].
