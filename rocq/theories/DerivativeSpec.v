(** Specification of the derivation: trigonometric polynomials. *)
From Coq Require Import Reals.
From Verif Require Import Res FourierSpec.
Open Scope Z_scope.

Definition rsum {A} (l : list A) (f : A -> R) : R := fold_right (fun a s => (f a + s)%R) 0%R l.

(** The sum for m = 0 to M of a(m) cos(m x) + b(m) sin(m x). *)
Definition trig (M : Z) (a b : Z -> R) (x : R) : R := rsum (zrange 0 M) (fun m => a m * cos (IZR m * x) + b m * sin (IZR m * x))%R.

(** The points 0, 2 pi / n, ..., 2 pi (n - 1) / n. *)
Definition sample (n j : Z) : R := (2 * PI * (IZR j / IZR n))%R.

(** The list contains n real values, those of function [f] at these points. *)
Definition Samples (n : Z) (f : R -> R) (l : list C) : Prop :=
  Z.of_nat (length l) = n /\ forall j, 0 <= j < n -> valueAt l j = (f (sample n j), 0%R).
