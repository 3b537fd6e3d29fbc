(** Specification of correlations between values of different types. *)
From Coq Require Import QArith.
From Verif Require Import Res WidthModel WidthSpec MixedModel LineKernelModel.
Open Scope Z_scope.

(** The values of a kernel are values of its type, of absolute value at most [K]. *)
Definition KernelValues (t : itype) (K : Z) (k : lkernel) : Prop := Forall (fun v => InType t v /\ Z.abs v <= K) (lvalues k).
Definition PixelValues (t : itype) (M : Z) (data : list Z) : Prop := Forall (fun x => InType t x /\ Z.abs x <= M) data.

(** Sufficient conditions for no partial sum to overflow, for [n] kernel values of type [t] and absolute value at most [K],
    and pixels of type [tin] and absolute value at most [M]: arithmetic is unsigned; or any sum of [n] products has type [t], which is signed;
    or arithmetic is made in a type which is wide enough to add one product to any value of type [t]. *)
Definition NoOverflow (t tin : itype) (n K M : Z) : Prop :=
  isigned (common t tin) = false \/ (isigned t = true /\ n * (K * M) <= itmax t) \/ itmax t + 1 + K * M <= itmax (common t tin).

(** Floating-point pixels which are multiples of 1 / [d]. *)
Definition Multiples (d : positive) (data : list Q) (ys : list Z) : Prop := Forall2 (fun x y => x == y # d)%Q data ys.
