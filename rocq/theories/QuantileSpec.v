(** What is expected of quantiles of doubles. *)
From Coq Require Import Reals.
From Verif Require Import Res FloatModel FloatSpec.
Open Scope R_scope.

(** The real rank of a quantile among n values, the first one of which has rank 0, and its rounding. *)
Definition exactRank (l : list double) (q : double) : R := real q * IZR (Z.of_nat (length l) - 1).
Definition roundedRank (l : list double) (q : double) : R := nearestDouble (exactRank l q).

(** The half of a double is a double: false of the odd multiples of the smallest double only. *)
Definition Halvable (x : double) : Prop := exists h, Finite h /\ real h = real x / 2.
