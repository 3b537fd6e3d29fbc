(** Error bounds of sums of doubles. *)
From Coq Require Import Reals.
From Flocq Require Import Core IEEE754.BinarySingleNaN.
From Verif Require Import Res FloatModel FloatSpec FloatKernelSpec.
Open Scope R_scope.

(** Relative error after [k] roundings: k units of 2^-53, and as much of that error again. *)
Definition roundings (k : Z) : R := IZR k * bpow radix2 (-53) * (1 + IZR k * bpow radix2 (-53)).

(** The exact sum of doubles. The sum of their absolute values is [gain]. *)
Definition exactSum (l : list double) : R := totalR (map real l).
