(** What is expected of functions on doubles, in terms of the real numbers which they represent. *)
From Coq Require Import Reals.
From Flocq Require Import Core IEEE754.BinarySingleNaN.
From Verif Require Import Res FloatModel.
Open Scope R_scope.

(** The real number of a finite double, and finiteness: neither infinite nor NaN. *)
Definition real (x : double) : R := B2R x.
Definition Finite (x : double) : Prop := is_finite x = true.

(** The largest double. *)
Definition maxDouble : R := IZR (2 ^ 53 - 1) * bpow radix2 971.

(** A finite double between two bounds. *)
Definition Within (lo hi : R) (x : double) : Prop := Finite x /\ lo <= real x <= hi.

(** The double which is the nearest to a real number, ties to even. *)
Definition nearestDouble : R -> R := round radix2 (FLT_exp (-1074) 53) ZnearestE.
