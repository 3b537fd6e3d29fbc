(** What is expected of the limits of floating-point types, in terms of real numbers. *)
From Coq Require Import Reals.
From Flocq Require Import Core IEEE754.BinarySingleNaN.
From Verif Require Import Res FloatLimitsModel.
Open Scope R_scope.

(** Two finite values, without any other between them. *)
Definition Consecutive {prec emax} (x y : binary_float prec emax) : Prop :=
  is_finite x = true /\ is_finite y = true /\ B2R x < B2R y /\ forall z : binary_float prec emax, is_finite z = true -> B2R z <= B2R x \/ B2R y <= B2R z.

(** What std::uniform_real_distribution requires of its parameters (rand.dist.uni.real). *)
Definition UniformParameters {prec emax} (a b : binary_float prec emax) (max : R) : Prop :=
  is_finite a = true /\ is_finite b = true /\ B2R a <= B2R b /\ B2R b - B2R a <= max.

(** The value which is the nearest to a real number in the format, ties to even. *)
Definition nearestIn (prec emax : Z) : R -> R := round radix2 (FLT_exp (3 - emax - prec) prec) ZnearestE.
