(** C101: limits of the floating-point types and the default uniform noise, for all binary formats with at least two digits
    (float: 24 and 128; double: 53 and 1024; extended long double: 64 and 16384). *)
From Coq Require Import Reals Lra.
From Flocq Require Import Core IEEE754.BinarySingleNaN.
From Verif Require Import Res FloatLimitsModel FloatLimitsSpec FloatLimitsProofs.
Open Scope R_scope.

(** All finite values lie between min and max, which are finite; inf is the positive infinity. *)
Theorem C101_bounds : forall prec emax (hp : FLX.Prec_gt_0 prec) (hm : Prec_lt_emax prec emax), (2 <= prec)%Z ->
  let lo := flMin prec emax hp hm in let hi := flMax prec emax hp hm in is_finite lo = true /\ is_finite hi = true /\
  (forall x : binary_float prec emax, is_finite x = true -> B2R lo <= B2R x <= B2R hi) /\ flInf prec emax hp hm = B754_infinity false /\
  B2R (flZero prec emax hp hm) = 0 /\ B2R (flOne prec emax hp hm) = 1.
Proof. exact limits_bounds. Qed.
Print Assumptions C101_bounds.
Example C101_bounds_met : FLX.Prec_gt_0 24 /\ Prec_lt_emax 24 128 /\ FLX.Prec_gt_0 53 /\ Prec_lt_emax 53 1024 /\ FLX.Prec_gt_0 64 /\ Prec_lt_emax 64 16384 /\
  B2SF (flMax 24 128 eq_refl eq_refl) = SpecFloat.S754_finite false 16777215 104.
Proof. repeat split. Qed.

(** Half limits are exact. *)
Theorem C101_half : forall prec emax (hp : FLX.Prec_gt_0 prec) (hm : Prec_lt_emax prec emax), (2 <= prec)%Z ->
  let a := flHalfMin prec emax hp hm in let b := flHalfMax prec emax hp hm in is_finite a = true /\ is_finite b = true /\
  2 * B2R a = B2R (flMin prec emax hp hm) /\ 2 * B2R b = B2R (flMax prec emax hp hm).
Proof. exact limits_half. Qed.
Print Assumptions C101_half.
Example C101_half_met : B2SF (flHalfMax 24 128 eq_refl eq_refl) = SpecFloat.S754_finite false 16777215 103 /\ B2SF (flHalfMin 24 128 eq_refl eq_refl) = SpecFloat.S754_finite true 16777215 103.
Proof. split; vm_compute; reflexivity. Qed.

(** The parameters of the default uniform noise are accepted by the standard distribution: their difference does not overflow. *)
Theorem C101_parameters : forall prec emax (hp : FLX.Prec_gt_0 prec) (hm : Prec_lt_emax prec emax), (2 <= prec)%Z ->
  UniformParameters (flHalfMin prec emax hp hm) (flHalfMax prec emax hp hm) (B2R (flMax prec emax hp hm)).
Proof. exact uniform_parameters. Qed.
Print Assumptions C101_parameters.
Example C101_parameters_met : is_finite (flHalfMin 64 16384 eq_refl eq_refl) = true /\ Bcompare (flHalfMin 64 16384 eq_refl eq_refl) (flHalfMax 64 16384 eq_refl eq_refl) = Some Lt.
Proof. split; vm_compute; reflexivity. Qed.

(** The default uniform noise, on any pixel between the half limits: finite, the nearest value to the exact sum. There is no corner case, contrary to integers (C59). *)
Theorem C101_noise : forall prec emax (hp : FLX.Prec_gt_0 prec) (hm : Prec_lt_emax prec emax), (2 <= prec)%Z -> forall x d : binary_float prec emax, is_finite x = true -> is_finite d = true ->
  B2R (flHalfMin prec emax hp hm) <= B2R x <= B2R (flHalfMax prec emax hp hm) -> B2R (flHalfMin prec emax hp hm) <= B2R d <= B2R (flHalfMax prec emax hp hm) ->
  is_finite (flAdd prec emax hp hm x d) = true /\ B2R (flAdd prec emax hp hm x d) = nearestIn prec emax (B2R x + B2R d).
Proof. exact uniform_noise. Qed.
Print Assumptions C101_noise.
Example C101_noise_met : let h := flHalfMax 53 1024 eq_refl eq_refl in B2SF (flAdd 53 1024 eq_refl eq_refl h h) = B2SF (flMax 53 1024 eq_refl eq_refl).
Proof. vm_compute. reflexivity. Qed.

(** Epsilon is the difference between one and the next value... *)
Theorem C101_epsilon_partial : forall prec emax (hp : FLX.Prec_gt_0 prec) (hm : Prec_lt_emax prec emax), (2 <= prec)%Z ->
  exists y : binary_float prec emax, Consecutive (flOne prec emax hp hm) y /\ B2R y - B2R (flOne prec emax hp hm) = B2R (flEps prec emax hp hm).
Proof. exact epsilon_one. Qed.
Print Assumptions C101_epsilon_partial.
Example C101_epsilon_met : B2SF (flEps 24 128 eq_refl eq_refl) = SpecFloat.S754_finite false 8388608 (-46).
Proof. vm_compute. reflexivity. Qed.

(** ...not that between any two consecutive values, contrary to the documentation. *)
Theorem C101_epsilon_refuted : forall prec emax (hp : FLX.Prec_gt_0 prec) (hm : Prec_lt_emax prec emax), (2 <= prec)%Z ->
  exists x y : binary_float prec emax, Consecutive x y /\ B2R y - B2R x < B2R (flEps prec emax hp hm).
Proof. exact epsilon_zero. Qed.
Print Assumptions C101_epsilon_refuted.

(** Hence the min plus one epsilon is the min, and the max minus one epsilon the max. *)
Theorem C101_almost_refuted : forall prec emax (hp : FLX.Prec_gt_0 prec) (hm : Prec_lt_emax prec emax), (2 <= prec)%Z ->
  B2R (flAlmostMin prec emax hp hm) = B2R (flMin prec emax hp hm) /\ B2R (flAlmostMax prec emax hp hm) = B2R (flMax prec emax hp hm) /\ 0 < B2R (flEps prec emax hp hm).
Proof. exact limits_almost. Qed.
Print Assumptions C101_almost_refuted.
