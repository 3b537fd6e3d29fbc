(** C64 to C67: interpolation, ramps and mean of doubles, with rounding.
    real x is the real number which the finite double x represents. Unlike the other theorems, these rely on the axioms of the
    real numbers of the standard library, as printed below. *)
From Coq Require Import Reals Lra Sorted.
From Flocq Require Import Core IEEE754.BinarySingleNaN.
From Verif Require Import Res FloatModel FloatSpec FloatProofs FloatUndefinedProofs.
Open Scope R_scope.

(** ** C64: linear interpolation *)

(** It is defined for finite positions in the range of indices, if every neighbour is. *)
Theorem C64_defined : forall get pos, pos <> [] -> (forall i, exists w, get i = Ok w) -> Forall (fun x => Finite x /\ Rabs (real x) < bpow radix2 62) pos ->
  exists v, dlinearAt get pos = Ok v.
Proof. exact linear_defined. Qed.
Print Assumptions C64_defined.
Example C64_defined_met : exists v, dlinearAt (fun _ => Ok (dofZ 7)) [dlit (-5) (-1); dlit 1 (-60)] = Ok v.
Proof. eexists. reflexivity. Qed.

(** It is undefined, whatever the pixels, as soon as a coordinate is infinite, is not a number or exceeds the indices. *)
Theorem C64_undefined : forall get pos, Exists (fun x => ~ Finite x \/ bpow radix2 63 < Rabs (real x)) pos -> dlinearAt get pos = UB.
Proof. exact linear_undefined. Qed.
Print Assumptions C64_undefined.
Example C64_undefined_met : ~ Finite (B754_nan : double) /\ ~ Finite (ddiv (dofZ 1) (dofZ 0)) /\
  dlinearAt (fun _ => Ok (dofZ 7)) [dofZ 1; ddiv (dofZ 1) (dofZ 0)] = UB /\ dlinearAt (fun _ => Ok (dofZ 7)) [dlit 1 64; dofZ 1] = UB.
Proof. unfold Finite. repeat split; vm_compute; discriminate || reflexivity. Qed.

(** A constant is interpolated exactly, in any dimension, at any position. *)
Theorem C64_constant : forall get c pos v, (forall i w, get i = Ok w -> Finite w /\ real w = c) -> dlinearAt get pos = Ok v -> Finite v /\ real v = c.
Proof. exact linear_constant. Qed.
Print Assumptions C64_constant.
Example C64_constant_met : exists c v, (forall i : list Z, Ok (A := double) c = Ok c) /\ dlinearAt (fun _ => Ok c) [dlit (-5) (-1); dlit 1 (-60)] = Ok v /\
  Bcompare v c = Some Eq /\ B2SF c = SpecFloat.S754_finite false 7205759403792794 (-56).
Proof. exists (ddiv (dofZ 1) (dofZ 10)). eexists. split; [reflexivity|]. split; [reflexivity|]. split; vm_compute; reflexivity. Qed.

(** The interpolated value is between the bounds of the pixels, in any dimension, in spite of the rounding of every operation.
    Missing: pixels the difference of which overflows, and negative coordinates (see below). *)
Theorem C64_within_partial : forall get lo hi pos v, Rabs lo <= maxDouble -> Rabs hi <= maxDouble -> hi - lo <= maxDouble ->
  (forall i w, get i = Ok w -> Within lo hi w) -> Forall (fun x => Finite x /\ 0 <= real x) pos -> dlinearAt get pos = Ok v -> Within lo hi v.
Proof. exact linear_within. Qed.
Print Assumptions C64_within_partial.
Example C64_within_met : let get := step_at 1 (dofZ 3) (dofZ 8) in let pos := [dlit 1 (-2); dlit 5 (-1)] in
  (forall i, exists w, get i = Ok w /\ Within 3 8 w) /\ Forall (fun x => Finite x /\ 0 <= real x) pos /\
  exists v, dlinearAt get pos = Ok v /\ B2SF v = SpecFloat.S754_finite false 7599824371187712 (-50).
Proof.
  cbv zeta. destruct (dofZ_small 3 ltac:(lia)) as [V3 F3]. destruct (dofZ_small 8 ltac:(lia)) as [V8 F8]. destruct (dofZ_small 0 ltac:(lia)) as [V0 F0]. rewrite <- V3, <- V8.
  split; [apply (step_at_all 1 (dofZ 3) (dofZ 8) (Within (val (dofZ 3)) (val (dofZ 8)))); within|].
  split; [|eexists; split; [reflexivity|vm_compute; reflexivity]].
  repeat (constructor; [split; [reflexivity|unfold real; rewrite <- V0; apply compare_le; [reflexivity|reflexivity|left; reflexivity]]|]). constructor.
Qed.

(** Finite pixels the difference of which overflows: the interpolated value is not finite. *)
Theorem C64_overflow_refuted : exists get lo hi pos v, Finite lo /\ Finite hi /\ (forall i, exists w, get i = Ok w /\ Within (real lo) (real hi) w) /\
  Finite pos /\ 0 <= real pos < bpow radix2 62 /\ dlinearAt get [pos] = Ok v /\ ~ Finite v.
Proof. exact linear_overflow. Qed.
Print Assumptions C64_overflow_refuted.

(** A position just below 0, the distance of which to the index -1 is rounded to 1: the interpolated value exceeds the pixels. *)
Theorem C64_negative_refuted : exists get lo hi pos v, Finite lo /\ Finite hi /\ Rabs (real hi - real lo) <= 2 /\
  (forall i, exists w, get i = Ok w /\ Within (real lo) (real hi) w) /\ Finite pos /\ -1 < real pos < 0 /\ dlinearAt get [pos] = Ok v /\ Finite v /\ real hi < real v.
Proof. exact linear_negative. Qed.
Print Assumptions C64_negative_refuted.

(** ** C65: cubic and nearest-neighbour interpolation *)

Theorem C65_cubic_defined : forall get pos, pos <> [] -> (forall i, exists w, get i = Ok w) -> Forall (fun x => Finite x /\ Rabs (real x) < bpow radix2 62) pos ->
  exists v, dcubicAt get pos = Ok v.
Proof. exact cubic_defined. Qed.
Print Assumptions C65_cubic_defined.
Example C65_cubic_defined_met : exists v, dcubicAt (fun _ => Ok (dofZ 7)) [dlit (-5) (-1); dlit 1 (-60)] = Ok v.
Proof. eexists. reflexivity. Qed.

Theorem C65_undefined : (forall get pos, Exists (fun x => ~ Finite x \/ bpow radix2 63 < Rabs (real x)) pos -> dcubicAt get pos = UB) /\
  (forall x, ~ Finite x -> dnearest x = UB).
Proof. exact (conj cubic_undefined nearest_undefined). Qed.
Print Assumptions C65_undefined.
Example C65_undefined_met : dcubicAt (fun _ => Ok (dofZ 7)) [dofZ 1; ddiv (dofZ 1) (dofZ 0)] = UB /\ dnearest B754_nan = UB.
Proof. split; reflexivity. Qed.

(** A constant which is an integer is interpolated exactly, in any dimension. Missing: other constants (see below). *)
Theorem C65_cubic_constant_partial : forall get z pos v, (Z.abs z <= 2 ^ 50)%Z -> (forall i w, get i = Ok w -> Finite w /\ real w = IZR z) -> dcubicAt get pos = Ok v ->
  Finite v /\ real v = IZR z.
Proof. exact cubic_constant. Qed.
Print Assumptions C65_cubic_constant_partial.
Example C65_cubic_constant_met : exists v, dcubicAt (fun _ => Ok (dofZ 7)) [dlit (-5) (-1); dlit 3 (-2)] = Ok v /\ Bcompare v (dofZ 7) = Some Eq.
Proof. eexists. split; [reflexivity|vm_compute; reflexivity]. Qed.

(** The constant 0.1 at position 0.75: the interpolated value is larger. *)
Theorem C65_cubic_refuted : exists get c pos v, Finite c /\ (forall i, get i = Ok c) /\ Within 0 1 pos /\ dcubicAt get [pos] = Ok v /\ Finite v /\ real c < real v.
Proof. exact cubic_constant_refuted. Qed.
Print Assumptions C65_cubic_refuted.

(** The selected index is the nearest one, the upper one in the middle, except for one position.
    Missing: that position (see below), negative positions (C41) and positions from 2^51. *)
Theorem C65_nearest_partial : forall x, Finite x -> 0 <= real x < bpow radix2 51 -> real x <> / 2 - bpow radix2 (-54) ->
  exists k, dnearest x = Ok k /\ IZR k - / 2 <= real x < IZR k + / 2.
Proof. exact nearest_ok. Qed.
Print Assumptions C65_nearest_partial.
Example C65_nearest_met : dnearest (dlit 7 (-1)) = Ok 4%Z /\ dnearest (dlit (2 ^ 52 - 1) (-2)) = Ok (2 ^ 50)%Z /\ dnearest (dlit (2 ^ 53 - 2) (-54)) = Ok 0%Z.
Proof. repeat split; vm_compute; reflexivity. Qed.

(** The largest double below 1/2: the selected index is 1. *)
Theorem C65_nearest_refuted : exists x, Finite x /\ 0 <= real x < / 2 /\ dnearest x = Ok 1%Z.
Proof. exact nearest_refuted. Qed.
Print Assumptions C65_nearest_refuted.

(** ** C66: ramps *)

(** linspace: exact first and last values, values between them, in order.
    Missing: one element (which is the last one), a range which overflows, and a subnormal step (see below). *)
Theorem C66_linspace_partial : forall size mn mx, (2 <= size)%nat -> (Z.of_nat size <= 2 ^ 50)%Z -> Finite mn -> Finite mx -> real mn <= real mx -> real mx - real mn <= maxDouble ->
  (real mx = real mn \/ IZR (Z.of_nat size - 1) * bpow radix2 (-1021) <= real mx - real mn) ->
  exists first mid, dlinspace size mn mx = Ok (first :: mid ++ [mx]) /\ length (first :: mid ++ [mx]) = size /\ real first = real mn /\
    Forall (Within (real mn) (real mx)) (first :: mid ++ [mx]) /\ StronglySorted (fun a b => real a <= real b) (first :: mid ++ [mx]).
Proof. exact linspace_ok. Qed.
Print Assumptions C66_linspace_partial.
Example C66_linspace_met : Finite (dofZ 0) /\ Finite (dofZ 1) /\ real (dofZ 0) <= real (dofZ 1) /\ real (dofZ 1) - real (dofZ 0) <= maxDouble /\
  IZR (Z.of_nat 4 - 1) * bpow radix2 (-1021) <= real (dofZ 1) - real (dofZ 0) /\
  match dlinspace 4 (dofZ 0) (dofZ 1) with Ok l => map B2SF l | _ => [] end =
  [SpecFloat.S754_zero false; SpecFloat.S754_finite false 6004799503160661 (-54); SpecFloat.S754_finite false 6004799503160661 (-53); SpecFloat.S754_finite false 4503599627370496 (-52)].
Proof.
  destruct (dofZ_small 0 ltac:(lia)) as [V0 F0]. destruct (dofZ_small 1 ltac:(lia)) as [V1 F1]. unfold Finite, real. rewrite V0, V1. split; [exact F0|]. split; [exact F1|]. split; [lra|].
  assert (P : bpow radix2 0 = 1) by reflexivity. split; [|split; [|vm_compute; reflexivity]].
  - unfold maxDouble. rewrite Rminus_0_r, <- P. rewrite <- (Rmult_1_l (bpow radix2 0)). apply Rmult_le_compat; [lra|lra|apply IZR_le; lia|apply bpow_le; lia].
  - rewrite Rminus_0_r. change (Z.of_nat 4 - 1)%Z with 3%Z. apply Rle_trans with (4 * bpow radix2 (-1021)); [apply Rmult_le_compat_r; [apply bpow_ge_0|lra]|].
    change 4 with (bpow radix2 2). rewrite <- bpow_plus, <- P. apply bpow_le. lia.
Qed.

(** A range which overflows: the first value, which should be the minimum, is not a number. *)
Theorem C66_overflow_refuted : exists mn mx l, Finite mn /\ Finite mx /\ real mn < real mx /\ dlinspace 3 mn mx = Ok l /\ exists v, nth_error l 0 = Some v /\ is_nan v = true.
Proof. exact linspace_overflow. Qed.
Print Assumptions C66_overflow_refuted.

(** A subnormal step, which is rounded up: the value before the last one is larger than the last one. *)
Theorem C66_subnormal_refuted : exists mn mx l, Finite mn /\ Finite mx /\ real mn < real mx /\ dlinspace 6 mn mx = Ok l /\ exists v, nth_error l 4 = Some v /\ Finite v /\ real mx < real v.
Proof. exact linspace_subnormal. Qed.
Print Assumptions C66_subnormal_refuted.

(** Less than two elements: one element is the last value, and an empty container is overflown. *)
Theorem C66_linspace_short : forall mn mx, dlinspace 0 mn mx = UB /\ dlinspace 1 mn mx = Ok [mx].
Proof. exact dlinspace_short. Qed.
Print Assumptions C66_linspace_short.

(** range: each value is the rounded sum of the previous one and the step. *)
Theorem C66_range_steps : forall n mn step i v w, nth_error (drange n mn step) i = Some v -> nth_error (drange n mn step) (S i) = Some w -> Finite v -> Finite step -> Finite w ->
  real w = nearestDouble (real v + real step).
Proof. exact range_steps. Qed.
Print Assumptions C66_range_steps.
Example C66_range_steps_met : exists v w, nth_error (drange 11 (dofZ 0) (ddiv (dofZ 1) (dofZ 10))) 2 = Some v /\ nth_error (drange 11 (dofZ 0) (ddiv (dofZ 1) (dofZ 10))) 3 = Some w /\
  Finite v /\ Finite w /\ B2SF w = SpecFloat.S754_finite false 5404319552844596 (-54).
Proof. eexists. eexists. split; [reflexivity|]. split; [reflexivity|]. repeat split; vm_compute; reflexivity. Qed.

(** Hence the differences are exactly the step for integers. Missing: other values (see below). *)
Theorem C66_range_exact_partial : forall n mn step a b, Finite mn -> real mn = IZR a -> Finite step -> real step = IZR b -> (Z.abs a + Z.of_nat n * Z.abs b <= 2 ^ 53)%Z ->
  forall i, (i < n)%nat -> exists w, nth_error (drange n mn step) i = Some w /\ Finite w /\ real w = IZR (a + Z.of_nat i * b).
Proof. exact range_exact. Qed.
Print Assumptions C66_range_exact_partial.
Example C66_range_exact_met : real (dofZ 5) = IZR 5 /\ real (dofZ (-3)) = IZR (-3) /\ map B2SF (drange 3 (dofZ 5) (dofZ (-3))) = map B2SF [dofZ 5; dofZ 2; dofZ (-1)].
Proof. split; [apply dofZ_small; lia|]. split; [apply dofZ_small; lia|vm_compute; reflexivity]. Qed.

(** Ten steps of a tenth: the value is below 1, although ten times the step is rounded to 1. *)
Theorem C66_range_refuted : exists step w, Finite step /\ nth_error (drange 11 (dofZ 0) step) 10 = Some w /\ Finite w /\ nearestDouble (IZR 10 * real step) = 1 /\ real w < 1.
Proof. exact range_refuted. Qed.
Print Assumptions C66_range_refuted.

(** ** C67: mean *)

(** The mean of integers: the exact mean, rounded once; it is between the bounds of the values.
    Missing: values which are not integers (see below), or the sum of which exceeds 2^53. *)
Theorem C67_mean_partial : forall l zs, l <> [] -> (Z.of_nat (length l) <= 2 ^ 53)%Z -> Forall2 (fun x z => Finite x /\ real x = IZR z) l zs ->
  (fold_right (fun z s => Z.abs z + s) 0 zs <= 2 ^ 53)%Z ->
  Finite (dmean l) /\ real (dmean l) = nearestDouble (IZR (fold_right Z.add 0 zs)%Z / IZR (Z.of_nat (length l))) /\
  forall lo hi, Forall (Within (real lo) (real hi)) l -> Within (real lo) (real hi) (dmean l).
Proof. exact mean_ok. Qed.
Print Assumptions C67_mean_partial.
Example C67_mean_met : let l := [dofZ 3; dofZ (-1); dofZ 5] in Forall2 (fun x z => Finite x /\ real x = IZR z) l [3; -1; 5]%Z /\
  B2SF (dmean l) = B2SF (ddiv (dofZ 7) (dofZ 3)).
Proof. split; [|vm_compute; reflexivity]. repeat (constructor; [split; apply dofZ_small; lia|]). constructor. Qed.

(** The mean of 0.1, 0.1 and 0.1 is larger than each of them. *)
Theorem C67_mean_refuted : exists c, Finite c /\ Finite (dmean [c; c; c]) /\ real c < real (dmean [c; c; c]).
Proof. exact mean_refuted. Qed.
Print Assumptions C67_mean_refuted.
