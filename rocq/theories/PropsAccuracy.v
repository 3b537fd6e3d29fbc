(** C100: accuracy of the interpolation of doubles, with respect to the same weighted sums in exact real arithmetic. *)
From Coq Require Import Reals Lra.
From Flocq Require Import Core IEEE754.BinarySingleNaN.
From Verif Require Import Res FloatModel FloatSpec AccuracySpec FloatProofs AccuracyProofs.
Open Scope R_scope.

(** Linear interpolation, in any dimension: a few roundings per axis from the exact value of the mirrored formula of the library, at any position, negative ones included.
    Missing: the weights are swapped, negative integers are not at their place (see below), pixels of magnitude more than 2^999. *)
Theorem C100_linear_partial : forall get image M pos v, Represents get image M -> 0 <= M <= bpow radix2 999 -> (Z.of_nat (length pos) <= 2 ^ 40)%Z -> Forall Inside pos ->
  dlinearAt get pos = Ok v -> Finite v /\ Rabs (real v - interpolation mirrorTaps image (map real pos)) <= linearBound (length pos) M.
Proof. exact linear_accuracy. Qed.
Print Assumptions C100_linear_partial.
Example C100_linear_met : let pos := [dlit 5 (-2); dlit (-7) (-2)] in Represents (rampAt (-4) 5) ramp 5 /\ 0 <= 5 <= bpow radix2 999 /\ Forall Inside pos /\
  exists v, dlinearAt (rampAt (-4) 5) pos = Ok v /\ B2SF v = B2SF (dlit 7 (-2)).
Proof.
  cbv zeta. split; [apply cubic_met|]. split; [split; [lra|apply small_power; [lia|apply Z.le_trans with (2 ^ 3)%Z; [lia|apply Z.pow_le_mono_r; lia]]]|].
  split; [repeat (apply Forall_cons; [apply quarter_inside; [lia|right; discriminate]|]); constructor|].
  eexists. split; [reflexivity|vm_compute; reflexivity].
Qed.

(** With respect to the linear interpolation which is meant, the error is of the order of the pixels. *)
Theorem C100_linear_refuted : exists x v, Inside x /\ Represents (rampAt 0 1) ramp 1 /\ dlinearAt (rampAt 0 1) [x] = Ok v /\ Finite v /\
  / 2 <= Rabs (real v - interpolation linearTaps ramp [real x]).
Proof. exact linear_far. Qed.
Print Assumptions C100_linear_refuted.

(** At a negative integer, the value is neither that of the linear interpolation nor that of the mirrored one. *)
Theorem C100_negative_refuted : exists x v, Placed x /\ real x = -1 /\ Represents (rampAt (-2) 0) ramp 2 /\ dlinearAt (rampAt (-2) 0) [x] = Ok v /\ Finite v /\
  1 <= Rabs (real v - interpolation linearTaps ramp [real x]) /\ 1 <= Rabs (real v - interpolation mirrorTaps ramp [real x]).
Proof. exact linear_negative_far. Qed.
Print Assumptions C100_negative_refuted.

(** Cubic interpolation, in any dimension and at any position, negative integers included: a few hundreds of roundings per axis at worst.
    Missing: positions up to -2^52 (see below), pixels and bounds of magnitude more than 2^1000. *)
Theorem C100_cubic_partial : forall get image M pos v, Represents get image M -> 0 <= M -> (5 / 4) ^ length pos * M + cubicBound (length pos) M <= bpow radix2 1000 -> Forall Placed pos ->
  dcubicAt get pos = Ok v -> Finite v /\ Rabs (real v - interpolation cubicTaps image (map real pos)) <= cubicBound (length pos) M.
Proof. exact cubic_accuracy. Qed.
Print Assumptions C100_cubic_partial.
Example C100_cubic_met : let pos := [dlit 5 (-2); dlit (-8) (-2)] in
  (Represents (rampAt (-4) 5) ramp 5 /\ (5 / 4) ^ length pos * 5 + cubicBound (length pos) 5 <= bpow radix2 1000 /\ Forall Placed pos) /\
  exists v, dcubicAt (rampAt (-4) 5) pos = Ok v /\ B2SF v = B2SF (dlit 5 (-2)).
Proof. cbv zeta. split; [exact cubic_met|]. eexists. split; [reflexivity|vm_compute; reflexivity]. Qed.

(** Hence the cubic interpolation of an affine image gives back its value at the position, up to the same bound. *)
Theorem C100_affine_partial : forall get a s M pos v, Represents get (fun q => affineR a s (map IZR q)) M -> 0 <= M ->
  (5 / 4) ^ length pos * M + cubicBound (length pos) M <= bpow radix2 1000 -> Forall Placed pos ->
  dcubicAt get pos = Ok v -> Finite v /\ Rabs (real v - affineR a s (map real pos)) <= cubicBound (length pos) M.
Proof. exact cubic_affine. Qed.
Print Assumptions C100_affine_partial.
Example C100_affine_met : Represents (rampAt (-4) 5) (fun q => affineR 0 [1] (map IZR q)) 5.
Proof.
  intros i w E. assert (H : affineR 0 [1] (map IZR i) = ramp i) by (destruct i; unfold ramp; cbn [map affineR hd]; ring). rewrite H. now apply (proj1 cubic_met).
Qed.

(** Far below zero, the distance of the position to the index before it is rounded to zero: the pixel of the index before is given. *)
Theorem C100_far_refuted : exists x v, Finite x /\ real x = IZR (- 2 ^ 53) /\ Represents (stepAt (- 2 ^ 53)) (stepR (- 2 ^ 53)) 1 /\ dcubicAt (stepAt (- 2 ^ 53)) [x] = Ok v /\ Finite v /\
  Rabs (real v - interpolation cubicTaps (stepR (- 2 ^ 53)) [real x]) = 1.
Proof. exact cubic_far. Qed.
Print Assumptions C100_far_refuted.
