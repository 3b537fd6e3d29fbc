(** C91: accuracy of means and ramps of doubles. As in PropsFloat.v, these rely on the axioms of the real numbers of the standard library. *)
From Coq Require Import Reals Lra.
From Flocq Require Import Core IEEE754.BinarySingleNaN.
From Verif Require Import Res FloatModel FloatSpec FloatKernelSpec FloatSumSpec FloatProofs FloatSumProofs.
Open Scope R_scope.

(** The mean is that of the real numbers, up to as many roundings as elements, and one, of the mean of the absolute values. *)
Theorem C91_mean_partial : forall l, l <> [] -> (Z.of_nat (length l) < 2 ^ 52)%Z -> Forall Finite l -> gain l <= bpow radix2 1022 ->
  Finite (dmean l) /\
  Rabs (real (dmean l) - exactSum l / IZR (Z.of_nat (length l))) <=
    roundings (Z.of_nat (length l) + 1) * (gain l / IZR (Z.of_nat (length l))) + bpow radix2 (-1075).
Proof. exact mean_error. Qed.
Print Assumptions C91_mean_partial.
Example C91_mean_met : let l := [dofZ 3; dofZ (-1); ddiv (dofZ 1) (dofZ 3)] in
  l <> [] /\ Forall Finite l /\ (gain l <= bpow radix2 1022) /\ B2SF (dmean l) = SpecFloat.S754_finite false 7005599420354105 (-53).
Proof.
  cbv zeta. destruct (dofZ_small 3 ltac:(lia)) as [V3 F3]. destruct (dofZ_small (-1) ltac:(lia)) as [V1 F1].
  assert (E : B2SF (ddiv (dofZ 1) (dofZ 3)) = SpecFloat.S754_finite false 6004799503160661 (-54)) by (vm_compute; reflexivity).
  split; [discriminate|]. split; [repeat constructor; auto; now destruct (ddiv (dofZ 1) (dofZ 3))|]. split; [|vm_compute; reflexivity].
  destruct (ddiv (dofZ 1) (dofZ 3)) as [s|s| |s m e H]; try discriminate. cbn [B2SF] in E. injection E as -> -> ->.
  unfold gain, totalR, real. cbn [map fold_right]. rewrite V3, V1. unfold B2R, F2R. cbn [Fnum Fexp SpecFloat.cond_Zopp].
  assert (P : bpow radix2 (-54) <= bpow radix2 0 * / IZR (2 ^ 53)).
  { change (/ IZR (2 ^ 53)) with (bpow radix2 (-53)). rewrite <- bpow_plus. apply bpow_le. lia. }
  assert (P0 := bpow_gt_0 radix2 (-54)). assert (P3 : 8 <= bpow radix2 1022) by (change 8 with (bpow radix2 3); apply bpow_le; lia).
  rewrite (Rabs_pos_eq 3), (Rabs_left (-1)), Rabs_pos_eq by (try lra; apply Rmult_le_pos; lra). change (bpow radix2 0) with 1 in P.
  apply Rle_trans with (3 + (- (-1) + (IZR (2 ^ 53) * (1 * / IZR (2 ^ 53)) + 0))); [|lra].
  repeat apply Rplus_le_compat_l. apply Rplus_le_compat_r. apply Rmult_le_compat; try lra.
Qed.

(** Missing in the mean: the sum may overflow although the mean is a double... *)
Theorem C91_overflow_refuted : let l := [dmax; dmax] in
  Forall Finite l /\ exactSum l / 2 = real dmax /\ is_finite (dmean l) = false.
Proof. exact mean_overflow. Qed.
Print Assumptions C91_overflow_refuted.

(** ...and the error is not relative to the mean itself: it may be 0 although the exact one is 1/3. *)
Theorem C91_cancellation_refuted : let l := [dofZ (2 ^ 53); dofZ 1; dofZ (- 2 ^ 53)] in
  Forall Finite l /\ exactSum l = 1 /\ Finite (dmean l) /\ real (dmean l) = 0.
Proof. exact mean_cancellation. Qed.
Print Assumptions C91_cancellation_refuted.

(** range: the error of the i-th value is that of i roundings. *)
Theorem C91_range : forall n mn step i, (i < n)%nat -> (Z.of_nat i <= 2 ^ 52)%Z -> Finite mn -> Finite step ->
  Rabs (real mn) + IZR (Z.of_nat i) * Rabs (real step) <= bpow radix2 1022 ->
  exists v, nth_error (drange n mn step) i = Some v /\ Finite v /\
  Rabs (real v - (real mn + IZR (Z.of_nat i) * real step)) <= roundings (Z.of_nat i) * (Rabs (real mn) + IZR (Z.of_nat i) * Rabs (real step)).
Proof. exact range_error. Qed.
Print Assumptions C91_range.
Example C91_range_met : Finite (dofZ 1) /\ Rabs (real (dofZ 1)) + IZR (Z.of_nat 7) * Rabs (real (dofZ (-2))) <= bpow radix2 1022.
Proof.
  destruct (dofZ_small 1 ltac:(lia)) as [V1 F1]. destruct (dofZ_small (-2) ltac:(lia)) as [V2 F2]. split; [exact F1|]. unfold real. rewrite V1, V2.
  rewrite (Rabs_pos_eq 1), (Rabs_left (-2)) by lra. change (Z.of_nat 7) with 7%Z. apply Rle_trans with (bpow radix2 4); [change (bpow radix2 4) with 16; lra|apply bpow_le; lia].
Qed.

(** linspace: the error of the i-th value does not grow with i, but for subnormal steps; values may decrease. *)
Theorem C91_linspace : forall size mn mx M, (2 <= size)%nat -> (Z.of_nat size <= 2 ^ 53)%Z -> Finite mn -> Finite mx ->
  Rabs (real mn) <= M -> Rabs (real mx) <= M -> M <= bpow radix2 1020 ->
  exists l, dlinspace size mn mx = Ok l /\ length l = size /\ nth_error l (size - 1) = Some mx /\
  forall i, (i < size)%nat -> exists v, nth_error l i = Some v /\ Finite v /\
    Rabs (real v - (real mn + (real mx - real mn) * (IZR (Z.of_nat i) / IZR (Z.of_nat size - 1)))) <=
      bpow radix2 (-53) * (M + 4 * Rabs (real mx - real mn)) + IZR (Z.of_nat i + 2) * bpow radix2 (-1074).
Proof. exact linspace_error. Qed.
Print Assumptions C91_linspace.
Example C91_linspace_met : Finite (dofZ 1) /\ Finite (dofZ (-2)) /\ Rabs (real (dofZ 1)) <= 2 /\ Rabs (real (dofZ (-2))) <= 2 /\ 2 <= bpow radix2 1020.
Proof.
  destruct (dofZ_small 1 ltac:(lia)) as [V1 F1]. destruct (dofZ_small (-2) ltac:(lia)) as [V2 F2]. split; [exact F1|]. split; [exact F2|]. unfold real. rewrite V1, V2.
  rewrite (Rabs_pos_eq 1), (Rabs_left (-2)) by lra. split; [lra|]. split; [lra|]. change 2 with (bpow radix2 1). apply bpow_le. lia.
Qed.
