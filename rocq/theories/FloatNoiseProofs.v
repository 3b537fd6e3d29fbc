(** Noises of doubles. *)
From Coq Require Import Reals Lra.
From Flocq Require Import Core Relative IEEE754.BinarySingleNaN.
From Verif Require Import Res Lemmas ArithModel ArithSpec ArithProofs RandomModel WidthModel WidthSpec FloatModel FloatSpec FloatProofs QuantileProofs FloatNoiseModel FloatNoiseSpec.

Local Existing Instance hprec.
Local Existing Instance hmax.
Local Existing Instance valid64.
Open Scope R_scope.

Lemma dleb_spec x y : fin x = true -> fin y = true -> dleb x y = true <-> val x <= val y.
Proof.
  intros Fx Fy. unfold dleb. rewrite (Bcompare_correct 53 1024 x y Fx Fy). destruct (Rcompare_spec (val x) (val y)); split; intros; try lra; try discriminate; reflexivity.
Qed.

Lemma rnd_unit v : Rabs v <= 1 -> Rabs (rnd v - v) <= pow2 (-54).
Proof.
  intros H. destruct (Req_dec v 0) as [->|N].
  - rewrite round0, Rminus_0_r, Rabs_R0. apply bpow_ge_0.
  - destruct (Req_dec (Rabs v) 1) as [E|N1].
    + assert (F : F64 v). { unfold Rabs in E. destruct (Rcase_abs v); [replace v with (IZR (-1)) by lra|replace v with (IZR 1) by lra]; apply F64_small; lia. }
      rewrite round_generic by (auto with typeclass_instances). rewrite Rminus_eq_0, Rabs_R0. apply bpow_ge_0.
    + apply Rle_trans with (/ 2 * ulp radix2 fexp64 v); [apply error_le_half_ulp; apply valid64|].
      change (pow2 (-54)) with (pow2 (-1 + -53)). rewrite bpow_plus. change (pow2 (-1)) with (/ 2). apply Rmult_le_compat_l; [lra|].
      rewrite ulp_neq_0 by lra. apply bpow_le. unfold cexp.
      assert (M : (mag radix2 v <= 0)%Z) by (apply mag_le_bpow; [lra|]; change (pow2 0) with 1; lra).
      unfold SpecFloat.fexp, SpecFloat.emin. lia.
Qed.

Notation eps := (pow2 (-54)).

Lemma one_ok : fin (dofZ 1) = true /\ val (dofZ 1) = 1.
Proof. destruct (dofZ_small 1 ltac:(lia)) as [V F]. auto. Qed.
Lemma zero_ok : fin (dofZ 0) = true /\ val (dofZ 0) = 0.
Proof. destruct (dofZ_small 0 ltac:(lia)) as [V F]. auto. Qed.

(** The state of the loop after [k] steps: [t] is the exact difference. *)
Definition upto (x : double) (t : R) (k : nat) : Prop :=
  fin x = true /\ val x <= 1 /\ - (INR k * pow2 901) <= val x /\ t <= 1 /\ val x <= Rmax 0 t + INR k * eps.

Lemma F64_901 k : (Z.of_nat k < 2 ^ 53)%Z -> F64 (INR k * pow2 901).
Proof. intros H. rewrite INR_IZR_INZ. apply F64_scaled; lia. Qed.

Lemma small901 k : (Z.of_nat k < 2 ^ 53)%Z -> INR k * pow2 901 < pow2 1024.
Proof.
  intros H. apply Rlt_le_trans with (pow2 53 * pow2 901).
  - apply Rmult_lt_compat_r; [apply bpow_gt_0|]. rewrite INR_IZR_INZ. change (pow2 53) with (IZR (2 ^ 53)). now apply IZR_lt.
  - rewrite <- bpow_plus. apply bpow_le. lia.
Qed.

Lemma step_fin x p t k : upto x t k -> Weight p -> (Z.of_nat k < 2 ^ 50)%Z ->
  val (dsub x p) = rnd (val x - val p) /\ fin (dsub x p) = true /\ - (INR (S k) * pow2 901) <= rnd (val x - val p) <= 1.
Proof.
  intros (Fx & X1 & X2 & T1 & X3) (Fp & P0 & P1) K. change (real p) with (val p) in *. unfold Finite in Fp.
  assert (E : pow2 901 = 2 * pow2 900) by (change 2 with (pow2 1); rewrite <- bpow_plus; reflexivity). assert (Pos := bpow_gt_0 radix2 900).
  assert (B : - (INR (S k) * pow2 901) <= rnd (val x - val p) <= 1).
  { split.
    - apply round_ge_generic; [apply valid64|apply valid_rnd_N|apply generic_format_opp, F64_901; lia|]. rewrite S_INR. lra.
    - apply round_le_generic; [apply valid64|apply valid_rnd_N|apply (F64_small 1); lia|lra]. }
  assert (S9 := small901 (S k) ltac:(lia)). assert (Q := pos_INR (S k)). assert (I901 : 1 < pow2 1024) by (change 1 with (pow2 0); apply bpow_lt; lia).
  destruct (dsub_ok x p Fx Fp) as [V F]; [apply Rabs_def1; lra|]. auto.
Qed.

Lemma upto_step x p t k : upto x t k -> Weight p -> (Z.of_nat k < 2 ^ 50)%Z -> upto (dsub x p) (t - val p) (S k).
Proof.
  intros U P K. destruct (step_fin x p t k U P K) as (V & F & B). destruct U as (Fx & X1 & X2 & T1 & X3). destruct P as (Fp & P0 & P1). change (real p) with (val p) in *.
  unfold upto. rewrite V. split; [exact F|]. split; [lra|]. split; [lra|]. split; [lra|].
  assert (E0 : 0 < eps) by apply bpow_gt_0. assert (Q := pos_INR k). rewrite S_INR.
  assert (KE : 0 <= INR k * eps) by (apply Rmult_le_pos; lra).
  assert (M0 := Rmax_l 0 (t - val p)). assert (M1 := Rmax_r 0 (t - val p)).
  destruct (Rle_or_lt (val x - val p) 0) as [L|L].
  - assert (rnd (val x - val p) <= 0) by (apply round_le_generic; [apply valid64|apply valid_rnd_N|apply generic_format_0|lra]). lra.
  - assert (R := rnd_unit (val x - val p)). rewrite Rabs_pos_eq in R by lra. specialize (R ltac:(lra)). apply Rabs_le_inv in R.
    assert (val x - val p <= Rmax 0 (t - val p) + INR k * eps).
    { destruct (Rle_or_lt 0 t) as [T|T].
      - rewrite Rmax_right in X3 by lra. lra.
      - rewrite Rmax_left in X3 by lra. lra. }
    lra.
Qed.

(** As long as the exact difference is not negative, the error is bounded. *)
Definition close (x : double) (t : R) (k : nat) : Prop := t - INR k * eps <= val x.

Lemma close_step x p t k : upto x t k -> close x t k -> Weight p -> (Z.of_nat k < 2 ^ 50)%Z -> 0 <= t - val p -> close (dsub x p) (t - val p) (S k).
Proof.
  intros U C P K T. destruct (step_fin x p t k U P K) as (V & F & B). destruct U as (Fx & X1 & X2 & T1 & X3). destruct P as (Fp & P0 & P1). change (real p) with (val p) in *.
  unfold close in *. rewrite V, S_INR. assert (E0 : 0 < eps) by apply bpow_gt_0.
  assert (KE : INR k * eps <= 1).
  { apply Rle_trans with (pow2 50 * eps); [|rewrite <- bpow_plus; change 1 with (pow2 0); apply bpow_le; lia]. apply Rmult_le_compat_r; [lra|].
    rewrite INR_IZR_INZ. change (pow2 50) with (IZR (2 ^ 50)). apply IZR_le. lia. }
  assert (R := rnd_unit (val x - val p) ltac:(apply Rabs_le; lra)). apply Rabs_le_inv in R. lra.
Qed.

Lemma total_cons {V} (vp : V * double) m : total (vp :: m) = val (snd vp) + total m.
Proof. reflexivity. Qed.

Lemma total_nonneg {V} (m : list (V * double)) : Weights m -> 0 <= total m.
Proof. induction 1 as [|vp m (F & P & _) _ IH]; [unfold total; cbn; lra|]. rewrite total_cons. change (real (snd vp)) with (val (snd vp)) in P. lra. Qed.

Lemma loop_upto {V} (m : list (V * double)) : Weights m -> forall x t k, upto x t k -> (Z.of_nat (k + length m) <= 2 ^ 50)%Z ->
  upto (fold_left (fun n vp => dsub n (snd vp)) m x) (t - total m) (k + length m).
Proof.
  induction 1 as [|vp m P _ IH]; intros x t k U K.
  - cbn [fold_left length]. unfold total. cbn [map sumR]. rewrite Rminus_0_r, Nat.add_0_r. exact U.
  - cbn [fold_left length] in *. rewrite total_cons. replace (t - (val (snd vp) + total m)) with (t - val (snd vp) - total m) by ring.
    rewrite <- Nat.add_succ_comm. apply IH; [|lia]. apply upto_step; auto. lia.
Qed.

Lemma loop_close {V} (m : list (V * double)) : Weights m -> forall x t k, upto x t k -> close x t k -> (Z.of_nat (k + length m) <= 2 ^ 50)%Z -> total m <= t ->
  close (fold_left (fun n vp => dsub n (snd vp)) m x) (t - total m) (k + length m).
Proof.
  induction 1 as [|vp m P W IH]; intros x t k U C K T.
  - cbn [fold_left length]. unfold total. cbn [map sumR]. rewrite Rminus_0_r, Nat.add_0_r. exact C.
  - cbn [fold_left length] in *. rewrite total_cons in *. replace (t - (val (snd vp) + total m)) with (t - val (snd vp) - total m) by ring.
    assert (TN := total_nonneg m W). rewrite <- Nat.add_succ_comm. apply IH; try lia; try lra. 
    + apply upto_step; auto. lia.
    + apply close_step; auto; [lia|lra].
Qed.

Lemma upto_one : upto (dofZ 1) 1 0.
Proof. destruct one_ok as [F V]. unfold upto. rewrite V. cbn [INR]. rewrite !Rmult_0_l, Rmax_right by lra. repeat split; auto; lra. Qed.

Lemma null_upto {V} (m : list (V * double)) : Weights m -> Few m -> fin (nullD m) = true /\ val (nullD m) <= Rmax 0 (1 - total m) + count m * eps.
Proof.
  intros W K. destruct (loop_upto m W (dofZ 1) 1 0 upto_one) as (F & _ & _ & _ & U); [unfold Few in K; lia|]. auto.
Qed.

Lemma null_close {V} (m : list (V * double)) : Weights m -> Few m -> total m <= 1 -> Rabs (val (nullD m) - (1 - total m)) <= count m * eps.
Proof.
  intros W K T. destruct (null_upto m W K) as [F U]. rewrite Rmax_right in U by lra.
  assert (C := loop_close m W (dofZ 1) 1 0 upto_one). unfold close in C. destruct one_ok as [_ V1]. specialize (C ltac:(rewrite V1; cbn [INR]; lra) ltac:(unfold Few in K; lia) T).
  cbn [Nat.add] in C. fold (nullD m) in C. apply Rabs_le. unfold count in *. lra.
Qed.

(** The tolerance is exact. *)
Lemma tolerance_ok {V} (m : list (V * double)) : Few m ->
  let t := dmul (dlit 1 (-52)) (dofZ (Z.of_nat (length m))) in fin t = true /\ val t = count m * pow2 (-52).
Proof.
  intros K t. unfold Few in K. destruct (dofZ_small (Z.of_nat (length m)) ltac:(lia)) as [Vn Fn].
  assert (Fe : fin (dlit 1 (-52)) = true) by (vm_compute; reflexivity).
  assert (Ve : val (dlit 1 (-52)) = pow2 (-52)).
  { assert (B2SF (dlit 1 (-52)) = SpecFloat.S754_finite false 4503599627370496 (-104)) as E by (vm_compute; reflexivity).
    rewrite (ofsf _ _ E). unfold SF2R, F2R. cbn [SpecFloat.cond_Zopp Fnum Fexp]. change (IZR 4503599627370496) with (pow2 52). rewrite <- bpow_plus. reflexivity. }
  assert (F : F64 (pow2 (-52) * IZR (Z.of_nat (length m)))) by (rewrite Rmult_comm; apply F64_scaled; lia).
  destruct (dmul_ok (dlit 1 (-52)) (dofZ (Z.of_nat (length m))) Fe Fn) as [V' F'].
  - rewrite Ve, Vn, round_generic by (auto with typeclass_instances). rewrite Rabs_pos_eq by (apply Rmult_le_pos; [apply bpow_ge_0|apply IZR_le; lia]).
    apply Rlt_le_trans with (pow2 (-52) * pow2 50); [|rewrite <- bpow_plus; apply bpow_le; lia]. apply Rmult_lt_compat_l; [apply bpow_gt_0|].
    change (pow2 50) with (IZR (2 ^ 50)). apply IZR_lt. lia.
  - split; [exact F'|]. unfold t. rewrite V', Ve, Vn, round_generic by (auto with typeclass_instances). unfold count. rewrite INR_IZR_INZ. ring.
Qed.

Lemma weights_discard {V} (m : list (V * double)) : Weights m -> Few m -> val (nullD m) <= count m * pow2 (-52) -> weightsD m = map snd m.
Proof.
  intros W K H. destruct (tolerance_ok m K) as [Ft Vt]. destruct (null_upto m W K) as [Fn _]. unfold weightsD. cbv zeta in *.
  rewrite (proj2 (dleb_spec _ _ Fn Ft)); [reflexivity|]. rewrite Vt. exact H.
Qed.
Lemma weights_keep {V} (m : list (V * double)) : Weights m -> Few m -> count m * pow2 (-52) < val (nullD m) -> weightsD m = map snd m ++ [nullD m].
Proof.
  intros W K H. destruct (tolerance_ok m K) as [Ft Vt]. destruct (null_upto m W K) as [Fn _]. unfold weightsD. cbv zeta in *.
  destruct (dleb _ _) eqn:E; [|reflexivity]. apply (dleb_spec _ _ Fn Ft) in E. rewrite Vt in E. lra.
Qed.

Lemma sumR_total {V} (m : list (V * double)) : sumR (map real (map snd m)) = total m.
Proof. unfold total. rewrite map_map. reflexivity. Qed.
Lemma sumR_app l l' : sumR (l ++ l') = sumR l + sumR l'.
Proof. induction l; cbn [app sumR]; [ring|]. rewrite IHl. ring. Qed.

Lemma discrete_ok w : Forall (fun x => Finite x /\ 0 <= real x) w -> 0 < sumR (map real w) -> discreteD w = Ok w.
Proof.
  intros H P. destruct zero_ok as [F0 V0]. unfold discreteD.
  assert (A : forallb (fun x => is_finite x && dleb (dofZ 0) x) w = true).
  { apply forallb_forall. intros x Hx. rewrite Forall_forall in H. destruct (H x Hx) as [F N]. unfold Finite in F. rewrite F. cbn [andb].
    apply (dleb_spec _ _ F0 F). rewrite V0. exact N. }
  rewrite A. cbn [andb].
  assert (B : existsb (dltb (dofZ 0)) w = true); [|now rewrite B].
  clear A. induction H as [|x w (F & N) H IH]; cbn [map sumR] in P; [lra|]. cbn [existsb].
  destruct (Rle_lt_or_eq_dec 0 (real x) N) as [L|L].
  - assert (dltb (dofZ 0) x = true) as ->; [|reflexivity]. unfold dltb. rewrite (Bcompare_correct 53 1024 _ _ F0 F), V0.
    change (real x) with (val x) in L. destruct (Rcompare_spec 0 (val x)); auto; lra.
  - rewrite IH by lra. apply Bool.orb_true_r.
Qed.

Lemma weights_forall {V} (m : list (V * double)) : Weights m -> Forall (fun x => Finite x /\ 0 <= real x) (map snd m).
Proof. intros W. apply Forall_map. apply Forall_impl with (2 := W). intros vp (F & P & _). auto. Qed.

Lemma count_small {V} (m : list (V * double)) : Few m -> count m * eps <= / 16.
Proof.
  intros K. apply Rle_trans with (pow2 50 * eps); [|rewrite <- bpow_plus; cbn; lra]. apply Rmult_le_compat_r; [apply bpow_ge_0|].
  unfold count. rewrite INR_IZR_INZ. change (pow2 50) with (IZR (2 ^ 50)). apply IZR_le. unfold Few in K. lia.
Qed.
Lemma eps_scales : pow2 (-52) = 4 * eps /\ pow2 (-53) = 2 * eps /\ pow2 (-51) = 8 * eps.
Proof.
  assert (H : forall k, (0 <= k)%Z -> pow2 (-54 + k) = pow2 k * eps) by (intros k _; rewrite bpow_plus; ring).
  assert (A := H 2%Z ltac:(lia)). assert (B := H 1%Z ltac:(lia)). assert (C := H 3%Z ltac:(lia)).
  change (pow2 2) with 4 in A. change (pow2 1) with 2 in B. change (pow2 3) with 8 in C. repeat split; assumption.
Qed.

(** A value w of a distribution of sum [s], near 1. *)
Lemma share w s d : 0 <= w -> 0 <= d <= / 2 -> Rabs (s - 1) <= d -> Rabs (w / s - w) <= 2 * d * w.
Proof.
  intros W D S. apply Rabs_le_inv in S. replace (w / s - w) with (w * (1 - s) * / s) by (field; lra).
  rewrite Rabs_mult, Rabs_mult, (Rabs_pos_eq w) by lra. rewrite (Rabs_pos_eq (/ s)) by (apply Rlt_le, Rinv_0_lt_compat; lra).
  assert (I : / s <= 2) by (rewrite <- (Rinv_inv 2); apply Rinv_le; lra).
  assert (I0 : 0 < / s) by (apply Rinv_0_lt_compat; lra).
  assert (A : Rabs (1 - s) <= d) by (apply Rabs_le; lra).
  apply Rle_trans with (w * d * 2); [|lra]. apply Rmult_le_compat; [apply Rmult_le_pos; [lra|apply Rabs_pos]|lra| |lra]. apply Rmult_le_compat_l; lra.
Qed.

Theorem impulse_less {V} (m : list (V * double)) : Weights m -> Few m -> total m + count m * pow2 (-51) <= 1 -> m <> [] ->
  exists null, impulseNewD m = Ok (map snd m ++ [null]) /\ Finite null /\ 0 < real null /\
    (forall i v p, nth_error m i = Some (v, p) -> Rabs (probability (map snd m ++ [null]) i - real p) <= count m * pow2 (-53) * real p) /\
    Rabs (probability (map snd m ++ [null]) (length m) - (1 - total m)) <= count m * pow2 (-53).
Proof.
  intros W K T N. destruct eps_scales as (E52 & E53 & E51). assert (E0 : 0 < eps) by apply bpow_gt_0. assert (CS := count_small m K).
  assert (C0 : 0 < count m). { unfold count. apply lt_0_INR. destruct m; [congruence|cbn; lia]. }
  assert (CE : 0 < count m * eps) by (apply Rmult_lt_0_compat; lra).
  assert (NC := null_close m W K ltac:(rewrite E51 in T; nra)). assert (TN := total_nonneg m W).
  destruct (null_upto m W K) as [Fn _]. assert (NC' := NC). apply Rabs_le_inv in NC'.
  assert (KP : count m * pow2 (-52) < val (nullD m)) by (rewrite E52; rewrite E51 in T; nra).
  assert (P52 : 0 < pow2 (-52)) by apply bpow_gt_0.
  assert (PN : 0 < val (nullD m)) by nra.
  assert (S : sumR (map real (map snd m ++ [nullD m])) = total m + val (nullD m)).
  { rewrite map_app, sumR_app, sumR_total. cbn [map sumR]. change (real (nullD m)) with (val (nullD m)). ring. }
  assert (S1 : Rabs (total m + val (nullD m) - 1) <= count m * eps) by (apply Rabs_le; lra).
  exists (nullD m). split; [|split; [exact Fn|split; [exact PN|split]]].
  - unfold impulseNewD. rewrite (weights_keep m W K KP). apply discrete_ok; [|rewrite S; lra].
    apply Forall_app. split; [now apply weights_forall|]. constructor; [|constructor]. split; [exact Fn|]. change (real (nullD m)) with (val (nullD m)). lra.
  - intros i v p E. unfold probability. assert (L : (i < length m)%nat) by (apply nth_error_Some; congruence).
    rewrite nth_error_app1 by (rewrite map_length; exact L). rewrite nth_error_map, E. cbn [option_map snd]. rewrite S, E53.
    assert (Pp : 0 <= real p). { apply nth_error_In in E. unfold Weights in W. rewrite Forall_forall in W. destruct (W _ E) as (_ & P & _). exact P. }
    assert (H := share (real p) (total m + val (nullD m)) (count m * eps) Pp ltac:(lra) S1). lra.
  - unfold probability. rewrite nth_error_app2 by (rewrite map_length; lia). rewrite map_length, Nat.sub_diag. cbn [nth_error]. rewrite S, E53.
    change (real (nullD m)) with (val (nullD m)). set (x := val (nullD m)) in *. set (s := total m) in *.
    replace (x / (s + x) - (1 - s)) with (s * ((x - (1 - s)) * / (s + x))) by (field; lra).
    assert (I0 : 0 < / (s + x)) by (apply Rinv_0_lt_compat; lra).
    assert (I : / (s + x) <= 2) by (rewrite <- (Rinv_inv 2); apply Rinv_le; lra).
    rewrite !Rabs_mult, (Rabs_pos_eq s), (Rabs_pos_eq (/ (s + x))) by lra.
    assert (A : Rabs (x - (1 - s)) * / (s + x) <= count m * eps * 2) by (apply Rmult_le_compat; [apply Rabs_pos|lra|exact NC|exact I]).
    assert (A0 : 0 <= Rabs (x - (1 - s)) * / (s + x)) by (apply Rmult_le_pos; [apply Rabs_pos|lra]).
    assert (T1 : s <= 1) by (rewrite E51 in T; nra).
    apply Rle_trans with (1 * (count m * eps * 2)); [apply Rmult_le_compat; lra|lra].
Qed.

Theorem impulse_more {V} (m : list (V * double)) : Weights m -> Few m -> 1 <= total m -> impulseNewD m = Ok (map snd m).
Proof.
  intros W K T. destruct (null_upto m W K) as [Fn U]. rewrite Rmax_left in U by lra. destruct eps_scales as (E52 & E53 & E51). assert (E0 : 0 < eps) by apply bpow_gt_0.
  assert (C0 : 0 <= count m) by apply pos_INR.
  unfold impulseNewD. rewrite (weights_discard m W K); [|rewrite E52; nra]. apply discrete_ok; [now apply weights_forall|]. rewrite sumR_total. lra.
Qed.

Lemma rounded_total {V} (m : list (V * double)) qs : Forall2 (fun vp q => real (snd vp) = nearestDouble q /\ 0 <= q) m qs ->
  0 <= sumR qs /\ Rabs (total m - sumR qs) <= pow2 (-53) * sumR qs + count m * pow2 (-1075).
Proof.
  induction 1 as [|vp q m qs (E & Q) H (IH0 & IH)]; [unfold total, count; cbn; rewrite Rminus_0_r, Rabs_R0; split; [lra|]; rewrite Rmult_0_r, Rmult_0_l; lra|].
  rewrite total_cons. cbn [sumR]. split; [lra|]. assert (R := rnd_error q). change (nearestDouble q) with (rnd q) in E. change (real (snd vp)) with (val (snd vp)) in E. rewrite <- E in R.
  rewrite (Rabs_pos_eq q) in R by exact Q. unfold count in *. cbn [length]. rewrite S_INR. replace (val (snd vp) + total m - (q + sumR qs)) with ((val (snd vp) - q) + (total m - sumR qs)) by ring.
  apply Rle_trans with (1 := Rabs_triang _ _). lra.
Qed.

Theorem impulse_one {V} (m : list (V * double)) qs : Weights m -> Few m ->
  Forall2 (fun vp q => real (snd vp) = nearestDouble q /\ 0 <= q) m qs -> sumR qs = 1 ->
  impulseNewD m = Ok (map snd m) /\ forall i q, nth_error qs i = Some q -> Rabs (probability (map snd m) i - q) <= pow2 (-51).
Proof.
  intros W K H Q1. destruct (rounded_total m qs H) as [_ R]. rewrite Q1 in R. destruct eps_scales as (E52 & E53 & E51). assert (E0 : 0 < eps) by apply bpow_gt_0. assert (CS := count_small m K).
  assert (Tiny : count m * pow2 (-1075) <= eps * / 16).
  { apply Rle_trans with (pow2 50 * pow2 (-1075)).
    - apply Rmult_le_compat_r; [apply bpow_ge_0|]. unfold count. rewrite INR_IZR_INZ. change (pow2 50) with (IZR (2 ^ 50)). apply IZR_le. unfold Few in K. lia.
    - change (/ 16) with (pow2 (-4)). rewrite <- !bpow_plus. apply bpow_le. lia. }
  assert (Small : pow2 (-1075) <= eps * / 16) by (change (/ 16) with (pow2 (-4)); rewrite <- bpow_plus; apply bpow_le; lia).
  assert (Eh : eps <= / 100). { apply Rle_trans with (pow2 (-10)); [apply bpow_le; lia|]. cbn. lra. }
  assert (N : m <> []) by (intros ->; inversion H; subst; cbn in Q1; lra).
  assert (C1 : 1 <= count m). { unfold count. change 1 with (INR 1). apply le_INR. destruct m; [congruence|cbn; lia]. }
  apply Rabs_le_inv in R. assert (D : val (nullD m) <= count m * pow2 (-52)).
  { destruct (Rle_or_lt (total m) 1) as [L|L].
    - assert (NC := null_close m W K L). apply Rabs_le_inv in NC. rewrite E52. nra.
    - destruct (null_upto m W K) as [_ U]. rewrite Rmax_left in U by lra. rewrite E52. nra. }
  split.
  - unfold impulseNewD. rewrite (weights_discard m W K D). apply discrete_ok; [now apply weights_forall|]. rewrite sumR_total. lra.
  - intros i q Eq. unfold probability. rewrite nth_error_map.
    assert (X : exists vp, nth_error m i = Some vp /\ real (snd vp) = nearestDouble q /\ 0 <= q <= 1).
    { clear - H Q1 Eq. assert (S : forall l l', Forall2 (fun (vp : V * double) q => real (snd vp) = nearestDouble q /\ 0 <= q) l l' -> forall i, nth_error l' i = Some q ->
        0 <= sumR l' /\ exists vp, nth_error l i = Some vp /\ real (snd vp) = nearestDouble q /\ 0 <= q <= sumR l').
      { clear. induction 1 as [|vp r l l' [E P] H IH]; intros i Hi; [destruct i; discriminate|]. destruct i as [|i]; cbn [nth_error sumR] in *.
        - injection Hi as <-. assert (0 <= sumR l') by (clear - H; induction H as [|? ? ? ? [_ ?] _ ?]; cbn; lra). split; [lra|]. exists vp. repeat split; auto; lra.
        - destruct (IH i Hi) as (A & vp' & B & C & D). split; [lra|]. exists vp'. repeat split; auto; lra. }
      destruct (S m qs H i Eq) as (_ & vp & A & B & C). exists vp. rewrite Q1 in C. auto. }
    destruct X as (vp & -> & Ev & Bq). cbn [option_map]. rewrite sumR_total.
    assert (R2 := rnd_error q). change (nearestDouble q) with (rnd q) in Ev. rewrite <- Ev, (Rabs_pos_eq q) in R2 by lra. change (real (snd vp)) with (val (snd vp)) in *. apply Rabs_le_inv in R2.
    rewrite E53 in R, R2. rewrite E51.
    assert (P0 : 0 <= val (snd vp)) by (rewrite Ev; apply round_nonneg; lra).
    assert (Sh := share (val (snd vp)) (total m) (2 * eps + eps * / 16) P0 ltac:(lra) ltac:(apply Rabs_le; lra)). apply Rabs_le_inv in Sh.
    assert (U : val (snd vp) <= 1 + 3 * eps) by nra. apply Rabs_le. split; nra.
Qed.

Theorem impulse_tiny : exists p : double, Finite p /\ 0 <= real p /\ real p < 1 /\ impulseNewD [(7%Z, p)] = Ok [p].
Proof.
  set (p := dsub (dofZ 1) (dlit 1 (-53))). assert (E : B2SF p = SpecFloat.S754_finite false 9007199254740991 (-53)) by (vm_compute; reflexivity).
  assert (F : fin p = true) by (vm_compute; reflexivity). exists p. destruct one_ok as [F1 V1]. destruct zero_ok as [F0 V0].
  split; [exact F|]. split; [change (real p) with (val p); rewrite <- V0; apply (compare_le (dofZ 0) p F0 F); left; vm_compute; reflexivity|].
  split; [change (real p) with (val p); rewrite <- V1; apply (compare_lt p (dofZ 1) F F1); vm_compute; reflexivity|].
  unfold impulseNewD, weightsD. cbv zeta. assert (dleb (nullD [(7%Z, p)]) (dmul (dlit 1 (-52)) (dofZ (Z.of_nat (length [(7%Z, p)])))) = true) as -> by (vm_compute; reflexivity).
  cbn [map snd]. unfold discreteD. assert (forallb (fun x => is_finite x && dleb (dofZ 0) x) [p] && existsb (dltb (dofZ 0)) [p] = true) as -> by (vm_compute; reflexivity). reflexivity.
Qed.

Theorem impulse_invalid {V} (v : V) : impulseNewD [(v, dofZ (-1))] = UB /\ impulseNewD [(v, B754_nan : double)] = UB /\ impulseNewD [(v, B754_infinity false : double)] = UB.
Proof. repeat split; vm_compute; reflexivity. Qed.

Lemma impulse_calls {V} (m : list (V * double)) l : forall draws rest, length draws = length l ->
  calls (impulseCallD m) (draws ++ rest) (map (fun x => [x]) l) = Ok (rest, map (fun di => match nth_error (map fst m) (fst di) with Some v => v | None => snd di end) (combine draws l)).
Proof.
  induction l as [|x l IH]; intros [|d draws] rest L; try discriminate; [reflexivity|]. cbn [app map calls combine]. unfold impulseCallD at 1. cbn [bind fst snd].
  rewrite IH by (cbn in L; lia). reflexivity.
Qed.

Lemma zget_slice {T} (mem : list T) a n i : Allocated mem a n -> (0 <= i < Z.of_nat n)%Z -> zget (firstn n (skipn (Z.to_nat a) mem)) i = zget mem (a + i).
Proof.
  intros [H1 H2] Hi. unfold zget. destruct (Z.ltb_spec i 0); [lia|]. destruct (Z.ltb_spec (a + i) 0); [lia|].
  assert (A : forall (l : list T) k j, nth_error (skipn k l) j = nth_error l (k + j)).
  { clear. intros l k. revert l. induction k as [|k IH]; intros l j; [reflexivity|]. destruct l; [cbn; destruct j; reflexivity|]. apply IH. }
  assert (B : forall (l : list T) k j, (j < k)%nat -> nth_error (firstn k l) j = nth_error l j).
  { clear. intros l k. revert l. induction k as [|k IH]; intros l j H; [lia|]. destruct l; [destruct j; reflexivity|]. destruct j; [reflexivity|]. cbn [firstn nth_error]. apply IH. lia. }
  rewrite B by lia. rewrite A. replace (Z.to_nat (a + i)) with (Z.to_nat a + Z.to_nat i)%nat by lia. reflexivity.
Qed.

Theorem impulse_apply {V} (m : list (V * double)) w draws n mem a : impulseNewD m = Ok w -> Allocated mem a n -> length draws = n -> Forall (fun d => (d < length w)%nat) draws ->
  exists mem', apply (impulseCallD m) n draws mem a [] = Ok ([], mem') /\ Frame mem mem' a n /\
    forall i d x, (0 <= i < Z.of_nat n)%Z -> nth_error draws (Z.to_nat i) = Some d -> zget mem (a + i) = Ok x ->
      ((d < length m)%nat /\ exists v p, nth_error m d = Some (v, p) /\ zget mem' (a + i) = Ok v) \/ (d = length m /\ length w = S (length m) /\ zget mem' (a + i) = Ok x).
Proof.
  intros HW HA HL HD. set (l := firstn n (skipn (Z.to_nat a) mem)).
  assert (L : length l = n) by (unfold l; rewrite firstn_length, skipn_length; destruct HA; lia).
  assert (C := impulse_calls m l draws [] ltac:(lia)). rewrite app_nil_r in C.
  assert (T : forall i, (0 <= i < Z.of_nat n)%Z -> (x <- zget mem (a + i) ;; t <- readArgs mem (shifted [] i) ;; Ok (x :: t)) = zget (map (fun x => [x]) l) i).
  { intros i Hi. cbn [shifted map readArgs bind]. rewrite <- (zget_slice mem a n i HA Hi). fold l. unfold zget. destruct (Z.ltb_spec i 0); [lia|].
    rewrite nth_error_map. destruct (nth_error l (Z.to_nat i)); reflexivity. }
  destruct (apply_spec (impulseCallD m) n draws mem a [] _ [] _ HA (Forall_nil _) ltac:(rewrite map_length; exact L) T C) as (mem' & E & F & P).
  exists mem'. split; [exact E|]. split; [exact F|]. intros i d x Hi Hd Hx. rewrite P by exact Hi.
    rewrite <- (zget_slice mem a n i HA Hi) in Hx. fold l in Hx. unfold zget in *. destruct (Z.ltb_spec i 0); [lia|].
    destruct (nth_error l (Z.to_nat i)) as [y|] eqn:Ey; [|discriminate]. injection Hx as ->.
    assert (Q : nth_error (combine draws l) (Z.to_nat i) = Some (d, x)).
    { clearbody l. clear - Hd Ey. revert draws l Hd Ey. induction (Z.to_nat i) as [|k IH]; intros [|e draws] [|z l] Hd Ey; try discriminate; cbn in *; [congruence|]. now apply IH. }
    rewrite nth_error_map, Q. cbn [option_map fst snd].
    assert (Dw : (d < length w)%nat) by (rewrite Forall_forall in HD; apply HD; eapply nth_error_In, Hd).
    assert (W : w = weightsD m) by (unfold impulseNewD, discreteD in HW; destruct (_ && _)%bool; congruence). unfold weightsD in W. cbv zeta in W.
    rewrite nth_error_map. destruct (nth_error m d) as [[v p]|] eqn:Em.
    + left. split; [apply nth_error_Some; congruence|]. exists v, p. split; reflexivity.
    + right. apply nth_error_None in Em. cbn [option_map]. destruct (dleb _ _); subst w; [rewrite map_length in Dw; lia|]. rewrite app_length, map_length in *. cbn [length] in *.
      split; [lia|]. split; [lia|reflexivity].
Qed.

(** ** Noises of another type than the pixels *)

Lemma dtrunc_Ztrunc x z : dtrunc x = Ok z <-> Finite x /\ z = Ztrunc (real x) /\ (- 2 ^ 63 <= z < 2 ^ 63)%Z.
Proof.
  unfold Finite, real. destruct x as [s|s| |s m e B]; cbn [dtrunc is_finite B2R]; try (split; [discriminate|intros [H _]; discriminate]).
  - rewrite Ztrunc_IZR. split; [intros E; injection E as <-; repeat split; lia|intros (_ & -> & _); reflexivity].
  - set (w := if s then _ else _). assert (T : Ztrunc (F2R (Float radix2 (SpecFloat.cond_Zopp s (Zpos m)) e)) = w).
    { assert (P : Ztrunc (F2R (Float radix2 (Zpos m) e)) = if (0 <=? e)%Z then (Zpos m * 2 ^ e)%Z else (Zpos m / 2 ^ (- e))%Z).
      { unfold F2R. cbn [Fnum Fexp]. destruct (Z.leb_spec 0 e) as [L|L].
        - rewrite <- (IZR_Zpower radix2) by exact L. rewrite <- mult_IZR, Ztrunc_IZR. reflexivity.
        - rewrite Ztrunc_floor by (apply Rmult_le_pos; [apply IZR_le; lia|apply bpow_ge_0]).
          rewrite <- (Z.opp_involutive e) at 1. rewrite bpow_opp, <- (IZR_Zpower radix2) by lia. change (IZR (Z.pos m) * / IZR (radix2 ^ (- e))) with (IZR (Zpos m) / IZR (2 ^ (- e))).
          apply Zfloor_div. assert (0 < 2 ^ (- e))%Z by (apply Z.pow_pos_nonneg; lia). lia. }
      unfold w. destruct s; cbn [SpecFloat.cond_Zopp]; [|exact P]. rewrite <- P, <- Ztrunc_opp, <- F2R_Zopp. reflexivity. }
    rewrite T. clearbody w. unfold chk64. destruct (_ && _)%bool eqn:C; split.
    + intros E. injection E as <-. repeat split; lia.
    + intros (_ & -> & _). reflexivity.
    + discriminate.
    + intros (_ & -> & H). lia.
Qed.

Lemma dtoInt_iff t x z : dtoInt t x = Ok z <-> Finite x /\ z = Ztrunc (real x) /\ InType t z /\ (- 2 ^ 63 <= z < 2 ^ 63)%Z.
Proof.
  unfold dtoInt. destruct (dtrunc x) as [w| |] eqn:E; cbn [bind].
  - apply dtrunc_Ztrunc in E. destruct E as (F & -> & R). unfold fits. destruct (_ && _)%bool eqn:C; split.
    + intros H. injection H as <-. unfold InType. repeat split; auto; lia.
    + intros (_ & -> & _). reflexivity.
    + discriminate.
    + intros (_ & -> & H & _). unfold InType in H. lia.
  - split; [discriminate|]. intros (F & -> & _ & R). exfalso. assert (H : dtrunc x = Ok (Ztrunc (real x))) by (apply dtrunc_Ztrunc; auto). congruence.
  - split; [discriminate|]. intros (F & -> & _ & R). exfalso. assert (H : dtrunc x = Ok (Ztrunc (real x))) by (apply dtrunc_Ztrunc; auto). congruence.
Qed.

Lemma generate_frame {A S} (f : S -> list A -> res (S * A)) n : forall st mem a args st' out, generate f n st mem a args = Ok (st', out) -> Frame mem out a n.
Proof.
  induction n as [|n IH]; intros st mem a args st' out E; cbn [generate] in E; [injection E as <- <-; apply Frame_refl|].
  destruct (bind_Ok _ _ _ E) as (xs & _ & E1). destruct (bind_Ok _ _ _ E1) as (r & _ & E2). destruct (bind_Ok _ _ _ E2) as (m & Em & E3).
  eapply Frame_step; [exact Em|]. eapply IH. exact E3.
Qed.

Section Sim.
Context {S A B : Type}.
Variable f : S -> list A -> res (S * A).
Variable g : S -> list B -> res (S * B).
Variables R Q : A -> B -> Prop.
Variable P : A -> Prop.
Hypothesis step : forall st x y st' x', R x y -> f st [x] = Ok (st', x') -> P x' -> exists y', g st [y] = Ok (st', y') /\ Q x' y'.

Lemma unary_sim n : forall st mem k mem2 a st' out, Allocated mem k n -> Allocated mem2 a n ->
  (forall i x y, (0 <= i < Z.of_nat n)%Z -> zget mem (k + i) = Ok x -> zget mem2 (a + i) = Ok y -> R x y) ->
  generate f n st mem k [k] = Ok (st', out) -> (forall i x', (0 <= i < Z.of_nat n)%Z -> zget out (k + i) = Ok x' -> P x') ->
  exists out2, generate g n st mem2 a [a] = Ok (st', out2) /\ Frame mem2 out2 a n /\
    forall i x', (0 <= i < Z.of_nat n)%Z -> zget out (k + i) = Ok x' -> exists y', zget out2 (a + i) = Ok y' /\ Q x' y'.
Proof.
  induction n as [|n IH]; intros st mem k mem2 a st' out A1 A2 HR E HP.
  - cbn [generate] in *. injection E as <- <-. exists mem2. split; [reflexivity|]. split; [apply Frame_refl|]. intros; lia.
  - cbn [generate readArgs] in *. destruct (zget_in_range mem k) as [x Hx]; [destruct A1; lia|]. destruct (zget_in_range mem2 a) as [y Hy]; [destruct A2; lia|].
    rewrite Hx in E. rewrite Hy. cbn [bind] in *. destruct (bind_Ok _ _ _ E) as ([s1 x'] & Ef & E1). cbn [fst snd] in E1. destruct (bind_Ok _ _ _ E1) as (m & Em & E2).
    assert (Ho : zget out k = Ok x') by (eapply Frame_first; [exact Em|]; eapply generate_frame; exact E2).
    assert (Px : P x') by (apply (HP 0%Z); [lia|]; rewrite Z.add_0_r; exact Ho).
    destruct (step st x y s1 x') as (y' & Eg & Qy); auto.
    { apply (HR 0%Z); [lia|rewrite Z.add_0_r..]; assumption. }
    rewrite Eg. cbn [bind fst snd]. destruct (Allocated_zset _ _ _ y' A2) as [m2 Em2]. rewrite Em2. cbn [bind].
    destruct (IH s1 m (k + 1)%Z m2 (a + 1)%Z st' out) as (out2 & G & F & H).
    + eapply Allocated_step; eauto.
    + eapply Allocated_step; eauto.
    + intros i u v Hi Hu Hv. rewrite (zset_get_neq _ _ _ _ _ Em) in Hu by lia. rewrite (zset_get_neq _ _ _ _ _ Em2) in Hv by lia.
      apply (HR (i + 1)%Z); [lia| |]; [rewrite <- Hu|rewrite <- Hv]; f_equal; lia.
    + exact E2.
    + intros i u Hi Hu. apply (HP (i + 1)%Z); [lia|]. rewrite <- Hu. f_equal. lia.
    + exists out2. split; [exact G|]. split; [eapply Frame_step; eauto|]. intros i u Hi Hu. destruct (Z.eq_dec i 0) as [->|N].
      * rewrite Z.add_0_r in *. rewrite Ho in Hu. injection Hu as <-. exists y'. split; [eapply Frame_first; eauto|exact Qy].
      * destruct (H (i - 1)%Z u) as (w & Hw & Qw); [lia|rewrite <- Hu; f_equal; lia|]. exists w. split; [rewrite <- Hw; f_equal; lia|exact Qw].
Qed.
End Sim.

Lemma unary_inv {S B} (g : S -> list B -> res (S * B)) n : forall st mem a st' out, Allocated mem a n -> generate g n st mem a [a] = Ok (st', out) ->
  forall i y, (0 <= i < Z.of_nat n)%Z -> zget mem (a + i) = Ok y -> exists s s' y', g s [y] = Ok (s', y') /\ zget out (a + i) = Ok y'.
Proof.
  induction n as [|n IH]; intros st mem a st' out A1 E i y Hi Hy; [lia|]. cbn [generate readArgs] in E. destruct (zget_in_range mem a) as [x Hx]; [destruct A1; lia|].
  rewrite Hx in E. cbn [bind] in E. destruct (bind_Ok _ _ _ E) as ([s1 x'] & Ef & E1). cbn [fst snd] in E1. destruct (bind_Ok _ _ _ E1) as (m & Em & E2).
  destruct (Z.eq_dec i 0) as [->|N].
  - rewrite Z.add_0_r in *. rewrite Hx in Hy. injection Hy as <-. exists st, s1, x'. split; [exact Ef|]. eapply Frame_first; [exact Em|]. eapply generate_frame. exact E2.
  - destruct (IH s1 m (a + 1)%Z st' out ltac:(eapply Allocated_step; eauto) E2 (i - 1)%Z y ltac:(lia)) as (s & s' & y' & G & O).
    + rewrite (zset_get_neq _ _ _ _ _ Em) by lia. rewrite <- Hy. f_equal. lia.
    + exists s, s', y'. split; [exact G|]. rewrite <- O. f_equal. lia.
Qed.

Theorem int_on_double {S} t (noise : S -> list Z -> res (S * Z)) n st zs k mem a st' out : Allocated zs k n -> Allocated mem a n ->
  (forall i z x, (0 <= i < Z.of_nat n)%Z -> zget zs (k + i) = Ok z -> zget mem (a + i) = Ok x -> Finite x /\ z = Ztrunc (real x) /\ InType t z /\ (- 2 ^ 63 <= z < 2 ^ 63)%Z) ->
  apply noise n st zs k [] = Ok (st', out) -> (forall i z, (0 <= i < Z.of_nat n)%Z -> zget out (k + i) = Ok z -> (Z.abs z <= 2 ^ 53)%Z) ->
  exists mem', apply (intOnDouble t noise) n st mem a [] = Ok (st', mem') /\ Frame mem mem' a n /\
    forall i z, (0 <= i < Z.of_nat n)%Z -> zget out (k + i) = Ok z -> exists y, zget mem' (a + i) = Ok y /\ Finite y /\ real y = IZR z.
Proof.
  intros A1 A2 HR E HP. unfold apply in *.
  apply (unary_sim noise (intOnDouble t noise) (fun z x => Finite x /\ z = Ztrunc (real x) /\ InType t z /\ (- 2 ^ 63 <= z < 2 ^ 63)%Z)
    (fun z y => Finite y /\ real y = IZR z) (fun z => (Z.abs z <= 2 ^ 53)%Z)) with (mem := zs); auto.
  intros s z x s' z' Rz Ef Pz. cbn [intOnDouble]. rewrite (proj2 (dtoInt_iff t x z)) by exact Rz. cbn [bind]. rewrite Ef. cbn [bind fst snd].
  exists (dofZ z'). split; [reflexivity|]. destruct (dofZ_small z' Pz) as [V F]. auto.
Qed.

Theorem int_on_double_only {S} t (noise : S -> list Z -> res (S * Z)) n st mem a st' mem' : Allocated mem a n -> apply (intOnDouble t noise) n st mem a [] = Ok (st', mem') ->
  forall i x, (0 <= i < Z.of_nat n)%Z -> zget mem (a + i) = Ok x -> Finite x /\ InType t (Ztrunc (real x)).
Proof.
  intros A1 E i x Hi Hx. destruct (unary_inv _ n st mem a st' mem' A1 E i x Hi Hx) as (s & s' & y & G & _). cbn [intOnDouble] in G.
  destruct (bind_Ok _ _ _ G) as (z & D & _). apply dtoInt_iff in D. destruct D as (F & -> & T & _). auto.
Qed.

Theorem double_on_int {S} t (noise : S -> list double -> res (S * double)) n st zs a st' out : Allocated zs a n ->
  apply noise n st (map dofZ zs) a [] = Ok (st', out) ->
  (forall i y, (0 <= i < Z.of_nat n)%Z -> zget out (a + i) = Ok y -> Finite y /\ InType t (Ztrunc (real y)) /\ (- 2 ^ 63 <= Ztrunc (real y) < 2 ^ 63)%Z) ->
  exists zs', apply (doubleOnInt t noise) n st zs a [] = Ok (st', zs') /\ Frame zs zs' a n /\
    forall i y, (0 <= i < Z.of_nat n)%Z -> zget out (a + i) = Ok y -> zget zs' (a + i) = Ok (Ztrunc (real y)).
Proof.
  intros A1 E HP. unfold apply in *.
  destruct (unary_sim noise (doubleOnInt t noise) (fun x z => x = dofZ z) (fun y z => z = Ztrunc (real y))
    (fun y => Finite y /\ InType t (Ztrunc (real y)) /\ (- 2 ^ 63 <= Ztrunc (real y) < 2 ^ 63)%Z)) with (n := n) (st := st) (mem := map dofZ zs) (k := a) (mem2 := zs) (a := a) (st' := st') (out := out)
    as (zs' & G & F & H); auto.
  - intros s x z s' x' -> Ef (Fx & Tx & Rx). cbn [doubleOnInt]. rewrite Ef. cbn [bind fst snd]. rewrite (proj2 (dtoInt_iff t x' (Ztrunc (real x')))) by auto.
    cbn [bind]. eexists. split; reflexivity.
  - unfold Allocated in *. rewrite map_length. exact A1.
  - intros i x z Hi Hx Hz. unfold zget in *. destruct (_ <? 0)%Z; [discriminate|]. rewrite nth_error_map in Hx. destruct (nth_error zs _); [|discriminate]. cbn in Hx. congruence.
  - exists zs'. split; [exact G|]. split; [exact F|]. intros i y Hi Hy. destruct (H i y Hi Hy) as (z & Hz & ->). exact Hz.
Qed.

Theorem double_on_int_only {S} t (noise : S -> list double -> res (S * double)) n st zs a st' zs' : Allocated zs a n -> apply (doubleOnInt t noise) n st zs a [] = Ok (st', zs') ->
  forall i z, (0 <= i < Z.of_nat n)%Z -> zget zs (a + i) = Ok z -> exists s s' y, noise s [dofZ z] = Ok (s', y) /\ Finite y /\ InType t (Ztrunc (real y)) /\ zget zs' (a + i) = Ok (Ztrunc (real y)).
Proof.
  intros A1 E i z Hi Hz. destruct (unary_inv _ n st zs a st' zs' A1 E i z Hi Hz) as (s & s' & v & G & O). cbn [doubleOnInt] in G.
  destruct (bind_Ok _ _ _ G) as ([s1 y] & D & G1). cbn [fst snd] in G1. destruct (bind_Ok _ _ _ G1) as (v' & D' & G2). injection G2 as <- <-.
  apply dtoInt_iff in D'. destruct D' as (F & -> & T & _). exists s, s1, y. auto.
Qed.

(** Impulse noise of integers on doubles *)
Theorem impulse_int_on_double t (m : list (Z * double)) w draws n mem a : impulseNewD m = Ok w -> Allocated mem a n -> length draws = n -> Forall (fun d => (d < length w)%nat) draws ->
  (forall z, InType t z -> (Z.abs z <= 2 ^ 53)%Z) -> Forall (fun vp => InType t (fst vp)) m ->
  (forall i x, (0 <= i < Z.of_nat n)%Z -> zget mem (a + i) = Ok x -> Finite x /\ InType t (Ztrunc (real x))) ->
  exists mem', apply (intOnDouble t (impulseCallD m)) n draws mem a [] = Ok ([], mem') /\ Frame mem mem' a n /\
    forall i d x, (0 <= i < Z.of_nat n)%Z -> nth_error draws (Z.to_nat i) = Some d -> zget mem (a + i) = Ok x ->
      exists y, zget mem' (a + i) = Ok y /\ Finite y /\
        (((d < length m)%nat /\ exists v p, nth_error m d = Some (v, p) /\ real y = IZR v) \/ (d = length m /\ length w = S (length m) /\ real y = IZR (Ztrunc (real x)))).
Proof.
  intros HW HA HL HD HT Hm HP. set (l := firstn n (skipn (Z.to_nat a) mem)). set (zs := map (fun x => Ztrunc (real x)) l).
  assert (L : length l = n) by (unfold l; rewrite firstn_length, skipn_length; destruct HA; lia).
  assert (Az : Allocated zs 0 n) by (unfold Allocated, zs; rewrite map_length; lia).
  assert (G : forall i x, (0 <= i < Z.of_nat n)%Z -> zget mem (a + i) = Ok x -> zget zs (0 + i) = Ok (Ztrunc (real x))).
  { intros i x Hi Hx. rewrite <- (zget_slice mem a n i HA Hi) in Hx. fold l in Hx. cbn [Z.add]. unfold zs, zget in *. destruct (Z.ltb_spec i 0); [lia|]. rewrite nth_error_map.
    destruct (nth_error l (Z.to_nat i)); [|discriminate]. cbn. congruence. }
  destruct (impulse_apply m w draws n zs 0 HW Az HL HD) as (out & E & F & P).
  assert (X : forall i, (0 <= i < Z.of_nat n)%Z -> exists x d, zget mem (a + i) = Ok x /\ nth_error draws (Z.to_nat i) = Some d).
  { intros i Hi. destruct (zget_in_range mem (a + i)) as [x Hx]; [destruct HA; lia|]. destruct (nth_error draws (Z.to_nat i)) as [d|] eqn:Ed; [eauto|].
    apply nth_error_None in Ed. lia. }
  destruct (int_on_double t (impulseCallD m) n draws zs 0 mem a [] out Az HA) as (mem' & E' & F' & H).
  - intros i z x Hi Hz Hx. rewrite (G i x Hi Hx) in Hz. injection Hz as <-. destruct (HP i x Hi Hx) as [Fx Tx]. split; [exact Fx|]. split; [reflexivity|]. split; [exact Tx|]. specialize (HT _ Tx). lia.
  - exact E.
  - intros i z Hi Hz. destruct (X i Hi) as (x & d & Hx & Hd). apply HT. destruct (P i d _ Hi Hd (G i x Hi Hx)) as [(_ & v & p & Em & Ev)|(_ & _ & Ev)]; rewrite Ev in Hz; injection Hz as <-.
    + apply nth_error_In in Em. rewrite Forall_forall in Hm. exact (Hm _ Em).
    + now destruct (HP i x Hi Hx).
  - exists mem'. split; [exact E'|]. split; [exact F'|]. intros i d x Hi Hd Hx. destruct (P i d _ Hi Hd (G i x Hi Hx)) as [(Ld & v & p & Em & Ev)|(Ld & Lw & Ev)].
    + destruct (H i v Hi Ev) as (y & Hy & Fy & Vy). exists y. split; [exact Hy|]. split; [exact Fy|]. left. eauto.
    + destruct (H i _ Hi Ev) as (y & Hy & Fy & Vy). exists y. split; [exact Hy|]. split; [exact Fy|]. right. auto.
Qed.

Lemma dlit_half : fin (dlit 5 (-1)) = true /\ val (dlit 5 (-1)) = 5 / 2.
Proof.
  split; [reflexivity|]. assert (B2SF (dlit 5 (-1)) = SpecFloat.S754_finite false 5629499534213120 (-51)) as E by (vm_compute; reflexivity).
  rewrite (ofsf _ _ E). unfold SF2R, F2R. cbn [SpecFloat.cond_Zopp Fnum Fexp]. assert (pow2 (-51) * pow2 51 = 1) by (rewrite <- bpow_plus; reflexivity).
  replace (IZR 5629499534213120) with (5 / 2 * pow2 51) by (change (pow2 51) with (IZR (2 ^ 51)); change 5629499534213120%Z with (5 * 2 ^ 50)%Z; change (2 ^ 51)%Z with (2 * 2 ^ 50)%Z; rewrite !mult_IZR; field).
  rewrite Rmult_assoc, (Rmult_comm (pow2 51)), H. ring.
Qed.

(** Two and a half becomes two although it is kept. *)
Theorem kept_refuted : exists (m : list (Z * double)) w draws x y, impulseNewD m = Ok w /\ length w = 2%nat /\ length m = 1%nat /\ draws = [1%nat] /\ Finite x /\ real x = 5 / 2 /\
  apply (intOnDouble int32 (impulseCallD m)) 1 draws [x] 0 [] = Ok ([], [y]) /\ real y = 2.
Proof.
  exists [(7%Z, dlit 1 (-1))]. set (m := [(7%Z, dlit 1 (-1))]). set (null := nullD m). exists [dlit 1 (-1); null], [1%nat], (dlit 5 (-1)), (dofZ 2). destruct dlit_half as [F V].
  split; [|split; [reflexivity|split; [reflexivity|split; [reflexivity|split; [exact F|split; [exact V|split]]]]]].
  - unfold impulseNewD, weightsD. cbv zeta. fold null. assert (dleb null (dmul (dlit 1 (-52)) (dofZ (Z.of_nat (length m)))) = false) as -> by (vm_compute; reflexivity).
    unfold discreteD. set (b := _ && _). assert (b = true) as -> by (unfold b, null; vm_compute; reflexivity). reflexivity.
  - unfold apply, generate. cbn [readArgs zget Z.ltb Z.compare Z.to_nat nth_error bind]. cbn [intOnDouble].
    assert (dtoInt int32 (dlit 5 (-1)) = Ok 2%Z) as -> by (vm_compute; reflexivity). reflexivity.
  - destruct (dofZ_small 2 ltac:(lia)) as [V2 _]. exact V2.
Qed.

(** Three billions: not an int. *)
Theorem range_refuted {S} (noise : S -> list Z -> res (S * Z)) st : Finite (dofZ 3000000000) /\ apply (intOnDouble int32 noise) 1 st [dofZ 3000000000] 0 [] = UB.
Proof.
  split; [reflexivity|]. unfold apply, generate. cbn [readArgs zget Z.ltb Z.compare Z.to_nat nth_error bind]. cbn [intOnDouble].
  assert (dtoInt int32 (dofZ 3000000000) = UB) as -> by (vm_compute; reflexivity). reflexivity.
Qed.

(** A half is a valid mean, but it is truncated to zero, which is not. *)
Theorem poisson_refuted {E} (engine : Z -> E) (poisson : Z -> E -> E * Z) now st :
  Finite (dlit 1 (-1)) /\ 0 < real (dlit 1 (-1)) /\ apply (intOnDouble int32 (stableApply engine poisson (fun m => (0 <? m)%Z) now)) 1 st [dlit 1 (-1)] 0 [] = UB.
Proof.
  destruct half_val as [F V]. split; [exact F|]. split; [change (real (dlit 1 (-1))) with (val (dlit 1 (-1))); rewrite V; lra|].
  unfold apply, generate. cbn [readArgs zget Z.ltb Z.compare Z.to_nat nth_error bind]. cbn [intOnDouble].
  assert (dtoInt int32 (dlit 1 (-1)) = Ok 0%Z) as -> by (vm_compute; reflexivity). reflexivity.
Qed.

(** Witnesses *)
Lemma weight_below p : fin p = true -> Bcompare (dofZ 0) p = Some Lt -> Bcompare p (dofZ 1) = Some Lt -> Weight p.
Proof.
  intros F L U. destruct zero_ok as [F0 V0]. destruct one_ok as [F1 V1]. apply (compare_lt _ _ F0 F) in L. apply (compare_lt _ _ F F1) in U. rewrite V0 in L. rewrite V1 in U.
  split; [exact F|]. change (real p) with (val p). assert (1 <= pow2 900) by (change 1 with (pow2 0); apply bpow_le; lia). lra.
Qed.
Lemma half_weight : Weight (dlit 1 (-1)).
Proof. apply weight_below; vm_compute; reflexivity. Qed.

Lemma tenth_ok k : (0 < k < 10)%Z -> let p := ddiv (dofZ k) (dofZ 10) in Weight p /\ real p = nearestDouble (IZR k / 10).
Proof.
  intros H p. destruct (dofZ_small k ltac:(lia)) as [Vk Fk]. destruct (dofZ_small 10 ltac:(lia)) as [V10 F10].
  assert (B : 0 <= rnd (IZR k / 10) <= 1).
  { assert (0 <= IZR k <= 10) by (split; apply IZR_le; lia). split; [apply round_nonneg; lra|apply round_le_generic; [apply valid64|apply valid_rnd_N|apply (F64_small 1); lia|lra]]. }
  assert (L : 1 < pow2 1024) by (change 1 with (pow2 0); apply bpow_lt; lia). assert (L9 : 1 <= pow2 900) by (change 1 with (pow2 0); apply bpow_le; lia).
  destruct (ddiv_ok (dofZ k) (dofZ 10) Fk) as [V F]; rewrite ?Vk, ?V10; [lra|apply Rabs_def1; lra|]. rewrite Vk, V10 in V.
  split; [|exact V]. split; [exact F|]. change (real p) with (val p). unfold p. rewrite V. lra.
Qed.
