(** Rounding of the functions on doubles. *)
From Coq Require Import Reals Lra Sorted.
From Flocq Require Import Core Plus_error Relative IEEE754.BinarySingleNaN.
From Verif Require Import Res FloatModel FloatSpec.

Local Existing Instance hprec.
Local Existing Instance hmax.

Notation fexp64 := (SpecFloat.fexp 53 1024).
Notation rnd := (round radix2 fexp64 ZnearestE).
Notation F64 := (generic_format radix2 fexp64).
Notation val := (@B2R 53 1024).
Notation fin := (@is_finite 53 1024).
Notation pow2 := (bpow radix2).

Open Scope R_scope.

Lemma F64_val x : F64 (val x).
Proof. apply generic_format_B2R. Qed.

Lemma valid64 : Valid_exp fexp64.
Proof. apply (fexp_correct 53 1024). exact hprec. Qed.
Local Existing Instance valid64.

Lemma half_rel s : 1 * s - pow2 (-53) * s = s - s * pow2 (-53).
Proof. ring. Qed.

(** The difference of two doubles, rounded then multiplied by less than 1, does not exceed the exact difference. *)
Lemma shrink_le a d : (exists p n, F64 p /\ F64 n /\ a = p - n) -> 0 <= a -> 0 <= d <= 1 - pow2 (-53) -> rnd (d * rnd a) <= a.
Proof.
  intros (p & n & Fp & Fn & ->) Ha Hd. set (a := p - n) in *. set (s := rnd a).
  assert (Hs : 0 <= s) by (apply round_ge_generic; [apply valid64|apply valid_rnd_N|apply generic_format_0|exact Ha]).
  assert (D : d * s <= s - s * pow2 (-53)).
  { rewrite <- half_rel. replace (1 * s - pow2 (-53) * s) with ((1 - pow2 (-53)) * s) by ring. apply Rmult_le_compat_r; tauto. }
  destruct (Rle_or_lt a (pow2 (53 + (3 - 1024 - 53)))) as [L|L].
  - assert (Fa : F64 a).
    { apply (FLT_format_plus_small radix2 (3 - 1024 - 53) 53 p (- n)); [exact Fp|now apply generic_format_opp|].
      change (p + - n) with a. now rewrite Rabs_pos_eq. }
    assert (E : s = a) by (apply round_generic; [apply valid_rnd_N|exact Fa]).
    apply round_le_generic; [apply valid64|apply valid_rnd_N|exact Fa|]. rewrite <- E. assert (0 <= s * pow2 (-53)) by (apply Rmult_le_pos; [exact Hs|apply bpow_ge_0]). lra.
  - assert (Fs : F64 s) by (apply generic_format_round; [apply valid64|apply valid_rnd_N]).
    assert (Ls : pow2 (-1021) <= s).
    { apply round_ge_generic; [apply valid64|apply valid_rnd_N| |exact (Rlt_le _ _ L)]. apply (generic_format_FLT_bpow radix2 (3 - 1024 - 53) 53). lia. }
    assert (Ps : 0 < s) by (apply Rlt_le_trans with (2 := Ls); apply bpow_gt_0).
    apply Rle_trans with (pred radix2 fexp64 s); [|apply pred_round_le_id; [apply valid64|apply valid_rnd_N]].
    assert (M : (-1020 <= mag radix2 s)%Z).
    { apply mag_ge_bpow. rewrite Rabs_pos_eq by lra. exact Ls. }
    assert (E53 : forall e, (-1021 <= e)%Z -> fexp64 e = (e - 53)%Z) by (intros e He; unfold SpecFloat.fexp, SpecFloat.emin; lia).
    assert (PE : pred radix2 fexp64 s = pred_pos radix2 fexp64 s) by (apply pred_eq_pos; lra).
    unfold pred_pos in PE. destruct (Req_bool_spec s (pow2 (mag radix2 s - 1))) as [E|E].
    + apply round_le_generic; [apply valid64|apply valid_rnd_N|apply generic_format_pred; [apply valid64|exact Fs]|]. rewrite PE.
      rewrite E53 by lia. replace (mag radix2 s - 1 - 53)%Z with (mag radix2 s - 1 + -53)%Z by lia. rewrite bpow_plus, <- E. exact D.
    + apply round_N_le_midp; [apply valid64|apply generic_format_pred; [apply valid64|exact Fs]|]. rewrite (@succ_pred radix2 fexp64 valid64 s Fs). rewrite PE.
      rewrite ulp_neq_0 by lra. unfold cexp. rewrite E53 by lia.
      assert (B : pow2 (mag radix2 s - 1) < s).
      { destruct (mag radix2 s) as (e & He). cbn [mag_val] in *. specialize (He ltac:(lra)). rewrite Rabs_pos_eq in He by lra. lra. }
      assert (U : pow2 (mag radix2 s - 53) = 2 * (pow2 (mag radix2 s - 1) * pow2 (-53))).
      { rewrite <- bpow_plus. change 2 with (pow2 1). rewrite <- bpow_plus. f_equal. lia. }
      assert (Q : pow2 (mag radix2 s - 1) * pow2 (-53) < s * pow2 (-53)) by (apply Rmult_lt_compat_r; [apply bpow_gt_0|exact B]).
      lra.
Qed.

Lemma below_one d : F64 d -> d < 1 -> d <= 1 - pow2 (-53).
Proof.
  intros Fd L. assert (P : d <= pred radix2 fexp64 (pow2 0)).
  { apply pred_ge_gt; [apply valid64|exact Fd| |exact L]. apply (generic_format_FLT_bpow radix2 (3 - 1024 - 53) 53). lia. }
  rewrite pred_bpow in P. exact P.
Qed.

(** Linear interpolation between two doubles, as real numbers. *)
Lemma lerp_up d p n : F64 d -> F64 p -> F64 n -> 0 <= d < 1 -> n <= p -> n <= rnd (rnd (d * rnd (p - n)) + n) <= p.
Proof.
  intros Fd Fp Fn Hd L.
  assert (S : 0 <= rnd (p - n)) by (apply round_ge_generic; [apply valid64|apply valid_rnd_N|apply generic_format_0|lra]).
  assert (T : 0 <= rnd (d * rnd (p - n))).
  { apply round_ge_generic; [apply valid64|apply valid_rnd_N|apply generic_format_0|]. apply Rmult_le_pos; tauto. }
  assert (U : rnd (d * rnd (p - n)) <= p - n).
  { apply shrink_le; [exists p, n; auto|lra|]. split; [tauto|]. apply below_one; tauto. }
  split; [apply round_ge_generic|apply round_le_generic]; try apply valid64; try apply valid_rnd_N; auto; lra.
Qed.

Lemma lerp_down d p n : F64 d -> F64 p -> F64 n -> 0 <= d < 1 -> p <= n -> p <= rnd (rnd (d * rnd (p - n)) + n) <= n.
Proof.
  intros Fd Fp Fn Hd L. assert (H := lerp_up d (- p) (- n) Fd (generic_format_opp _ _ _ Fp) (generic_format_opp _ _ _ Fn) Hd ltac:(lra)).
  replace (- p - - n) with (- (p - n)) in H by ring. rewrite round_NE_opp in H. rewrite Ropp_mult_distr_r_reverse, round_NE_opp, <- Ropp_plus_distr, round_NE_opp in H. lra.
Qed.

Lemma lerp_between d p n lo hi : F64 d -> F64 p -> F64 n -> 0 <= d < 1 -> lo <= p <= hi -> lo <= n <= hi -> lo <= rnd (rnd (d * rnd (p - n)) + n) <= hi.
Proof.
  intros Fd Fp Fn Hd Hp Hn. destruct (Rle_or_lt n p) as [L|L].
  - assert (H := lerp_up d p n Fd Fp Fn Hd L). lra.
  - assert (H := lerp_down d p n Fd Fp Fn Hd (Rlt_le _ _ L)). lra.
Qed.

(** Operations without overflow *)
Lemma rlt_true a b : a < b -> Rlt_bool a b = true.
Proof. intros H. now apply Rlt_bool_true. Qed.

Lemma dsub_ok x y : fin x = true -> fin y = true -> Rabs (rnd (val x - val y)) < pow2 1024 -> val (dsub x y) = rnd (val x - val y) /\ fin (dsub x y) = true.
Proof. intros Fx Fy H. assert (C := Bminus_correct 53 1024 hprec hmax mode_NE x y Fx Fy). cbn [round_mode] in C. rewrite (rlt_true _ _ H) in C. unfold dsub. tauto. Qed.

Lemma dadd_ok x y : fin x = true -> fin y = true -> Rabs (rnd (val x + val y)) < pow2 1024 -> val (dadd x y) = rnd (val x + val y) /\ fin (dadd x y) = true.
Proof. intros Fx Fy H. assert (C := Bplus_correct 53 1024 hprec hmax mode_NE x y Fx Fy). cbn [round_mode] in C. rewrite (rlt_true _ _ H) in C. unfold dadd. tauto. Qed.

Lemma dmul_ok x y : fin x = true -> fin y = true -> Rabs (rnd (val x * val y)) < pow2 1024 -> val (dmul x y) = rnd (val x * val y) /\ fin (dmul x y) = true.
Proof.
  intros Fx Fy H. assert (C := Bmult_correct 53 1024 hprec hmax mode_NE x y). cbn [round_mode] in C. rewrite (rlt_true _ _ H) in C.
  destruct C as (C1 & C2 & _). rewrite Fx, Fy in C2. unfold dmul. tauto.
Qed.

Lemma ddiv_ok x y : fin x = true -> val y <> 0 -> Rabs (rnd (val x / val y)) < pow2 1024 -> val (ddiv x y) = rnd (val x / val y) /\ fin (ddiv x y) = true.
Proof.
  intros Fx Hy H. assert (C := Bdiv_correct 53 1024 hprec hmax mode_NE x y Hy). cbn [round_mode] in C. rewrite (rlt_true _ _ H) in C.
  destruct C as (C1 & C2 & _). rewrite Fx in C2. unfold ddiv. tauto.
Qed.

Lemma dsub_fin x y : fin x = true -> fin y = true -> fin (dsub x y) = true -> val (dsub x y) = rnd (val x - val y) /\ Rabs (rnd (val x - val y)) < pow2 1024.
Proof.
  intros Fx Fy Fs. assert (C := Bminus_correct 53 1024 hprec hmax mode_NE x y Fx Fy). cbn [round_mode] in C. fold (dsub x y) in C.
  destruct (Rlt_bool_spec (Rabs (rnd (val x - val y))) (pow2 1024)) as [L|L]; [tauto|].
  destruct C as [C _]. destruct (dsub x y); cbn [B2SF binary_overflow overflow_to_inf] in C; discriminate.
Qed.

Lemma val_lt x : Rabs (val x) < pow2 1024.
Proof. apply abs_B2R_lt_emax. Qed.

Lemma F64_small z : (Z.abs z <= 2 ^ 53)%Z -> F64 (IZR z).
Proof.
  intros H. destruct (Z.eq_dec (Z.abs z) (2 ^ 53)) as [E|N].
  - assert (F : F64 (pow2 53)) by (apply (generic_format_FLT_bpow radix2 (3 - 1024 - 53) 53); lia).
    assert (E2 : pow2 53 = IZR (2 ^ 53)) by reflexivity. rewrite E2 in F.
    destruct (Z.abs_eq_or_opp z) as [A|A]; rewrite A in E.
    + now rewrite E.
    + replace z with (- 2 ^ 53)%Z by lia. rewrite opp_IZR. now apply generic_format_opp.
  - apply (generic_format_FLT radix2 (3 - 1024 - 53) 53). exists (Float radix2 z 0); [|cbn; lia|cbn; lia]. unfold F2R. cbn [Fnum Fexp bpow]. ring.
Qed.

Lemma dofZ_ok z : (Z.abs z <= 2 ^ 64)%Z -> val (dofZ z) = rnd (IZR z) /\ fin (dofZ z) = true.
Proof.
  intros H. assert (C := binary_normalize_correct 53 1024 hprec hmax mode_NE z 0 false). cbv zeta in C. cbn [round_mode] in C.
  assert (E : F2R (Float radix2 z 0) = IZR z) by (unfold F2R; cbn [Fnum Fexp bpow]; ring). rewrite E in C.
  assert (B : Rabs (rnd (IZR z)) < pow2 1024).
  { apply Rle_lt_trans with (pow2 64); [|apply bpow_lt; lia].
    apply abs_round_le_generic; [apply valid64|apply valid_rnd_N|apply (generic_format_FLT_bpow radix2 (3 - 1024 - 53) 53); lia|].
    rewrite <- abs_IZR. change (pow2 64) with (IZR (2 ^ 64)). now apply IZR_le. }
  rewrite (rlt_true _ _ B) in C. unfold dofZ. tauto.
Qed.

Lemma dofZ_small z : (Z.abs z <= 2 ^ 53)%Z -> val (dofZ z) = IZR z /\ fin (dofZ z) = true.
Proof. intros H. destruct (dofZ_ok z ltac:(lia)) as [A B]. split; [|exact B]. rewrite A. apply round_generic; [apply valid_rnd_N|now apply F64_small]. Qed.

(** The linear formula *)
Lemma dlinear_between d p n lo hi : fin d = true -> fin p = true -> fin n = true -> fin (dsub p n) = true -> 0 <= val d < 1 ->
  Rabs lo < pow2 1024 -> Rabs hi < pow2 1024 -> lo <= val p <= hi -> lo <= val n <= hi ->
  fin (dlinear d p n) = true /\ lo <= val (dlinear d p n) <= hi.
Proof.
  intros Fd Fp Fn Fs Hd Bl Bh Hp Hn. destruct (dsub_fin p n Fp Fn Fs) as [S B]. unfold dlinear.
  destruct (dmul_ok d (dsub p n) Fd Fs) as [M FM].
  { apply Rle_lt_trans with (2 := val_lt (dsub p n)). apply abs_round_le_generic; [apply valid64|apply valid_rnd_N|apply generic_format_abs, F64_val|].
    rewrite Rabs_mult, (Rabs_pos_eq (val d)) by tauto. rewrite <- (Rmult_1_l (Rabs (val (dsub p n)))) at 2. apply Rmult_le_compat_r; [apply Rabs_pos|lra]. }
  assert (K := lerp_between (val d) (val p) (val n) lo hi (F64_val d) (F64_val p) (F64_val n) Hd Hp Hn). rewrite S in M.
  destruct (dadd_ok (dmul d (dsub p n)) n FM Fn) as [A FA].
  { rewrite M. apply Rabs_def1; apply Rabs_def2 in Bl, Bh; lra. }
  rewrite A, M. tauto.
Qed.

(** Truncation *)
Lemma mantissa_bound m e : SpecFloat.bounded 53 1024 m e = true -> (Zpos m < 2 ^ 53 /\ -1074 <= e)%Z.
Proof.
  intros H. unfold SpecFloat.bounded in H. apply andb_prop in H. destruct H as [H _]. unfold SpecFloat.canonical_mantissa in H. apply Zeq_bool_eq in H.
  rewrite Digits.Zpos_digits2_pos in H. unfold SpecFloat.fexp, SpecFloat.emin in H. split; [|lia].
  assert (D := Digits.Zdigits_correct radix2 (Zpos m)). destruct D as [_ D]. cbn [Z.abs] in D. apply Z.lt_le_trans with (1 := D).
  change (2 ^ 53)%Z with (radix2 ^ 53)%Z. apply Zpower_le. lia.
Qed.

Lemma chk64_inv a z : chk64 a = Ok z -> (- 2 ^ 63 <= a < 2 ^ 63)%Z /\ z = a.
Proof. unfold chk64. destruct (_ && _)%bool eqn:C; intros E; [|discriminate]. split; [lia|congruence]. Qed.

Lemma dtrunc_ok x z : fin x = true -> 0 <= val x -> dtrunc x = Ok z ->
  (0 <= z < 2 ^ 63)%Z /\ F64 (IZR z) /\ F64 (val x - IZR z) /\ 0 <= val x - IZR z < 1.
Proof.
  intros F P E. destruct x as [s| | |s m e B]; try discriminate F.
  - injection E as <-. cbn [B2R]. rewrite Rminus_0_r. repeat split; try lia; try lra; apply generic_format_0.
  - unfold dtrunc in E. destruct (mantissa_bound m e B) as [Bm Be].
    destruct s; [exfalso; cbn [B2R] in P; assert (N := F2R_lt_0 radix2 (Float radix2 (SpecFloat.cond_Zopp true (Zpos m)) e) ltac:(cbn; lia)); lra|].
    cbn [B2R SpecFloat.cond_Zopp] in P |- *. set (v := F2R _) in *.
    assert (Fv : F64 v) by exact (F64_val (B754_finite false m e B)).
    cbv zeta in E. destruct (Z.leb_spec 0 e) as [Le|Le].
    + apply chk64_inv in E. destruct E as [C ->].
      assert (V : v = IZR (Zpos m * 2 ^ e)). { unfold v, F2R. cbn [Fnum Fexp]. rewrite mult_IZR, (IZR_Zpower radix2) by lia. reflexivity. }
      rewrite <- V. replace (v - v) with 0 by ring.
      assert (0 <= 2 ^ e)%Z by (apply Z.pow_nonneg; lia). repeat split; try lia; try lra; auto. apply generic_format_0.
    + apply chk64_inv in E. destruct E as [C ->].
      assert (Q : (0 < 2 ^ (- e))%Z) by (apply Z.pow_pos_nonneg; lia).
      assert (D := Z.div_mod (Zpos m) (2 ^ (- e)) ltac:(lia)). assert (M := Z.mod_pos_bound (Zpos m) (2 ^ (- e)) Q).
      assert (Nn : (0 <= Zpos m / 2 ^ (- e))%Z) by (apply Z.div_pos; lia).
      assert (Small : (Zpos m / 2 ^ (- e) <= Zpos m)%Z) by (apply Z.div_le_upper_bound; nia).
      assert (I : pow2 e * IZR (2 ^ (- e)) = 1). { rewrite (IZR_Zpower radix2) by lia. rewrite <- bpow_plus. replace (e + - e)%Z with 0%Z by lia. reflexivity. }
      assert (V : v - IZR (Zpos m / 2 ^ (- e)) = F2R (Float radix2 (Zpos m mod 2 ^ (- e)) e)).
      { unfold v, F2R. cbn [Fnum Fexp]. rewrite D at 1. rewrite plus_IZR, mult_IZR. 
        replace ((IZR (2 ^ (- e)) * IZR (Zpos m / 2 ^ (- e)) + IZR (Zpos m mod 2 ^ (- e))) * pow2 e) with
          (pow2 e * IZR (2 ^ (- e)) * IZR (Zpos m / 2 ^ (- e)) + IZR (Zpos m mod 2 ^ (- e)) * pow2 e) by ring. rewrite I. ring. }
      rewrite V. split; [lia|]. split; [apply F64_small; lia|]. split.
      * apply (generic_format_FLT radix2 (3 - 1024 - 53) 53). exists (Float radix2 (Zpos m mod 2 ^ (- e)) e); cbn [Fnum Fexp]; [reflexivity| |lia].
        rewrite Z.abs_eq by lia. change (radix2 ^ 53)%Z with (2 ^ 53)%Z. assert (Zpos m mod 2 ^ (- e) <= Zpos m)%Z by (apply Z.mod_le; lia). lia.
      * unfold F2R. cbn [Fnum Fexp]. split; [apply Rmult_le_pos; [apply IZR_le; lia|apply bpow_ge_0]|].
        rewrite <- I. rewrite Rmult_comm. apply Rmult_lt_compat_l; [apply bpow_gt_0|]. apply IZR_lt; lia.
Qed.

Lemma dltb_nonneg x : fin x = true -> 0 <= val x -> dltb x (dofZ 0) = false.
Proof.
  intros F P. destruct (dofZ_small 0 ltac:(lia)) as [V F0]. unfold dltb. rewrite (Bcompare_correct 53 1024 x (dofZ 0) F F0). rewrite V.
  destruct (Rcompare_spec (val x) 0); auto. lra.
Qed.

Lemma dfloor_ok x f : fin x = true -> 0 <= val x -> dfloor x = Ok f ->
  let d := dsub x (dofZ f) in (0 <= f < 2 ^ 63)%Z /\ fin d = true /\ val d = val x - IZR f /\ 0 <= val d < 1.
Proof.
  intros F P E. unfold dfloor in E. destruct (dtrunc x) as [z| |] eqn:T; try discriminate. cbn [bind] in E. rewrite (dltb_nonneg x F P), Z.sub_0_r in E.
  destruct (dtrunc_ok x z F P T) as (Bz & Fz & Fd & Bd).
  assert (f = z) as -> by (apply chk64_inv in E; tauto).
  cbv zeta. destruct (dofZ_ok z ltac:(lia)) as [V FV]. rewrite round_generic in V; [|apply valid_rnd_N|exact Fz].
  assert (R : rnd (val x - val (dofZ z)) = val x - IZR z) by (rewrite V; apply round_generic; [apply valid_rnd_N|exact Fd]).
  destruct (dsub_ok x (dofZ z) F FV) as [D FD].
  { rewrite R. rewrite Rabs_pos_eq by tauto. apply Rlt_le_trans with 1; [tauto|]. change 1 with (pow2 0). apply bpow_le. lia. }
  rewrite D, R. tauto.
Qed.


(** Positions of any sign *)
Lemma dtrunc_magnitude s m e B : (0 <= e)%Z -> Rabs (val (B754_finite s m e B)) = IZR (Zpos m * 2 ^ e).
Proof.
  intros H. cbn [B2R]. rewrite <- F2R_Zabs. assert (Z.abs (SpecFloat.cond_Zopp s (Zpos m)) = Zpos m) as -> by (destruct s; reflexivity).
  unfold F2R. cbn [Fnum Fexp]. rewrite mult_IZR, (IZR_Zpower radix2) by lia. reflexivity.
Qed.

Lemma val_small s m e B : (e < 0)%Z -> Rabs (val (B754_finite s m e B)) <= pow2 53.
Proof.
  intros H. destruct (mantissa_bound m e B) as [Bm _]. cbn [B2R]. rewrite <- F2R_Zabs. assert (Z.abs (SpecFloat.cond_Zopp s (Zpos m)) = Zpos m) as -> by (destruct s; reflexivity).
  unfold F2R. cbn [Fnum Fexp]. apply Rle_trans with (IZR (2 ^ 53) * pow2 0); [|cbn; lra].
  apply Rmult_le_compat; [apply IZR_le; lia|apply bpow_ge_0|apply IZR_le; lia|apply bpow_le; lia].
Qed.

Lemma dtrunc_bounded x z : dtrunc x = Ok z -> fin x = true /\ Rabs (val x) <= pow2 63.
Proof.
  intros E. destruct x as [s| | |s m e B]; try discriminate E.
  - split; [reflexivity|]. cbn [B2R]. rewrite Rabs_R0. apply bpow_ge_0.
  - split; [reflexivity|]. destruct (Z.leb_spec 0 e) as [Le|Le].
    + rewrite dtrunc_magnitude by exact Le. change (pow2 63) with (IZR (2 ^ 63)). apply IZR_le.
      unfold dtrunc in E. cbv zeta in E. rewrite (proj2 (Z.leb_le 0 e) Le) in E. apply chk64_inv in E. destruct s; lia.
    + apply Rle_trans with (1 := val_small s m e B Le). apply bpow_le. lia.
Qed.

Lemma dtrunc_total x : fin x = true -> Rabs (val x) < pow2 62 -> exists z, dtrunc x = Ok z /\ (Z.abs z < 2 ^ 62)%Z.
Proof.
  intros F L. destruct x as [s| | |s m e B]; try discriminate F.
  - exists 0%Z. split; [reflexivity|lia].
  - unfold dtrunc. cbv zeta. set (a := if (0 <=? e)%Z then (Zpos m * 2 ^ e)%Z else (Zpos m / 2 ^ (- e))%Z).
    assert (A : (0 <= a < 2 ^ 62)%Z).
    { unfold a. destruct (Z.leb_spec 0 e) as [Le|Le].
      - rewrite dtrunc_magnitude in L by exact Le. change (pow2 62) with (IZR (2 ^ 62)) in L. apply lt_IZR in L. split; [|exact L].
        apply Z.mul_nonneg_nonneg; [lia|apply Z.pow_nonneg; lia].
      - destruct (mantissa_bound m e B) as [Bm _]. assert (Q : (0 < 2 ^ (- e))%Z) by (apply Z.pow_pos_nonneg; lia).
        split; [apply Z.div_pos; lia|]. apply Z.le_lt_trans with (Zpos m); [apply Z.div_le_upper_bound; nia|lia]. }
    clearbody a. exists (if s then - a else a)%Z. split; [|destruct s; lia]. unfold chk64.
    assert (T : ((- 2 ^ 63 <=? (if s then - a else a)) && ((if s then - a else a) <? 2 ^ 63))%Z = true) by (destruct s; lia). now rewrite T.
Qed.

Lemma dfloor_total x : fin x = true -> Rabs (val x) < pow2 62 -> exists f, dfloor x = Ok f.
Proof.
  intros F L. destruct (dtrunc_total x F L) as (z & E & B). unfold dfloor. rewrite E. cbn [bind]. unfold chk64.
  set (b := if dltb x (dofZ 0) then 1%Z else 0%Z). assert (Bb : (0 <= b <= 1)%Z) by (unfold b; destruct (dltb x (dofZ 0)); lia). clearbody b.
  exists (z - b)%Z. assert (T : ((- 2 ^ 63 <=? z - b) && (z - b <? 2 ^ 63))%Z = true) by lia. now rewrite T.
Qed.

Lemma dfloor_bound x f : dfloor x = Ok f -> fin (dsub x (dofZ f)) = true /\ Rabs (val (dsub x (dofZ f))) <= pow2 64.
Proof.
  unfold dfloor. intros E. destruct (dtrunc x) as [z| |] eqn:T; try discriminate. cbn [bind] in E. apply chk64_inv in E. destruct E as [B ->].
  destruct (dtrunc_bounded x z T) as [F L]. set (f := (z - _)%Z) in *. clearbody f. destruct (dofZ_ok f ltac:(lia)) as [V FV].
  assert (Bf : Rabs (val (dofZ f)) <= pow2 63).
  { rewrite V. apply abs_round_le_generic; [apply valid64|apply valid_rnd_N|apply (generic_format_FLT_bpow radix2 (3 - 1024 - 53) 53); lia|].
    rewrite <- abs_IZR. change (pow2 63) with (IZR (2 ^ 63)). apply IZR_le. lia. }
  assert (R : Rabs (rnd (val x - val (dofZ f))) <= pow2 64).
  { apply abs_round_le_generic; [apply valid64|apply valid_rnd_N|apply (generic_format_FLT_bpow radix2 (3 - 1024 - 53) 53); lia|].
    assert (P : pow2 64 = pow2 63 + pow2 63) by (change (pow2 64) with (IZR (2 ^ 64)); change (pow2 63) with (IZR (2 ^ 63)); rewrite <- plus_IZR; reflexivity).
    rewrite P. unfold Rminus. apply Rle_trans with (1 := Rabs_triang _ _). rewrite Rabs_Ropp. lra. }
  destruct (dsub_ok x (dofZ f) F FV) as [D FD]; [apply Rle_lt_trans with (1 := R); apply bpow_lt; lia|]. rewrite D. auto.
Qed.

Lemma dfloor_fin x f : dfloor x = Ok f -> fin (dsub x (dofZ f)) = true.
Proof. intros E. now apply dfloor_bound. Qed.

Lemma round0 : rnd 0 = 0.
Proof. apply round_0, valid_rnd_N. Qed.
Lemma small0 : Rabs 0 < pow2 1024.
Proof. rewrite Rabs_R0. apply bpow_gt_0. Qed.

Lemma dlinear_constant d p n c : fin d = true -> fin p = true -> fin n = true -> val p = c -> val n = c -> fin (dlinear d p n) = true /\ val (dlinear d p n) = c.
Proof.
  intros Fd Fp Fn <- E. unfold dlinear.
  destruct (dsub_ok p n Fp Fn) as [S FS]; rewrite E, Rminus_eq_0, round0 in *; [apply small0|].
  destruct (dmul_ok d (dsub p n) Fd FS) as [M FM]; rewrite S, Rmult_0_r, round0 in *; [apply small0|].
  assert (R : rnd (0 + val p) = val p) by (rewrite Rplus_0_l; apply round_generic; [apply valid_rnd_N|apply F64_val]).
  destruct (dadd_ok (dmul d (dsub p n)) n FM Fn) as [A FA]; rewrite M, E, R in *; [apply val_lt|]. tauto.
Qed.

Lemma dlinearRec_inv get x rpos ind v : dlinearRec get (x :: rpos) ind = Ok v -> exists f p n, dfloor x = Ok f /\
  match rpos with [] => get (f :: ind) | _ => dlinearRec get rpos (f :: ind) end = Ok p /\
  match rpos with [] => get ((f + 1)%Z :: ind) | _ => dlinearRec get rpos ((f + 1)%Z :: ind) end = Ok n /\ v = dlinear (dsub x (dofZ f)) p n.
Proof.
  intros E. set (at_ := fun i => match rpos with [] => get (i :: ind) | _ => dlinearRec get rpos (i :: ind) end).
  assert (E' : (f <- dfloor x ;; p <- at_ f ;; n <- at_ (f + 1)%Z ;; Ok (dlinear (dsub x (dofZ f)) p n)) = Ok v) by exact E.
  destruct (dfloor x) as [f| |]; try discriminate. cbn [bind] in E'. exists f.
  change (match rpos with [] => get (f :: ind) | _ => dlinearRec get rpos (f :: ind) end) with (at_ f).
  change (match rpos with [] => get ((f + 1)%Z :: ind) | _ => dlinearRec get rpos ((f + 1)%Z :: ind) end) with (at_ (f + 1)%Z).
  clearbody at_. destruct (at_ f) as [p| |]; try discriminate. destruct (at_ (f + 1)%Z) as [n| |]; try discriminate. cbn [bind] in E'.
  exists p, n. repeat split. congruence.
Qed.

Lemma dlinearRec_constant get c rpos : forall ind v, (forall i w, get i = Ok w -> fin w = true /\ val w = c) ->
  dlinearRec get rpos ind = Ok v -> fin v = true /\ val v = c.
Proof.
  induction rpos as [|x rpos IH]; intros ind v G E; [discriminate|]. destruct (dlinearRec_inv get x rpos ind v E) as (f & p & n & EF & Ep & En & ->).
  assert (K : forall i w, match rpos with [] => get (i :: ind) | _ => dlinearRec get rpos (i :: ind) end = Ok w -> fin w = true /\ val w = c).
  { intros i w Ew. destruct rpos as [|y r]; [now apply (G (i :: ind))|]. now apply (IH (i :: ind)). }
  destruct (K _ _ Ep) as [Fp Vp]. destruct (K _ _ En) as [Fn Vn]. apply dlinear_constant; auto. now apply dfloor_fin.
Qed.

Lemma dlinearRec_total get rpos : forall ind, rpos <> [] -> (forall i, exists w, get i = Ok w) -> Forall (fun x => fin x = true /\ Rabs (val x) < pow2 62) rpos ->
  exists v, dlinearRec get rpos ind = Ok v.
Proof.
  induction rpos as [|x rpos IH]; intros ind N G P; [congruence|].
  set (at_ := fun i => match rpos with [] => get (i :: ind) | _ => dlinearRec get rpos (i :: ind) end).
  change (exists v, (f <- dfloor x ;; p <- at_ f ;; n <- at_ (f + 1)%Z ;; Ok (dlinear (dsub x (dofZ f)) p n)) = Ok v).
  apply Forall_cons_iff in P. destruct P as [[Fx Bx] P]. destruct (dfloor_total x Fx Bx) as (f & ->). cbn [bind].
  assert (K : forall i, exists w, at_ i = Ok w).
  { intros i. unfold at_. destruct rpos as [|y r]; [apply G|]. apply IH; auto. congruence. }
  destruct (K f) as (p & ->). destruct (K (f + 1)%Z) as (n & ->). cbn [bind]. eauto.
Qed.

Lemma maxDouble_lt : maxDouble < pow2 1024.
Proof. unfold maxDouble. replace 1024%Z with (53 + 971)%Z by lia. rewrite bpow_plus. apply Rmult_lt_compat_r; [apply bpow_gt_0|]. apply IZR_lt. reflexivity. Qed.

Lemma maxDouble_F : F64 maxDouble.
Proof. apply (generic_format_FLT radix2 (3 - 1024 - 53) 53). exists (Float radix2 (2 ^ 53 - 1) 971); [reflexivity|cbn; lia|cbn; lia]. Qed.

Lemma dsub_max p n : fin p = true -> fin n = true -> Rabs (val p - val n) <= maxDouble -> fin (dsub p n) = true.
Proof.
  intros Fp Fn H. apply dsub_ok; auto. apply Rle_lt_trans with (2 := maxDouble_lt). apply abs_round_le_generic; [apply valid64|apply valid_rnd_N|apply maxDouble_F|exact H].
Qed.

(** Any dimension *)
Lemma dlinearRec_within get lo hi rpos : forall ind v, Rabs lo <= maxDouble -> Rabs hi <= maxDouble -> hi - lo <= maxDouble ->
  (forall i c, get i = Ok c -> fin c = true /\ lo <= val c <= hi) ->
  Forall (fun x => fin x = true /\ 0 <= val x) rpos -> dlinearRec get rpos ind = Ok v -> fin v = true /\ lo <= val v <= hi.
Proof.
  induction rpos as [|x rpos IH]; intros ind v Bl Bh Fs G P E; [discriminate|]. 
  apply Forall_cons_iff in P. destruct P as [[Fx Px] P].
  destruct (dlinearRec_inv get x rpos ind v E) as (f & p & n & EF & Ep & En & ->).
  destruct (dfloor_ok x f Fx Px EF) as (Bf & FD & VD & BD).
  assert (K : forall i c, match rpos with [] => get (i :: ind) | _ => dlinearRec get rpos (i :: ind) end = Ok c -> fin c = true /\ lo <= val c <= hi).
  { intros i c Ec. destruct rpos as [|y r]; [now apply (G (i :: ind))|]. now apply (IH (i :: ind)). }
  destruct (K _ _ Ep) as [Fp Bp]. destruct (K _ _ En) as [Fn Bn].
  apply dlinear_between; auto; try (eapply Rle_lt_trans; [eassumption|apply maxDouble_lt]).
  apply dsub_max; auto. apply Rabs_le. lra.
Qed.

(** C64 *)
Lemma rev_nil {A} (l : list A) : l <> [] -> rev l <> [].
Proof. intros N E. apply (f_equal (@rev _)) in E. rewrite rev_involutive in E. auto. Qed.

Theorem linear_defined get pos : pos <> [] -> (forall i, exists w, get i = Ok w) -> Forall (fun x => Finite x /\ Rabs (real x) < pow2 62) pos -> exists v, dlinearAt get pos = Ok v.
Proof. intros N G P. unfold dlinearAt. apply dlinearRec_total; [now apply rev_nil|exact G|apply Forall_rev; exact P]. Qed.

Theorem linear_constant get c pos v : (forall i w, get i = Ok w -> Finite w /\ real w = c) -> dlinearAt get pos = Ok v -> Finite v /\ real v = c.
Proof. intros G E. exact (dlinearRec_constant get c (rev pos) [] v G E). Qed.

Theorem linear_within get lo hi pos v : Rabs lo <= maxDouble -> Rabs hi <= maxDouble -> hi - lo <= maxDouble ->
  (forall i w, get i = Ok w -> Within lo hi w) -> Forall (fun x => Finite x /\ 0 <= real x) pos -> dlinearAt get pos = Ok v -> Within lo hi v.
Proof. intros Bl Bh D G P E. apply (dlinearRec_within get lo hi (rev pos) []); auto. apply Forall_rev. exact P. Qed.

(** Witnesses: comparisons by computation *)
Lemma compare_lt x y : fin x = true -> fin y = true -> Bcompare x y = Some Lt -> val x < val y.
Proof. intros Fx Fy H. rewrite (Bcompare_correct 53 1024 x y Fx Fy) in H. destruct (Rcompare_spec (val x) (val y)); congruence. Qed.

Lemma compare_le x y : fin x = true -> fin y = true -> (Bcompare x y = Some Lt \/ Bcompare x y = Some Eq) -> val x <= val y.
Proof. intros Fx Fy H. rewrite (Bcompare_correct 53 1024 x y Fx Fy) in H. destruct (Rcompare_spec (val x) (val y)); try lra. destruct H; congruence. Qed.

(** Two columns: the pixels before and from an index on. *)
Definition step_at (k : Z) (p n : double) (i : list Z) : res double := match i with x :: _ => Ok (if (x <? k)%Z then p else n) | [] => Ok n end.

Lemma step_at_all k p n (P : double -> Prop) : P p -> P n -> forall i, exists w, step_at k p n i = Ok w /\ P w.
Proof. intros Hp Hn i. destruct i as [|x i]; cbn [step_at]; [eauto|]. destruct (x <? k)%Z; eauto. Qed.

Definition huge : double := dlit 1 1023.

Lemma within_compare lo hi x : Finite lo -> Finite hi -> Finite x -> (Bcompare lo x = Some Lt \/ Bcompare lo x = Some Eq) -> (Bcompare x hi = Some Lt \/ Bcompare x hi = Some Eq) ->
  Within (real lo) (real hi) x.
Proof. intros Fl Fh Fx L H. split; [exact Fx|]. split; now apply compare_le. Qed.

Ltac within := apply within_compare; try (vm_compute; reflexivity); first [left; vm_compute; reflexivity | right; vm_compute; reflexivity].

Lemma dlinear_one get x f p n : dfloor x = Ok f -> get [f] = Ok p -> get [(f + 1)%Z] = Ok n -> dlinearAt get [x] = Ok (dlinear (dsub x (dofZ f)) p n).
Proof. intros E Ep En. unfold dlinearAt. cbn [rev app dlinearRec]. rewrite E. cbn [bind]. rewrite Ep. cbn [bind]. rewrite En. reflexivity. Qed.

Theorem linear_overflow : exists get lo hi pos v, Finite lo /\ Finite hi /\ (forall i, exists w, get i = Ok w /\ Within (real lo) (real hi) w) /\
  Finite pos /\ 0 <= real pos < pow2 62 /\ dlinearAt get [pos] = Ok v /\ ~ Finite v.
Proof.
  set (x := dlit 1 (-1)). set (lo := dopp huge). exists (step_at 1 huge lo), lo, huge, x, (dlinear (dsub x (dofZ 0)) huge lo).
  split; [reflexivity|]. split; [reflexivity|]. split; [apply (step_at_all 1 huge lo (Within (real lo) (real huge))); within|].
  split; [reflexivity|]. assert (X : Within (val (dofZ 0)) (val (dofZ 1)) x) by within.
  destruct (dofZ_small 0 ltac:(lia)) as [V0 _]. destruct (dofZ_small 1 ltac:(lia)) as [V1 _]. rewrite V0, V1 in X. destruct X as [_ X].
  split; [split; [apply X|]; apply Rle_lt_trans with 1; [apply X|]; change 1 with (pow2 0); apply bpow_lt; lia|].
  split; [apply (dlinear_one _ x 0); reflexivity|]. intros H. vm_compute in H. discriminate.
Qed.

(** A position just before an index: its distance to the previous index is rounded to 1. *)
Theorem linear_negative : exists get lo hi pos v, Finite lo /\ Finite hi /\ Rabs (real hi - real lo) <= 2 /\
  (forall i, exists w, get i = Ok w /\ Within (real lo) (real hi) w) /\ Finite pos /\ -1 < real pos < 0 /\ dlinearAt get [pos] = Ok v /\ Finite v /\ real hi < real v.
Proof.
  set (x := dlit (-1) (-60)). set (lo := dlit (-1) 0). set (hi := dlit 3 (-54)). exists (step_at 0 hi lo), lo, hi, x, (dlinear (dsub x (dofZ (-1))) hi lo).
  split; [reflexivity|]. split; [reflexivity|].
  destruct (dofZ_small 0 ltac:(lia)) as [V0 F0]. destruct (dofZ_small 1 ltac:(lia)) as [V1 F1]. destruct (dofZ_small (-1) ltac:(lia)) as [V2 F2].
  split. { assert (L : Within (val (dofZ (-1))) (val (dofZ 0)) lo) by within. assert (H : Within (val (dofZ 0)) (val (dofZ 1)) hi) by within.
    rewrite V0, V2 in L. rewrite V0, V1 in H. destruct L as [_ L]. destruct H as [_ H]. unfold real in *. apply Rabs_le. lra. }
  split; [apply (step_at_all 0 hi lo (Within (real lo) (real hi))); within|]. split; [reflexivity|].
  split. { unfold real. rewrite <- V0, <- V2. split; apply compare_lt; vm_compute; reflexivity. }
  split; [apply (dlinear_one _ x (-1)); reflexivity|]. split; [vm_compute; reflexivity|]. apply compare_lt; vm_compute; reflexivity.
Qed.

(** C65: cubic interpolation *)
Lemma dcubicRec_inv get x rpos ind v : dcubicRec get (x :: rpos) ind = Ok v -> exists f pp p n nn, dfloor x = Ok f /\
  (forall i, In i [(f - 1)%Z; f; (f + 1)%Z; (f + 2)%Z] -> exists w, In w [pp; p; n; nn] /\
     match rpos with [] => get (i :: ind) | _ => dcubicRec get rpos (i :: ind) end = Ok w) /\
  (forall w, In w [pp; p; n; nn] -> exists i, match rpos with [] => get (i :: ind) | _ => dcubicRec get rpos (i :: ind) end = Ok w) /\
  v = dcubic (dsub x (dofZ f)) pp p n nn.
Proof.
  intros E. set (at_ := fun i => match rpos with [] => get (i :: ind) | _ => dcubicRec get rpos (i :: ind) end).
  assert (E' : (f <- dfloor x ;; pp <- at_ (f - 1)%Z ;; p <- at_ f ;; n <- at_ (f + 1)%Z ;; nn <- at_ (f + 2)%Z ;; Ok (dcubic (dsub x (dofZ f)) pp p n nn)) = Ok v) by exact E.
  destruct (dfloor x) as [f| |]; try discriminate. cbn [bind] in E'. exists f.
  destruct (at_ (f - 1)%Z) as [pp| |] eqn:E1; try discriminate. cbn [bind] in E'. destruct (at_ f) as [p| |] eqn:E2; try discriminate. cbn [bind] in E'.
  destruct (at_ (f + 1)%Z) as [n| |] eqn:E3; try discriminate. cbn [bind] in E'. destruct (at_ (f + 2)%Z) as [nn| |] eqn:E4; try discriminate. cbn [bind] in E'.
  exists pp, p, n, nn. split; [reflexivity|]. split; [|split; [|congruence]].
  - intros i [<-|[<-|[<-|[<-|[]]]]]; [exists pp|exists p|exists n|exists nn]; (split; [cbn; tauto|assumption]).
  - intros w [<-|[<-|[<-|[<-|[]]]]]; eexists; eassumption.
Qed.

Lemma dmul_zero d z : fin d = true -> fin z = true -> val z = 0 -> fin (dmul d z) = true /\ val (dmul d z) = 0.
Proof. intros Fd Fz V. destruct (dmul_ok d z Fd Fz) as [M FM]; rewrite V, Rmult_0_r, round0 in *; [apply small0|]. tauto. Qed.

Lemma dmul_bounded x y a b : fin x = true -> fin y = true -> Rabs (val x) <= pow2 a -> Rabs (val y) <= pow2 b -> (0 <= a + b < 1024)%Z ->
  fin (dmul x y) = true /\ Rabs (val (dmul x y)) <= pow2 (a + b).
Proof.
  intros Fx Fy Bx By H. assert (R : Rabs (rnd (val x * val y)) <= pow2 (a + b)).
  { apply abs_round_le_generic; [apply valid64|apply valid_rnd_N|apply (generic_format_FLT_bpow radix2 (3 - 1024 - 53) 53); lia|].
    rewrite Rabs_mult, bpow_plus. apply Rmult_le_compat; auto; apply Rabs_pos. }
  destruct (dmul_ok x y Fx Fy) as [M FM]; [apply Rle_lt_trans with (1 := R); apply bpow_lt; lia|]. rewrite M. auto.
Qed.

(** Doubles of integer value *)
Definition isInt (x : double) (z : Z) : Prop := fin x = true /\ val x = IZR z.

Lemma IZR_small z : (Z.abs z <= 2 ^ 53)%Z -> Rabs (IZR z) < pow2 1024.
Proof. intros H. rewrite <- abs_IZR. apply Rle_lt_trans with (pow2 53); [|apply bpow_lt; lia]. change (pow2 53) with (IZR (2 ^ 53)). now apply IZR_le. Qed.

Lemma rnd_int z : (Z.abs z <= 2 ^ 53)%Z -> rnd (IZR z) = IZR z.
Proof. intros H. apply round_generic; [apply valid_rnd_N|now apply F64_small]. Qed.

Lemma int_ofZ z : (Z.abs z <= 2 ^ 53)%Z -> isInt (dofZ z) z.
Proof. intros H. destruct (dofZ_small z H). split; auto. Qed.
Lemma int_add x y a b : isInt x a -> isInt y b -> (Z.abs (a + b) <= 2 ^ 53)%Z -> isInt (dadd x y) (a + b).
Proof. intros [Fx Vx] [Fy Vy] H. destruct (dadd_ok x y Fx Fy) as [A FA]; rewrite Vx, Vy, <- plus_IZR, rnd_int in * by exact H; [now apply IZR_small|]. split; auto. Qed.
Lemma int_sub x y a b : isInt x a -> isInt y b -> (Z.abs (a - b) <= 2 ^ 53)%Z -> isInt (dsub x y) (a - b).
Proof. intros [Fx Vx] [Fy Vy] H. destruct (dsub_ok x y Fx Fy) as [A FA]; rewrite Vx, Vy, <- minus_IZR, rnd_int in * by exact H; [now apply IZR_small|]. split; auto. Qed.
Lemma int_mul x y a b : isInt x a -> isInt y b -> (Z.abs (a * b) <= 2 ^ 53)%Z -> isInt (dmul x y) (a * b).
Proof. intros [Fx Vx] [Fy Vy] H. destruct (dmul_ok x y Fx Fy) as [A FA]; rewrite Vx, Vy, <- mult_IZR, rnd_int in * by exact H; [now apply IZR_small|]. split; auto. Qed.
Lemma int_opp x a : isInt x a -> isInt (dopp x) (- a).
Proof. intros [F V]. unfold dopp, isInt. rewrite is_finite_Bopp, B2R_Bopp, V, opp_IZR. auto. Qed.

Lemma dcubic_constant d pp p n nn z : fin d = true -> Rabs (val d) <= pow2 64 -> isInt pp z -> isInt p z -> isInt n z -> isInt nn z -> (Z.abs z <= 2 ^ 50)%Z -> isInt (dcubic d pp p n nn) z.
Proof.
  intros Fd Bd Hpp Hp Hn Hnn B. unfold dcubic. cbv zeta.
  destruct (dmul_bounded d d 64 64 Fd Fd Bd Bd ltac:(lia)) as [F2 B2]. destruct (dmul_bounded _ d _ 64 F2 Fd B2 Bd ltac:(lia)) as [F3 _].
  assert (Z1 : isInt (dadd (dopp pp) n) (- z + z)) by (apply int_add; [now apply int_opp|assumption|lia]).
  assert (Z2 : isInt (dsub (dadd (dsub (dmul (dofZ 2) pp) (dmul (dofZ 5) p)) (dmul (dofZ 4) n)) nn) (2 * z - 5 * z + 4 * z - z)).
  { repeat (first [apply int_sub|apply int_add|apply int_mul|apply int_ofZ]); auto; lia. }
  assert (Z3 : isInt (dadd (dsub (dadd (dopp pp) (dmul (dofZ 3) p)) (dmul (dofZ 3) n)) nn) (- z + 3 * z - 3 * z + z)).
  { repeat (first [apply int_sub|apply int_add|apply int_mul|apply int_ofZ|apply int_opp]); auto; lia. }
  replace (- z + z)%Z with 0%Z in Z1 by lia. replace (2 * z - 5 * z + 4 * z - z)%Z with 0%Z in Z2 by lia. replace (- z + 3 * z - 3 * z + z)%Z with 0%Z in Z3 by lia.
  destruct Z1 as [G1 V1]. destruct Z2 as [G2 V2]. destruct Z3 as [G3 V3].
  destruct (dmul_zero d _ Fd G1 V1) as [A1 W1]. destruct (dmul_zero _ _ F2 G2 V2) as [A2 W2]. destruct (dmul_zero _ _ F3 G3 V3) as [A3 W3].
  assert (S : isInt (dadd (dadd (dmul d (dadd (dopp pp) n)) (dmul (dmul d d) (dsub (dadd (dsub (dmul (dofZ 2) pp) (dmul (dofZ 5) p)) (dmul (dofZ 4) n)) nn)))
    (dmul (dmul (dmul d d) d) (dadd (dsub (dadd (dopp pp) (dmul (dofZ 3) p)) (dmul (dofZ 3) n)) nn))) (0 + 0 + 0)).
  { apply int_add; [apply int_add|..]; try (split; assumption); lia. }
  destruct S as [FS VS]. destruct (dmul_zero (dlit 1 (-1)) _ eq_refl FS VS) as [FH VH].
  assert (K := int_add p (dmul (dlit 1 (-1)) _) z 0 Hp (conj FH VH) ltac:(lia)). now rewrite Z.add_0_r in K.
Qed.

Lemma dcubicRec_constant get z rpos : (Z.abs z <= 2 ^ 50)%Z -> forall ind v, (forall i w, get i = Ok w -> isInt w z) -> dcubicRec get rpos ind = Ok v -> isInt v z.
Proof.
  intros B. induction rpos as [|x rpos IH]; intros ind v G E; [discriminate|]. destruct (dcubicRec_inv get x rpos ind v E) as (f & pp & p & n & nn & EF & _ & K & ->).
  assert (H : forall w, In w [pp; p; n; nn] -> isInt w z).
  { intros w Hw. destruct (K w Hw) as (i & Ei). destruct rpos as [|y r]; [now apply (G (i :: ind))|]. now apply (IH (i :: ind)). }
  destruct (dfloor_bound x f EF) as [FD BD]. apply dcubic_constant; auto; apply H; cbn; tauto.
Qed.

Lemma dcubicRec_total get rpos : forall ind, rpos <> [] -> (forall i, exists w, get i = Ok w) -> Forall (fun x => fin x = true /\ Rabs (val x) < pow2 62) rpos ->
  exists v, dcubicRec get rpos ind = Ok v.
Proof.
  induction rpos as [|x rpos IH]; intros ind N G P; [congruence|].
  set (at_ := fun i => match rpos with [] => get (i :: ind) | _ => dcubicRec get rpos (i :: ind) end).
  change (exists v, (f <- dfloor x ;; pp <- at_ (f - 1)%Z ;; p <- at_ f ;; n <- at_ (f + 1)%Z ;; nn <- at_ (f + 2)%Z ;; Ok (dcubic (dsub x (dofZ f)) pp p n nn)) = Ok v).
  apply Forall_cons_iff in P. destruct P as [[Fx Bx] P]. destruct (dfloor_total x Fx Bx) as (f & ->). cbn [bind].
  assert (K : forall i, exists w, at_ i = Ok w).
  { intros i. unfold at_. destruct rpos as [|y r]; [apply G|]. apply IH; auto. congruence. }
  destruct (K (f - 1)%Z) as (pp & ->). destruct (K f) as (p & ->). destruct (K (f + 1)%Z) as (n & ->). destruct (K (f + 2)%Z) as (nn & ->). cbn [bind]. eauto.
Qed.

Theorem cubic_defined get pos : pos <> [] -> (forall i, exists w, get i = Ok w) -> Forall (fun x => Finite x /\ Rabs (real x) < pow2 62) pos -> exists v, dcubicAt get pos = Ok v.
Proof. intros N G P. unfold dcubicAt. apply dcubicRec_total; [now apply rev_nil|exact G|apply Forall_rev; exact P]. Qed.

Theorem cubic_constant get z pos v : (Z.abs z <= 2 ^ 50)%Z -> (forall i w, get i = Ok w -> Finite w /\ real w = IZR z) -> dcubicAt get pos = Ok v -> Finite v /\ real v = IZR z.
Proof. intros B G E. exact (dcubicRec_constant get z (rev pos) B [] v G E). Qed.

Theorem cubic_constant_refuted : exists get c pos v, Finite c /\ (forall i, get i = Ok c) /\ Within 0 1 pos /\ dcubicAt get [pos] = Ok v /\ Finite v /\ real c < real v.
Proof.
  set (c := ddiv (dofZ 1) (dofZ 10)). set (x := dlit 3 (-2)). exists (fun _ => Ok c), c, x, (dcubic (dsub x (dofZ 0)) c c c c). split; [vm_compute; reflexivity|]. split; [reflexivity|].
  destruct (dofZ_small 0 ltac:(lia)) as [V0 _]. destruct (dofZ_small 1 ltac:(lia)) as [V1 _]. rewrite <- V0, <- V1. split; [within|].
  split; [reflexivity|]. split; [vm_compute; reflexivity|]. apply compare_lt; vm_compute; reflexivity.
Qed.

(** C65: nearest neighbour *)
Lemma F64_scaled m e : (Z.abs m < 2 ^ 53)%Z -> (-1074 <= e)%Z -> F64 (IZR m * pow2 e).
Proof. intros Hm He. apply (generic_format_FLT radix2 (3 - 1024 - 53) 53). exists (Float radix2 m e); cbn [Fnum Fexp]; [reflexivity|exact Hm|lia]. Qed.

Lemma half_val : fin (dlit 1 (-1)) = true /\ val (dlit 1 (-1)) = / 2.
Proof. split; [reflexivity|]. assert (B2SF (dlit 1 (-1)) = SpecFloat.S754_finite false 4503599627370496 (-53)) as E by (vm_compute; reflexivity).
  rewrite <- (SF2R_B2SF 53 1024), E. cbn [SF2R]. unfold F2R. cbn [Fnum Fexp SpecFloat.cond_Zopp bpow]. change (Z.pow_pos radix2 53) with (2 * 4503599627370496)%Z. rewrite mult_IZR. field.
Qed.

(** A double of which the binade is known is a multiple of the unit in the last place there. *)
Lemma F64_binade x j : F64 x -> (-1021 <= j)%Z -> pow2 j <= x < pow2 (j + 1) -> exists m, x = IZR m * pow2 (j - 52) /\ (0 <= m)%Z.
Proof.
  intros Fx Hj Hx. exists (Ztrunc (scaled_mantissa radix2 fexp64 x)).
  assert (M : (mag radix2 x = j + 1 :> Z)%Z) by (apply mag_unique; rewrite Rabs_pos_eq by (assert (H := bpow_ge_0 radix2 j); lra); replace (j + 1 - 1)%Z with j by lia; exact Hx).
  assert (C : cexp radix2 fexp64 x = (j - 52)%Z) by (unfold cexp; rewrite M; unfold SpecFloat.fexp, SpecFloat.emin; lia).
  split.
  - rewrite Fx at 1. unfold F2R. cbn [Fnum Fexp]. now rewrite C.
  - unfold scaled_mantissa. rewrite <- (Ztrunc_IZR 0). apply Ztrunc_le. apply Rmult_le_pos; [|apply bpow_ge_0]. assert (H := bpow_ge_0 radix2 j). lra.
Qed.

Lemma nearest_real x k : F64 x -> 0 <= x -> x < pow2 51 -> x <> / 2 - pow2 (-54) -> IZR k - / 2 <= x < IZR k + / 2 -> IZR k <= rnd (x + / 2) < IZR k + 1.
Proof.
  intros Fx P L N H. assert (P51 : pow2 51 = IZR (2 ^ 51)) by reflexivity.
  assert (K : (0 <= k <= 2 ^ 51)%Z).
  { split; apply Z.lt_succ_r; apply lt_IZR; rewrite succ_IZR; [lra|]. rewrite P51 in L. lra. }
  assert (HalfK : F64 (IZR k + / 2)).
  { replace (IZR k + / 2) with (IZR (2 * k + 1) * pow2 (-1)) by (rewrite plus_IZR, mult_IZR; cbn [bpow]; change (Z.pow_pos radix2 1) with 2%Z; field). apply F64_scaled; lia. }
  split; [apply round_ge_generic; [apply valid64|apply valid_rnd_N|apply F64_small; lia|lra]|].
  destruct (Rlt_or_le x (IZR k)) as [Lk|Lk].
  - apply Rle_lt_trans with (IZR k + / 2); [|lra]. apply round_le_generic; [apply valid64|apply valid_rnd_N|exact HalfK|lra].
  - destruct (Z.eq_dec k 0) as [->|Nk].
    + destruct (Rlt_or_le x (/ 4)) as [Q|Q].
      * apply Rle_lt_trans with (IZR 3 * pow2 (-2)); [|cbn [bpow]; change (Z.pow_pos radix2 2) with 4%Z; lra].
        apply round_le_generic; [apply valid64|apply valid_rnd_N|apply F64_scaled; lia|cbn [bpow]; change (Z.pow_pos radix2 2) with 4%Z; lra].
      * destruct (F64_binade x (-2) Fx ltac:(lia)) as (m & E & Pm).
        { change (pow2 (-2)) with (/ 4). change (pow2 (-2 + 1)) with (/ 2). lra. }
        change (-2 - 52)%Z with (-54)%Z in E. assert (U : pow2 (-54) * IZR (2 ^ 53) = / 2).
        { change (IZR (2 ^ 53)) with (pow2 53). rewrite <- bpow_plus. reflexivity. }
        assert (Ps : 0 < pow2 (-54)) by apply bpow_gt_0.
        assert (M1 : (m < 2 ^ 53)%Z).
        { apply lt_IZR. apply Rmult_lt_reg_r with (pow2 (-54)); [exact Ps|]. rewrite <- E, Rmult_comm, U. lra. }
        assert (M2 : (m <> 2 ^ 53 - 1)%Z).
        { intros ->. apply N. rewrite E, minus_IZR. lra. }
        apply Rle_lt_trans with (IZR (2 ^ 53 - 1) * pow2 (-53)).
        -- apply round_le_generic; [apply valid64|apply valid_rnd_N|apply F64_scaled; lia|]. 
           assert (D : pow2 (-53) = 2 * pow2 (-54)) by (change 2 with (pow2 1); rewrite <- bpow_plus; reflexivity).
           rewrite D, E. assert (IZR m <= IZR (2 ^ 53 - 2)) by (apply IZR_le; lia). rewrite minus_IZR in *.
           assert (IZR m * pow2 (-54) <= (IZR (2 ^ 53) - 2) * pow2 (-54)) by (apply Rmult_le_compat_r; lra). lra.
        -- assert (D : pow2 (-53) * IZR (2 ^ 53) = 1). { change (IZR (2 ^ 53)) with (pow2 53). rewrite <- bpow_plus. reflexivity. }
           rewrite minus_IZR. assert (0 < pow2 (-53)) by apply bpow_gt_0. lra.
    + assert (K1 : (1 <= k)%Z) by lia. assert (Fs : F64 (x + / 2)).
      { set (j := Z.log2 k). destruct (Z.log2_spec k ltac:(lia)) as [J1 J2]. fold j in J1, J2. assert (J0 : (0 <= j)%Z) by apply Z.log2_nonneg.
        destruct (F64_binade x j Fx ltac:(lia)) as (m & E & Pm).
        { rewrite <- (IZR_Zpower radix2 j) by lia. rewrite <- (IZR_Zpower radix2 (j + 1)) by lia. change (radix2 : Z) with 2%Z. 
          assert (IZR (2 ^ j) <= IZR k) by (apply IZR_le; lia). assert (IZR (k + 1) <= IZR (2 ^ (j + 1))) by (apply IZR_le; lia). rewrite plus_IZR in *. lra. }
        assert (J51 : (j < 52)%Z) by (apply Z.log2_lt_pow2; lia).
        assert (HE : / 2 = IZR (2 ^ (51 - j)) * pow2 (j - 52)).
        { assert (I : IZR (2 ^ (51 - j)) = pow2 (51 - j)) by (rewrite <- (IZR_Zpower radix2 (51 - j)) by lia; reflexivity). rewrite I, <- bpow_plus. replace (51 - j + (j - 52))%Z with (-1)%Z by lia. reflexivity. }
        rewrite E, HE, <- Rmult_plus_distr_r, <- plus_IZR. apply F64_scaled; [|lia].
        assert (0 < 2 ^ (51 - j))%Z by (apply Z.pow_pos_nonneg; lia). rewrite Z.abs_eq by lia. apply lt_IZR. apply Rmult_lt_reg_r with (pow2 (j - 52)); [apply bpow_gt_0|].
        rewrite plus_IZR, Rmult_plus_distr_r, <- E, <- HE. change (IZR (2 ^ 53)) with (pow2 53). rewrite <- bpow_plus. replace (53 + (j - 52))%Z with (j + 1)%Z by lia.
        rewrite <- (IZR_Zpower radix2 (j + 1)) by lia. change (radix2 : Z) with 2%Z.
        assert (IZR (k + 1) <= IZR (2 ^ (j + 1))) by (apply IZR_le; lia). rewrite plus_IZR in *. lra. }
      rewrite round_generic; [lra|apply valid_rnd_N|exact Fs].
Qed.

Theorem nearest_ok x : Finite x -> 0 <= real x < pow2 51 -> real x <> / 2 - pow2 (-54) -> exists k, dnearest x = Ok k /\ IZR k - / 2 <= real x < IZR k + / 2.
Proof.
  unfold Finite, real. intros F [P L] N. destruct half_val as [Fh Vh]. set (k := Zfloor (val x + / 2)).
  assert (Hk : IZR k - / 2 <= val x < IZR k + / 2). { assert (A := Zfloor_lb (val x + / 2)). assert (B := Zfloor_ub (val x + / 2)). fold k in A, B. lra. }
  assert (R := nearest_real (val x) k (F64_val x) P L N Hk).
  assert (P51 : pow2 51 = IZR (2 ^ 51)) by reflexivity.
  assert (K : (0 <= k <= 2 ^ 51)%Z).
  { split; apply Z.lt_succ_r; apply lt_IZR; rewrite succ_IZR; [lra|]. rewrite P51 in L. lra. }
  assert (K0 : 0 <= IZR k <= IZR (2 ^ 51)) by (split; apply IZR_le; lia).
  assert (B62 : IZR (2 ^ 51) + 1 <= pow2 62) by (rewrite <- plus_IZR; change (pow2 62) with (IZR (2 ^ 62)); apply IZR_le; lia).
  destruct (dadd_ok x (dlit 1 (-1)) F Fh) as [A FA].
  { rewrite Vh. rewrite Rabs_pos_eq by lra. apply Rlt_trans with (pow2 62); [lra|apply bpow_lt; lia]. }
  rewrite Vh in A. unfold dnearest. destruct (dtrunc_total _ FA) as (z & E & _); [rewrite A, Rabs_pos_eq; lra|].
  destruct (dtrunc_ok _ z FA ltac:(lra) E) as (_ & _ & _ & D). rewrite A in D.
  assert (z = k) as -> by (apply Z.le_antisymm; apply Z.lt_succ_r; apply lt_IZR; rewrite succ_IZR; lra). eauto.
Qed.

Theorem nearest_refuted : exists x, Finite x /\ 0 <= real x < / 2 /\ dnearest x = Ok 1%Z.
Proof.
  exists (dlit (2 ^ 53 - 1) (-54)). destruct half_val as [Fh Vh]. destruct (dofZ_small 0 ltac:(lia)) as [V0 F0].
  split; [reflexivity|]. split; [|vm_compute; reflexivity]. unfold real. rewrite <- Vh. rewrite <- V0 at 1. split; [apply compare_le|apply compare_lt]; try reflexivity. left. vm_compute. reflexivity.
Qed.

(** C66: linspace *)
Lemma rel_up x : pow2 (-1022) <= x -> rnd x <= x * (1 + pow2 (-53)).
Proof.
  intros H. assert (P : 0 < x) by (apply Rlt_le_trans with (2 := H); apply bpow_gt_0).
  assert (E := relative_error_N_FLT radix2 (3 - 1024 - 53) 53 ltac:(lia) (fun z => negb (Z.even z)) x). rewrite Rabs_pos_eq in E by lra.
  assert (U : / 2 * pow2 (- (53) + 1) = pow2 (-53)) by (change (/ 2) with (pow2 (-1)); rewrite <- bpow_plus; reflexivity). rewrite U in E. specialize (E H).
  change (Rabs (rnd x - x) <= pow2 (-53) * x) in E. assert (A := Rle_abs (rnd x - x)). lra.
Qed.

Lemma rel_down x : pow2 (-1022) <= x -> x * (1 - pow2 (-53)) <= rnd x.
Proof.
  intros H. assert (P : 0 < x) by (apply Rlt_le_trans with (2 := H); apply bpow_gt_0).
  assert (E := relative_error_N_FLT radix2 (3 - 1024 - 53) 53 ltac:(lia) (fun z => negb (Z.even z)) x). rewrite Rabs_pos_eq in E by lra.
  assert (U : / 2 * pow2 (- (53) + 1) = pow2 (-53)) by (change (/ 2) with (pow2 (-1)); rewrite <- bpow_plus; reflexivity). rewrite U in E. specialize (E H).
  change (Rabs (rnd x - x) <= pow2 (-53) * x) in E. rewrite Rabs_minus_sym in E. assert (A := Rle_abs (x - rnd x)). lra.
Qed.

Lemma round_nonneg x : 0 <= x -> 0 <= rnd x.
Proof. intros H. apply round_ge_generic; [apply valid64|apply valid_rnd_N|apply generic_format_0|exact H]. Qed.

Lemma cube_shrink u : 0 <= u <= / 100 -> (1 + u) * (1 + u) * (1 + u) * (1 - 8 * u) <= 1.
Proof. intros H. assert (0 <= u * u <= u * / 100) by nra. assert (0 <= u * u * u <= u * / 100) by nra. assert (0 <= u * u * u * u) by nra. lra. Qed.

(** The step times i does not exceed the range. *)
Lemma linspace_bound D k i : 0 <= D -> (1 <= k <= 2 ^ 50)%Z -> (0 <= i < k)%Z -> (D = 0 \/ IZR k * pow2 (-1021) <= D) ->
  0 <= rnd (rnd (rnd D / IZR k) * IZR i) <= D.
Proof.
  intros P K I [->|L].
  - rewrite round0. unfold Rdiv. rewrite Rmult_0_l, round0, Rmult_0_l, round0. lra.
  - set (u := pow2 (-53)). assert (Pu : 0 < u) by apply bpow_gt_0.
    assert (U50 : 8 * u = pow2 (-50)) by (change 8 with (pow2 3); unfold u; rewrite <- bpow_plus; reflexivity).
    assert (Su : u <= / 100). { apply Rle_trans with (pow2 (-7)); [apply bpow_le; lia|]. change (pow2 (-7)) with (/ 128). lra. }
    assert (K1 : 1 <= IZR k) by (apply IZR_le; lia). assert (Pk : 0 < / IZR k) by (apply Rinv_0_lt_compat; lra).
    assert (Tiny : pow2 (-1021) = 2 * pow2 (-1022)) by (change 2 with (pow2 1); rewrite <- bpow_plus; reflexivity). assert (Pt : 0 < pow2 (-1022)) by apply bpow_gt_0.
    assert (D1 : pow2 (-1022) <= D) by nra.
    assert (S1 := rel_up D D1). assert (S2 := rel_down D D1). fold u in S1, S2. set (s := rnd D) in *.
    assert (Sk : pow2 (-1022) <= s / IZR k).
    { apply Rmult_le_reg_r with (IZR k); [lra|]. unfold Rdiv. rewrite Rmult_assoc, Rinv_l, Rmult_1_r by lra. nra. }
    assert (T1 := rel_up _ Sk). fold u in T1. set (st := rnd (s / IZR k)) in *.
    assert (T0 : pow2 (-1022) <= st) by (apply round_ge_generic; [apply valid64|apply valid_rnd_N|apply (generic_format_FLT_bpow radix2 (3 - 1024 - 53) 53); lia|exact Sk]).
    split; [apply round_nonneg, Rmult_le_pos; [lra|apply IZR_le; lia]|].
    destruct (Z.eq_dec i 0) as [->|Ni]; [rewrite Rmult_0_r, round0; lra|].
    assert (I1 : 1 <= IZR i) by (apply IZR_le; lia).
    assert (V1 : pow2 (-1022) <= st * IZR i) by nra.
    assert (V2 := rel_up _ V1). fold u in V2. apply Rle_trans with (1 := V2).
    assert (R : IZR i * / IZR k <= 1 - 8 * u).
    { assert (IZR i <= IZR k - 1) by (rewrite <- minus_IZR; apply IZR_le; lia).
      assert (KU : IZR k * (8 * u) <= 1).
      { rewrite U50. apply Rle_trans with (IZR (2 ^ 50) * pow2 (-50)); [apply Rmult_le_compat_r; [apply bpow_ge_0|apply IZR_le; lia]|]. change (IZR (2 ^ 50)) with (pow2 50). rewrite <- bpow_plus. cbn. lra. }
      apply Rmult_le_reg_r with (IZR k); [lra|]. rewrite Rmult_assoc, Rinv_l, Rmult_1_r by lra. lra. }
    assert (R0 : 0 <= IZR i * / IZR k) by (apply Rmult_le_pos; lra).
    assert (W1 : st * IZR i * (1 + u) <= s / IZR k * (1 + u) * IZR i * (1 + u)).
    { apply Rmult_le_compat_r; [lra|]. apply Rmult_le_compat_r; lra. }
    apply Rle_trans with (1 := W1). unfold Rdiv. replace (s * / IZR k * (1 + u) * IZR i * (1 + u)) with (s * ((1 + u) * (1 + u) * (IZR i * / IZR k))) by ring.
    assert (Q0 : 0 <= (1 + u) * (1 + u) * (IZR i * / IZR k)) by (apply Rmult_le_pos; [apply Rmult_le_pos|]; lra).
    apply Rle_trans with (D * (1 + u) * ((1 + u) * (1 + u) * (IZR i * / IZR k))); [apply Rmult_le_compat_r; assumption|].
    replace (D * (1 + u) * ((1 + u) * (1 + u) * (IZR i * / IZR k))) with (D * ((1 + u) * (1 + u) * (1 + u) * (IZR i * / IZR k))) by ring.
    rewrite <- (Rmult_1_r D) at 2. apply Rmult_le_compat_l; [exact P|].
    apply Rle_trans with ((1 + u) * (1 + u) * (1 + u) * (1 - 8 * u)); [|apply cube_shrink; lra].
    apply Rmult_le_compat_l; [|exact R]. apply Rmult_le_pos; [apply Rmult_le_pos|]; lra.
Qed.

Definition linspaceElement (mn step : double) (i : Z) : double := dadd mn (dmul step (dofZ i)).

Lemma element_ok mn mx k i : fin mn = true -> fin mx = true -> val mn <= val mx -> val mx - val mn <= maxDouble -> (1 <= k <= 2 ^ 50)%Z -> (0 <= i < k)%Z ->
  (val mx = val mn \/ IZR k * pow2 (-1021) <= val mx - val mn) ->
  let v := linspaceElement mn (ddiv (dsub mx mn) (dofZ k)) i in
  fin v = true /\ val v = rnd (val mn + rnd (rnd (rnd (val mx - val mn) / IZR k) * IZR i)) /\ val mn <= val v <= val mx.
Proof.
  intros Fn Fx L B K I H. set (D := val mx - val mn) in *. assert (P : 0 <= D) by (unfold D; lra).
  assert (Bd := linspace_bound D k i P K I ltac:(unfold D in *; destruct H; [left|right]; lra)).
  assert (M := maxDouble_lt). assert (K1 : 1 <= IZR k) by (apply IZR_le; lia).
  assert (S0 : 0 <= rnd D <= maxDouble) by (split; [now apply round_nonneg|apply round_le_generic; [apply valid64|apply valid_rnd_N|apply maxDouble_F|exact B]]).
  destruct (dsub_ok mx mn Fx Fn) as [S FS]; [fold D; rewrite Rabs_pos_eq; lra|]. fold D in S.
  destruct (dofZ_small k ltac:(lia)) as [Vk Fk]. destruct (dofZ_small i ltac:(lia)) as [Vi Fi].
  assert (Q : 0 <= rnd D / IZR k <= rnd D).
  { assert (0 < / IZR k <= 1) by (split; [apply Rinv_0_lt_compat; lra|rewrite <- Rinv_1; apply Rinv_le; lra]). unfold Rdiv. split; [apply Rmult_le_pos; lra|]. rewrite <- (Rmult_1_r (rnd D)) at 2. apply Rmult_le_compat_l; lra. }
  assert (Q1 : 0 <= rnd (rnd D / IZR k) <= rnd D).
  { split; [now apply round_nonneg|]. apply round_le_generic; [apply valid64|apply valid_rnd_N|apply generic_format_round; [apply valid64|apply valid_rnd_N]|]. tauto. }
  destruct (ddiv_ok (dsub mx mn) (dofZ k) FS) as [T FT]; [rewrite Vk; lra|rewrite S, Vk, Rabs_pos_eq; lra|]. rewrite S, Vk in T.
  destruct (dmul_ok (ddiv (dsub mx mn) (dofZ k)) (dofZ i) FT Fi) as [U FU]; [rewrite T, Vi, Rabs_pos_eq; lra|]. rewrite T, Vi in U.
  assert (V : val mn <= rnd (val mn + rnd (rnd (rnd D / IZR k) * IZR i)) <= val mx).
  { split; [apply round_ge_generic|apply round_le_generic]; try apply valid64; try apply valid_rnd_N; try apply F64_val; unfold D in *; lra. }
  assert (Bn := val_lt mn). assert (Bx := val_lt mx). apply Rabs_def2 in Bn, Bx.
  destruct (dadd_ok mn (dmul (ddiv (dsub mx mn) (dofZ k)) (dofZ i)) Fn FU) as [A FA]; [rewrite U; apply Rabs_def1; lra|]. rewrite U in A.
  cbv zeta. unfold linspaceElement. rewrite A. tauto.
Qed.

Lemma In_loop mn step v : forall n i, In v (dlinspaceLoop n i mn step) -> exists j, (i <= j < i + Z.of_nat n)%Z /\ v = linspaceElement mn step j.
Proof.
  induction n as [|n IH]; intros i H; [destruct H|]. cbn [dlinspaceLoop] in H. destruct H as [<-|H].
  - exists i. split; [lia|reflexivity].
  - destruct (IH _ H) as (j & Hj & E). exists j. split; [lia|exact E].
Qed.

Lemma loop_length mn step : forall n i, length (dlinspaceLoop n i mn step) = n.
Proof. induction n as [|n IH]; intros i; [reflexivity|]. cbn [dlinspaceLoop length]. now rewrite IH. Qed.

Lemma loop_sorted mn step mx k : (forall i, (0 <= i < k)%Z -> val (linspaceElement mn step i) <= val mx) ->
  (forall i j, (0 <= i)%Z -> (i <= j < k)%Z -> val (linspaceElement mn step i) <= val (linspaceElement mn step j)) ->
  forall n i, (0 <= i)%Z -> (i + Z.of_nat n <= k)%Z -> StronglySorted (fun a b => real a <= real b) (dlinspaceLoop n i mn step ++ [mx]).
Proof.
  intros U M. induction n as [|n IH]; intros i H0 H; [repeat constructor|]. cbn [dlinspaceLoop app]. constructor; [apply IH; lia|].
  apply Forall_forall. intros v Hv. apply in_app_or in Hv. destruct Hv as [Hv|[<-|[]]].
  - destruct (In_loop _ _ _ _ _ Hv) as (j & Hj & ->). apply (M i j); lia.
  - apply (U i). lia.
Qed.

Theorem linspace_ok size mn mx : (2 <= size)%nat -> (Z.of_nat size <= 2 ^ 50)%Z -> Finite mn -> Finite mx -> real mn <= real mx -> real mx - real mn <= maxDouble ->
  (real mx = real mn \/ IZR (Z.of_nat size - 1) * pow2 (-1021) <= real mx - real mn) ->
  exists first mid, dlinspace size mn mx = Ok (first :: mid ++ [mx]) /\ length (first :: mid ++ [mx]) = size /\ real first = real mn /\
    Forall (Within (real mn) (real mx)) (first :: mid ++ [mx]) /\ StronglySorted (fun a b => real a <= real b) (first :: mid ++ [mx]).
Proof.
  unfold Finite, real. intros N1 N2 Fn Fx L B H. destruct size as [|[|k]]; try lia.
  set (step := ddiv (dsub mx mn) (dofZ (Z.of_nat (S k)))).
  replace (Z.of_nat (S (S k)) - 1)%Z with (Z.of_nat (S k)) in H by lia.
  assert (E := fun i Hi => element_ok mn mx (Z.of_nat (S k)) i Fn Fx L B ltac:(lia) Hi H). cbv zeta in E. fold step in E.
  exists (dadd mn (dmul step (dofZ 0))), (dlinspaceLoop k 1 mn step).
  assert (Eq : dadd mn (dmul step (dofZ 0)) :: dlinspaceLoop k 1 mn step ++ [mx] = dlinspaceLoop (S k) 0 mn step ++ [mx]) by reflexivity.
  split; [reflexivity|]. rewrite Eq. split; [rewrite app_length, loop_length; cbn; lia|].
  split. { destruct (E 0%Z ltac:(lia)) as (_ & V & _). unfold linspaceElement in V. rewrite V. rewrite Rmult_0_r, round0, Rplus_0_r. apply round_generic; [apply valid_rnd_N|apply F64_val]. }
  split.
  - apply Forall_app. split; [|constructor; [split; [exact Fx|unfold real; lra]|constructor]]. apply Forall_forall. intros v Hv. destruct (In_loop _ _ _ _ _ Hv) as (j & Hj & ->).
    destruct (E j ltac:(lia)) as (F & _ & Bv). split; assumption.
  - apply (loop_sorted mn step mx (Z.of_nat (S k))); try lia.
    + intros i Hi. destruct (E i Hi) as (_ & _ & Bv). tauto.
    + intros i j Hi Hj. destruct (E i ltac:(lia)) as (_ & -> & _). destruct (E j ltac:(lia)) as (_ & -> & _).
      apply round_le; [apply valid64|apply valid_rnd_N|]. apply Rplus_le_compat_l. apply round_le; [apply valid64|apply valid_rnd_N|].
      apply Rmult_le_compat_l; [|apply IZR_le; lia]. apply round_nonneg. unfold Rdiv. apply Rmult_le_pos; [apply round_nonneg; lra|]. apply Rlt_le, Rinv_0_lt_compat, IZR_lt. lia.
Qed.

(** Overflow of the range: the first value is not a number. *)
Theorem linspace_overflow : exists mn mx l, Finite mn /\ Finite mx /\ real mn < real mx /\ dlinspace 3 mn mx = Ok l /\ exists v, nth_error l 0 = Some v /\ is_nan v = true.
Proof.
  exists (dopp huge), huge. eexists. split; [reflexivity|]. split; [reflexivity|]. split; [apply compare_lt; reflexivity|]. split; [reflexivity|]. eexists. split; [reflexivity|]. vm_compute. reflexivity.
Qed.

(** Subnormal step: a value exceeds the maximum. *)
Theorem linspace_subnormal : exists mn mx l, Finite mn /\ Finite mx /\ real mn < real mx /\ dlinspace 6 mn mx = Ok l /\ exists v, nth_error l 4 = Some v /\ Finite v /\ real mx < real v.
Proof.
  exists (dofZ 0), (dlit 3 (-1074)). eexists. split; [reflexivity|]. split; [reflexivity|]. split; [apply compare_lt; reflexivity|]. split; [reflexivity|]. eexists. split; [reflexivity|].
  split; [vm_compute; reflexivity|]. apply compare_lt; vm_compute; reflexivity.
Qed.

(** range *)
Theorem range_steps n mn step : forall i v w, nth_error (drange n mn step) i = Some v -> nth_error (drange n mn step) (S i) = Some w -> Finite v -> Finite step -> Finite w ->
  real w = nearestDouble (real v + real step).
Proof.
  intros i. revert n mn. induction i as [|i IH]; intros n mn v w Hv Hw Fv Fs Fw.
  - destruct n as [|[|n]]; try discriminate. cbn [drange nth_error] in Hv, Hw. injection Hv as <-. assert (w = dadd mn step) as -> by congruence.
    change (real (dadd mn step) = rnd (val mn + val step)). assert (C := Bplus_correct 53 1024 hprec hmax mode_NE mn step Fv Fs). cbn [round_mode] in C. fold (dadd mn step) in C.
    destruct (Rlt_bool_spec (Rabs (rnd (val mn + val step))) (pow2 1024)) as [L|L]; [apply C|].
    destruct C as [C _]. unfold Finite in Fw. destruct (dadd mn step); cbn [B2SF binary_overflow overflow_to_inf is_finite] in C, Fw; discriminate.
  - destruct n as [|n]; [discriminate|]. cbn [drange nth_error] in Hv, Hw. now apply (IH n (dadd mn step)).
Qed.

Lemma drange_int n : forall mn step a b, isInt mn a -> isInt step b -> (Z.abs a + Z.of_nat n * Z.abs b <= 2 ^ 53)%Z ->
  forall i, (i < n)%nat -> exists w, nth_error (drange n mn step) i = Some w /\ isInt w (a + Z.of_nat i * b).
Proof.
  induction n as [|n IH]; intros mn step a b Hm Hs B i Hi; [lia|]. cbn [drange]. destruct i as [|i]; cbn [nth_error].
  - exists mn. split; [reflexivity|]. now rewrite Z.mul_0_l, Z.add_0_r.
  - destruct (IH (dadd mn step) step (a + b)%Z b) with (i := i) as (w & E & W); [apply int_add; auto; nia|exact Hs|nia|lia|].
    exists w. split; [exact E|]. replace (a + Z.of_nat (S i) * b)%Z with (a + b + Z.of_nat i * b)%Z by lia. exact W.
Qed.

Theorem range_exact n mn step a b : Finite mn -> real mn = IZR a -> Finite step -> real step = IZR b -> (Z.abs a + Z.of_nat n * Z.abs b <= 2 ^ 53)%Z ->
  forall i, (i < n)%nat -> exists w, nth_error (drange n mn step) i = Some w /\ Finite w /\ real w = IZR (a + Z.of_nat i * b).
Proof. intros Fm Vm Fs Vs. exact (drange_int n mn step a b (conj Fm Vm) (conj Fs Vs)). Qed.

(** A range from 0 by tenths does not reach 1 at its eleventh value. *)
Theorem range_refuted : exists step w, Finite step /\ nth_error (drange 11 (dofZ 0) step) 10 = Some w /\ Finite w /\ nearestDouble (IZR 10 * real step) = 1 /\ real w < 1.
Proof.
  exists (ddiv (dofZ 1) (dofZ 10)). eexists. split; [vm_compute; reflexivity|]. split; [reflexivity|]. split; [vm_compute; reflexivity|].
  destruct (dofZ_small 1 ltac:(lia)) as [V1 F1]. destruct (dofZ_small 10 ltac:(lia)) as [V10 F10]. set (s := ddiv (dofZ 1) (dofZ 10)). assert (Fs : fin s = true) by (vm_compute; reflexivity).
  split; [|rewrite <- V1; apply compare_lt; vm_compute; reflexivity].
  change (nearestDouble (IZR 10 * real s)) with (rnd (IZR 10 * val s)). rewrite <- V10, <- V1.
  assert (C := Bmult_correct 53 1024 hprec hmax mode_NE (dofZ 10) s). cbn [round_mode] in C. fold (dmul (dofZ 10) s) in C.
  assert (E : Bcompare (dmul (dofZ 10) s) (dofZ 1) = Some Eq) by (vm_compute; reflexivity). assert (FM : fin (dmul (dofZ 10) s) = true) by (vm_compute; reflexivity).
  rewrite Bcompare_correct in E by assumption. assert (E2 : Rcompare (val (dmul (dofZ 10) s)) (val (dofZ 1)) = Eq) by congruence. apply Rcompare_Eq_inv in E2. rewrite <- E2.
  destruct (Rlt_bool_spec (Rabs (rnd (val (dofZ 10) * val s))) (pow2 1024)) as [L|L]; [symmetry; apply C|].
  exfalso. destruct (dmul (dofZ 10) s); cbn [B2SF binary_overflow overflow_to_inf is_finite] in C, FM; discriminate.
Qed.

(** C67: mean *)
Lemma sum_int l : forall zs acc a, Forall2 isInt l zs -> isInt acc a -> (Z.abs a + fold_right (fun z s => Z.abs z + s) 0 zs <= 2 ^ 53)%Z ->
  isInt (fold_left dadd l acc) (a + fold_right Z.add 0 zs)%Z.
Proof.
  assert (P : forall zs, (0 <= fold_right (fun z s => Z.abs z + s) 0 zs)%Z) by (intros zs; induction zs as [|z zs IH]; cbn [fold_right]; lia).
  induction l as [|x l IH]; intros zs acc a F Ha B; inversion F as [|? z ? zs' Hx Hl]; subst; cbn [fold_left fold_right].
  - now rewrite Z.add_0_r.
  - cbn [fold_right] in B. assert (Q := P zs'). rewrite Z.add_assoc. apply IH; auto; [apply int_add; auto; lia|lia].
Qed.

Lemma sum_bounds l zs lo hi : Forall2 isInt l zs -> Forall (fun x => lo <= val x <= hi) l -> lo * IZR (Z.of_nat (length l)) <= IZR (fold_right Z.add 0 zs)%Z <= hi * IZR (Z.of_nat (length l)).
Proof.
  induction 1 as [|x z l zs [Fx Vx] Hl IH]; intros B; cbn [length fold_right].
  - cbn. lra.
  - apply Forall_cons_iff in B. destruct B as [Bx B]. specialize (IH B). rewrite Nat2Z.inj_succ, succ_IZR, plus_IZR. rewrite Vx in Bx. lra.
Qed.

Theorem mean_ok l zs : l <> [] -> (Z.of_nat (length l) <= 2 ^ 53)%Z -> Forall2 (fun x z => Finite x /\ real x = IZR z) l zs -> (fold_right (fun z s => Z.abs z + s) 0 zs <= 2 ^ 53)%Z ->
  Finite (dmean l) /\ real (dmean l) = nearestDouble (IZR (fold_right Z.add 0 zs)%Z / IZR (Z.of_nat (length l))) /\
  forall lo hi, Forall (Within (real lo) (real hi)) l -> Within (real lo) (real hi) (dmean l).
Proof.
  intros N L F B. assert (F' : Forall2 isInt l zs) by exact F.
  assert (S := sum_int l zs (dofZ 0) 0 F' (int_ofZ 0 ltac:(lia)) ltac:(rewrite Z.add_0_l; exact B)). rewrite Z.add_0_l in S. destruct S as [FS VS].
  destruct (dofZ_small (Z.of_nat (length l)) ltac:(lia)) as [Vn Fn]. assert (N1 : 1 <= IZR (Z.of_nat (length l))) by (apply IZR_le; destruct l; [congruence|cbn [length]; lia]).
  set (s := fold_right Z.add 0%Z zs) in *. set (n := IZR (Z.of_nat (length l))) in *.
  assert (As : (Z.abs s <= 2 ^ 53)%Z).
  { apply Z.le_trans with (2 := B). unfold s. clear. induction zs as [|z zs IH]; cbn [fold_right]; lia. }
  assert (Q : Rabs (IZR s / n) <= pow2 53).
  { unfold Rdiv. rewrite Rabs_mult. assert (0 < / n <= 1) by (split; [apply Rinv_0_lt_compat; lra|rewrite <- Rinv_1; apply Rinv_le; lra]).
    rewrite (Rabs_pos_eq (/ n)) by lra. assert (A : Rabs (IZR s) <= pow2 53) by (rewrite <- abs_IZR; change (pow2 53) with (IZR (2 ^ 53)); now apply IZR_le).
    rewrite <- (Rmult_1_r (pow2 53)). apply Rmult_le_compat; try lra. apply Rabs_pos. }
  destruct (ddiv_ok (fold_left dadd l (dofZ 0)) (dofZ (Z.of_nat (length l))) FS) as [D FD].
  { rewrite Vn. fold n. lra. }
  { rewrite VS, Vn. fold n. apply Rle_lt_trans with (pow2 53); [|apply bpow_lt; lia].
    apply abs_round_le_generic; [apply valid64|apply valid_rnd_N|apply (generic_format_FLT_bpow radix2 (3 - 1024 - 53) 53); lia|exact Q]. }
  rewrite VS, Vn in D. fold n in D. split; [exact FD|]. split; [exact D|].
  intros lo hi W. split; [exact FD|]. unfold real, dmean. rewrite D. assert (SB := sum_bounds l zs (real lo) (real hi) F').
  fold s n in SB. destruct SB as [S1 S2]; [apply Forall_impl with (2 := W); intros x Hx; apply Hx|]. unfold real in S1, S2.
  assert (T : forall t, t * n / n = t) by (intros t; field; lra).
  split; [apply round_ge_generic|apply round_le_generic]; try apply valid64; try apply valid_rnd_N; try apply F64_val.
  - rewrite <- (T (val lo)). unfold Rdiv. apply Rmult_le_compat_r; [apply Rlt_le, Rinv_0_lt_compat; lra|exact S1].
  - rewrite <- (T (val hi)). unfold Rdiv. apply Rmult_le_compat_r; [apply Rlt_le, Rinv_0_lt_compat; lra|exact S2].
Qed.

Theorem mean_refuted : exists c, Finite c /\ Finite (dmean [c; c; c]) /\ real c < real (dmean [c; c; c]).
Proof. exists (ddiv (dofZ 1) (dofZ 10)). split; [vm_compute; reflexivity|]. split; [vm_compute; reflexivity|]. apply compare_lt; vm_compute; reflexivity. Qed.

Lemma dlinspace_short mn mx : dlinspace 0 mn mx = UB /\ dlinspace 1 mn mx = Ok [mx].
Proof. split; reflexivity. Qed.
