(** Rounding of the quantiles. *)
From Coq Require Import Reals Lra Sorted.
From Flocq Require Import Core Relative IEEE754.BinarySingleNaN.
From Verif Require Import Res FloatModel FloatSpec FloatProofs QuantileModel QuantileSpec.

Local Existing Instance hprec.
Local Existing Instance hmax.
Local Existing Instance valid64.
Open Scope R_scope.

Lemma dtruncU_trunc x z : dtrunc x = Ok z -> (0 <= z)%Z -> dtruncU x = Ok z.
Proof.
  intros E P. destruct x as [s| | |s m e B]; try discriminate E; [exact E|]. unfold dtrunc, dtruncU in *. cbv zeta in *.
  apply chk64_inv in E. destruct E as [C ->]. set (w := if s then _ else _) in *. clearbody w.
  assert (T : ((0 <=? w) && (w <? 2 ^ 64))%Z = true) by lia. now rewrite T.
Qed.

Lemma deqb_spec x y : fin x = true -> fin y = true -> deqb x y = true <-> val x = val y.
Proof.
  intros Fx Fy. unfold deqb. rewrite (Bcompare_correct 53 1024 x y Fx Fy). destruct (Rcompare_spec (val x) (val y)); split; intros; try lra; try discriminate; reflexivity.
Qed.

Lemma zget_In {A} (l : list A) i : (0 <= i < Z.of_nat (length l))%Z -> exists x, zget l i = Ok x /\ In x l.
Proof.
  intros H. unfold zget. assert ((i <? 0)%Z = false) as -> by lia. destruct (nth_error l (Z.to_nat i)) eqn:E.
  - exists a. split; [reflexivity|]. eapply nth_error_In, E.
  - apply nth_error_None in E. lia.
Qed.

Lemma zget_out {A} (l : list A) i : (i < 0 \/ Z.of_nat (length l) <= i)%Z -> zget l i = UB.
Proof.
  intros H. unfold zget. destruct (Z.ltb_spec i 0); [reflexivity|]. destruct (nth_error l (Z.to_nat i)) eqn:E; [|reflexivity].
  assert (N : nth_error l (Z.to_nat i) <> None) by congruence. apply nth_error_Some in N. lia.
Qed.

(** A double multiplied by less than 1 - 2^-53 is rounded below the previous double. *)
Lemma shrink_pred s D : F64 s -> pow2 (-1021) <= s -> D <= s - s * pow2 (-53) -> rnd D <= pred radix2 fexp64 s.
Proof.
  intros Fs Ls HD. assert (Ps : 0 < s) by (apply Rlt_le_trans with (2 := Ls); apply bpow_gt_0).
  assert (M : (-1020 <= mag radix2 s)%Z).
  { apply mag_ge_bpow. rewrite Rabs_pos_eq by lra. exact Ls. }
  assert (E53 : forall e, (-1021 <= e)%Z -> fexp64 e = (e - 53)%Z) by (intros e He; unfold SpecFloat.fexp, SpecFloat.emin; lia).
  assert (PE : pred radix2 fexp64 s = pred_pos radix2 fexp64 s) by (apply pred_eq_pos; lra).
  unfold pred_pos in PE. destruct (Req_bool_spec s (pow2 (mag radix2 s - 1))) as [E|E].
  - apply round_le_generic; [apply valid64|apply valid_rnd_N|apply generic_format_pred; [apply valid64|exact Fs]|]. rewrite PE.
    rewrite E53 by lia. replace (mag radix2 s - 1 - 53)%Z with (mag radix2 s - 1 + -53)%Z by lia. rewrite bpow_plus, <- E. exact HD.
  - apply round_N_le_midp; [apply valid64|apply generic_format_pred; [apply valid64|exact Fs]|]. rewrite (@succ_pred radix2 fexp64 valid64 s Fs). rewrite PE.
    rewrite ulp_neq_0 by lra. unfold cexp. rewrite E53 by lia.
    assert (B : pow2 (mag radix2 s - 1) < s).
    { destruct (mag radix2 s) as (e & He). cbn [mag_val] in *. specialize (He ltac:(lra)). rewrite Rabs_pos_eq in He by lra. lra. }
    assert (U : pow2 (mag radix2 s - 53) = 2 * (pow2 (mag radix2 s - 1) * pow2 (-53))).
    { rewrite <- bpow_plus. change 2 with (pow2 1). rewrite <- bpow_plus. f_equal. lia. }
    assert (Q : pow2 (mag radix2 s - 1) * pow2 (-53) < s * pow2 (-53)) by (apply Rmult_lt_compat_r; [apply bpow_gt_0|exact B]).
    lra.
Qed.

Lemma F64_mantissa x : F64 x -> exists m e, x = IZR m * pow2 e /\ (Z.abs m < 2 ^ 53)%Z /\ (-1074 <= e)%Z.
Proof.
  intros F. destruct (FLT_format_generic radix2 (3 - 1024 - 53) 53 x F) as [f E M L]. exists (Fnum f), (Fexp f). split; [exact E|]. split; [exact M|exact L].
Qed.

Lemma F64_shift x k : (0 <= k)%Z -> F64 x -> F64 (x * pow2 k).
Proof.
  intros K F. destruct (F64_mantissa x F) as (m & e & -> & M & L). rewrite Rmult_assoc, <- bpow_plus. apply F64_scaled; lia.
Qed.

Lemma maxDouble_eq : maxDouble = pow2 1024 * (1 - pow2 (-53)).
Proof.
  unfold maxDouble. rewrite minus_IZR. change (IZR (2 ^ 53)) with (pow2 53).
  assert (E : pow2 1024 = pow2 53 * pow2 971) by (rewrite <- bpow_plus; reflexivity).
  assert (I : pow2 53 * pow2 (-53) = 1) by (rewrite <- bpow_plus; reflexivity).
  rewrite E. transitivity (pow2 53 * pow2 971 - (pow2 53 * pow2 (-53)) * pow2 971); [rewrite I; ring|ring].
Qed.

Lemma maxDouble_pos : 0 < maxDouble.
Proof. unfold maxDouble. apply Rmult_lt_0_compat; [apply IZR_lt; lia|apply bpow_gt_0]. Qed.

Lemma val_max x : Rabs (val x) <= maxDouble.
Proof.
  assert (F : F64 (Rabs (val x))) by (apply generic_format_abs, F64_val).
  assert (P : Rabs (val x) <= pred radix2 fexp64 (pow2 1024)).
  { apply pred_ge_gt; [apply valid64|exact F|apply (generic_format_FLT_bpow radix2 (3 - 1024 - 53) 53); lia|apply val_lt]. }
  rewrite pred_bpow in P. rewrite maxDouble_eq. change (fexp64 1024) with (1024 + -53)%Z in P. rewrite bpow_plus in P. lra.
Qed.

(** The sum of the weighted extrema is rounded to a finite double. *)
Lemma weights_finite h s : F64 h -> F64 s -> / 2 < h <= 1 -> 0 < s -> h + s <= 1 + pow2 (-54) ->
  rnd (maxDouble * h) + rnd (maxDouble * s) < pow2 1024 - pow2 970.
Proof.
  intros Fh Fs Hh Hs S.
  assert (A1 : pow2 971 = pow2 1024 * pow2 (-53)) by (rewrite <- bpow_plus; reflexivity).
  assert (A0 : pow2 970 = pow2 1024 * pow2 (-54)) by (rewrite <- bpow_plus; reflexivity).
  assert (A2 : pow2 971 = 2 * pow2 970) by (change 2 with (pow2 1); rewrite <- bpow_plus; reflexivity).
  assert (P := bpow_gt_0 radix2 1024). assert (P9 := bpow_gt_0 radix2 970).
  (* the smaller weight *)
  assert (Ft : F64 (s * pow2 1024)) by (apply F64_shift; [lia|exact Fs]).
  assert (Ls : pow2 (-1074) <= s).
  { assert (B := generic_format_ge_bpow radix2 fexp64 (-1074)). apply B; [|exact Hs|exact Fs]. intros e. unfold SpecFloat.fexp, SpecFloat.emin. lia. }
  assert (Lt : pow2 (-1021) <= s * pow2 1024).
  { apply Rle_trans with (pow2 (-1074) * pow2 1024); [rewrite <- bpow_plus; apply bpow_le; lia|]. apply Rmult_le_compat_r; lra. }
  assert (B1 : rnd (maxDouble * s) < s * pow2 1024).
  { apply Rle_lt_trans with (pred radix2 fexp64 (s * pow2 1024)).
    - apply shrink_pred; auto. rewrite maxDouble_eq. right. ring.
    - apply pred_lt_id. apply Rgt_not_eq. apply Rmult_lt_0_compat; lra. }
  (* the larger weight *)
  assert (G : exists m, h = IZR m * pow2 (-53) /\ (2 ^ 52 < m <= 2 ^ 53)%Z).
  { assert (I53 : IZR (2 ^ 53) * pow2 (-53) = 1) by (change (IZR (2 ^ 53)) with (pow2 53); rewrite <- bpow_plus; reflexivity).
    assert (I52 : IZR (2 ^ 52) * pow2 (-53) = / 2) by (change (IZR (2 ^ 52)) with (pow2 52); rewrite <- bpow_plus; reflexivity).
    assert (P53 := bpow_gt_0 radix2 (-53)).
    destruct (Rle_lt_or_eq_dec h 1 (proj2 Hh)) as [L|E].
    - destruct (F64_binade h (-1)) as (m & Em & Pm); [exact Fh|lia| |].
      + split; [change (pow2 (-1)) with (/ 2); lra|exact L].
      + change (-1 - 52)%Z with (-53)%Z in Em. exists m. split; [exact Em|]. split; [|apply Z.lt_le_incl]; apply lt_IZR; apply Rmult_lt_reg_r with (pow2 (-53)); lra.
    - exists (2 ^ 53)%Z. split; [lra|lia]. }
  destruct G as (m & Em & Bm).
  assert (Eg : h * pow2 1024 - pow2 971 = IZR (m - 1) * pow2 971) by (rewrite minus_IZR, A1, Em; ring).
  assert (Fg : F64 (IZR (m - 1) * pow2 971)) by (apply F64_scaled; lia).
  assert (B2 : rnd (maxDouble * h) <= IZR (m - 1) * pow2 971).
  { apply round_N_le_midp; [apply valid64|exact Fg|].
    assert (Lg : pow2 1023 <= IZR (m - 1) * pow2 971).
    { replace (pow2 1023) with (IZR (2 ^ 52) * pow2 971) by (change (IZR (2 ^ 52)) with (pow2 52); rewrite <- bpow_plus; reflexivity).
      apply Rmult_le_compat_r; [lra|apply IZR_le; lia]. }
    assert (Ug : IZR (m - 1) * pow2 971 < pow2 1024).
    { replace (pow2 1024) with (IZR (2 ^ 53) * pow2 971) by (change (IZR (2 ^ 53)) with (pow2 53); rewrite <- bpow_plus; reflexivity).
      apply Rmult_lt_compat_r; [lra|apply IZR_lt; lia]. }
    assert (P1023 := bpow_gt_0 radix2 1023).
    rewrite succ_eq_pos by lra. rewrite ulp_neq_0 by lra. unfold cexp. rewrite (mag_unique radix2 _ 1024).
    2: { rewrite Rabs_pos_eq by lra. split; [exact Lg|exact Ug]. }
    change (fexp64 1024) with 971%Z. rewrite <- Eg, maxDouble_eq.
    assert (pow2 1024 * pow2 (-53) * / 2 < pow2 1024 * pow2 (-53) * h) by (apply Rmult_lt_compat_l; [rewrite <- A1|]; lra).
    rewrite A1. lra. }
  assert (pow2 1024 * (h + s) <= pow2 1024 * (1 + pow2 (-54))) by (apply Rmult_le_compat_l; lra).
  rewrite <- Eg in B2. lra.
Qed.

Lemma below_overflow x : x < pow2 1024 - pow2 970 -> rnd x <= maxDouble.
Proof.
  intros H. apply round_N_le_midp; [apply valid64|apply maxDouble_F|].
  assert (A1 : pow2 971 = pow2 1024 * pow2 (-53)) by (rewrite <- bpow_plus; reflexivity).
  assert (A2 : pow2 971 = 2 * pow2 970) by (change 2 with (pow2 1); rewrite <- bpow_plus; reflexivity).
  assert (E : maxDouble = pred radix2 fexp64 (pow2 1024)).
  { rewrite pred_bpow, maxDouble_eq. change (fexp64 1024) with 971%Z. rewrite A1. ring. }
  rewrite E at 2. rewrite succ_pred; [|apply valid64|apply (generic_format_FLT_bpow radix2 (3 - 1024 - 53) 53); lia].
  rewrite maxDouble_eq. lra.
Qed.

Lemma abs_rnd x : Rabs (rnd x) = rnd (Rabs x).
Proof. symmetry. apply (round_NE_abs radix2 fexp64). Qed.

(** The weights of the neighbours. *)
Lemma weight_complement d : F64 d -> 0 < d < 1 -> let e := rnd (1 - d) in F64 e /\ 0 < e <= 1 /\ Rabs (e - (1 - d)) <= pow2 (-54).
Proof.
  intros Fd Hd e. assert (Fe : F64 e) by (apply generic_format_round; [apply valid64|apply valid_rnd_N]).
  split; [exact Fe|]. assert (D := below_one d Fd (proj2 Hd)).
  assert (F1 : F64 1) by (apply F64_small; lia).
  split; [split|].
  - apply Rlt_le_trans with (pow2 (-53)); [apply bpow_gt_0|]. apply round_ge_generic; [apply valid64|apply valid_rnd_N|apply (generic_format_FLT_bpow radix2 (3 - 1024 - 53) 53); lia|lra].
  - apply round_le_generic; [apply valid64|apply valid_rnd_N|exact F1|lra].
  - apply Rle_trans with (/ 2 * ulp radix2 fexp64 (1 - d)); [apply error_le_half_ulp; apply valid64|].
    change (pow2 (-54)) with (pow2 (-1 + -53)). rewrite bpow_plus. change (pow2 (-1)) with (/ 2). apply Rmult_le_compat_l; [lra|].
    rewrite ulp_neq_0 by lra. apply bpow_le. unfold cexp.
    assert (M : (mag radix2 (1 - d) <= 0)%Z) by (apply mag_le_bpow; [lra|]; rewrite Rabs_pos_eq by lra; change (pow2 0) with 1; lra).
    unfold SpecFloat.fexp, SpecFloat.emin. lia.
Qed.

Lemma sum_finite d x y : F64 d -> 0 < d < 1 -> Rabs x <= maxDouble -> Rabs y <= maxDouble ->
  Rabs (rnd (x * d)) <= maxDouble /\ Rabs (rnd (y * rnd (1 - d))) <= maxDouble /\ Rabs (rnd (rnd (x * d) + rnd (y * rnd (1 - d)))) <= maxDouble.
Proof.
  intros Fd Hd Hx Hy. destruct (weight_complement d Fd Hd) as (Fe & He & Ee). cbv zeta in *. set (e := rnd (1 - d)) in *.
  assert (MP := maxDouble_pos).
  assert (W : forall w z, F64 w -> 0 < w <= 1 -> Rabs z <= maxDouble -> Rabs (rnd (z * w)) <= rnd (maxDouble * w) /\ rnd (maxDouble * w) <= maxDouble).
  { intros w z Fw Hw Hz. split.
    - rewrite abs_rnd. apply round_le; [apply valid64|apply valid_rnd_N|]. rewrite Rabs_mult, (Rabs_pos_eq w) by lra. apply Rmult_le_compat_r; lra.
    - apply round_le_generic; [apply valid64|apply valid_rnd_N|apply maxDouble_F|]. rewrite <- (Rmult_1_r maxDouble) at 2. apply Rmult_le_compat_l; lra. }
  destruct (W d x Fd ltac:(lra) Hx) as [X1 X2]. destruct (W e y Fe He Hy) as [Y1 Y2].
  split; [lra|]. split; [lra|]. rewrite abs_rnd.
  assert (T := Rabs_triang (rnd (x * d)) (rnd (y * e))).
  assert (Half : forall w, F64 w -> 0 < w <= / 2 -> rnd (maxDouble * w) <= maxDouble / 2).
  { intros w Fw Hw. apply round_le_generic; [apply valid64|apply valid_rnd_N| |].
    - unfold maxDouble. replace (IZR (2 ^ 53 - 1) * pow2 971 / 2) with (IZR (2 ^ 53 - 1) * pow2 970); [apply F64_scaled; lia|].
      assert (A2 : pow2 971 = 2 * pow2 970) by (change 2 with (pow2 1); rewrite <- bpow_plus; reflexivity). rewrite A2. field.
    - unfold Rdiv. apply Rmult_le_compat_l; lra. }
  assert (Ee' : d + e <= 1 + pow2 (-54)) by (apply Rabs_le_inv in Ee; lra).
  assert (F2 : F64 (/ 2)) by (change (/ 2) with (pow2 (-1)); apply (generic_format_FLT_bpow radix2 (3 - 1024 - 53) 53); lia).
  destruct (Rlt_or_le (/ 2) d) as [L|L].
  - apply below_overflow. assert (H := weights_finite d e Fd Fe ltac:(lra) ltac:(lra) Ee'). lra.
  - destruct (Rlt_or_le (/ 2) e) as [K|K].
    + apply below_overflow. assert (H := weights_finite e d Fe Fd ltac:(lra) ltac:(lra) ltac:(lra)). lra.
    + apply round_le_generic; [apply valid64|apply valid_rnd_N|apply maxDouble_F|].
      assert (H1 := Half d Fd ltac:(lra)). assert (H2 := Half e Fe ltac:(lra)). lra.
Qed.

Lemma max_lt a : Rabs a <= maxDouble -> Rabs a < pow2 1024.
Proof. intros H. assert (L := maxDouble_lt). lra. Qed.

Lemma u64_size (l : list double) : l <> [] -> (Z.of_nat (length l) <= 2 ^ 53)%Z -> u64 (Z.of_nat (length l) - 1) = (Z.of_nat (length l) - 1)%Z /\ (0 <= Z.of_nat (length l) - 1)%Z.
Proof. intros N H. destruct l; [congruence|]. cbn [length] in *. unfold u64. rewrite Z.mod_small; lia. Qed.

Lemma quantile_cases l q : l <> [] -> (Z.of_nat (length l) <= 2 ^ 53)%Z -> Forall Finite l -> Finite q -> 0 <= real q <= 1 ->
  exists f, IZR f <= roundedRank l q < IZR f + 1 /\ (0 <= f < Z.of_nat (length l))%Z /\
  (roundedRank l q = IZR f /\ (exists x, zget l f = Ok x /\ Finite x /\ dquantile l q = Ok x) \/
   IZR f < roundedRank l q /\ (f + 1 < Z.of_nat (length l))%Z /\ F64 (roundedRank l q - IZR f) /\
   exists x y v, zget l f = Ok x /\ zget l (f + 1) = Ok y /\ Finite x /\ Finite y /\ dquantile l q = Ok v /\ Finite v /\
     let d := roundedRank l q - IZR f in real v = rnd (rnd (real x * d) + rnd (real y * rnd (1 - d)))).
Proof.
  unfold Finite, real. intros N H Fl Fq Q. destruct (u64_size l N H) as [U K]. unfold dquantile. rewrite U. clear U.
  unfold roundedRank, exactRank, real. change (nearestDouble (val q * IZR (Z.of_nat (length l) - 1))) with (rnd (val q * IZR (Z.of_nat (length l) - 1))).
  set (k := (Z.of_nat (length l) - 1)%Z) in *. destruct (dofZ_small k ltac:(lia)) as [Vk Fk].
  assert (Kr : 0 <= IZR k) by (apply IZR_le; lia).
  assert (Q0 : 0 <= val q * IZR k) by (apply Rmult_le_pos; lra).
  assert (Q1 : val q * IZR k <= IZR k) by (rewrite <- (Rmult_1_l (IZR k)) at 2; apply Rmult_le_compat_r; lra).
  assert (R0 : 0 <= rnd (val q * IZR k)) by (apply round_nonneg; exact Q0).
  assert (R1 : rnd (val q * IZR k) <= IZR k) by (apply round_le_generic; [apply valid64|apply valid_rnd_N|apply F64_small; lia|exact Q1]).
  assert (K62 : IZR k < pow2 62) by (change (pow2 62) with (IZR (2 ^ 62)); apply IZR_lt; lia).
  destruct (dmul_ok q (dofZ k) Fq Fk) as [Vn Fn].
  { rewrite Vk, Rabs_pos_eq by exact R0. apply Rle_lt_trans with (1 := R1). apply Rlt_trans with (1 := K62). apply bpow_lt. lia. }
  rewrite Vk in Vn. set (n := dmul q (dofZ k)) in *. cbv zeta.
  destruct (dtrunc_total n Fn) as (f & Ef & _); [rewrite Vn, Rabs_pos_eq; lra|].
  destruct (dtrunc_ok n f Fn ltac:(rewrite Vn; exact R0) Ef) as (Bf & Ff & Fd & Bd).
  rewrite (dtruncU_trunc n f Ef ltac:(lia)). cbn [bind]. rewrite Vn in Fd, Bd. rewrite <- Vn in R1, R0. rewrite Vn in R1, R0.
  assert (Bk : (f <= k)%Z) by (apply le_IZR; lra).
  destruct (dofZ_small f ltac:(lia)) as [Vf Ff'].
  exists f. split; [lra|]. split; [lia|].
  destruct (deqb n (dofZ f)) eqn:E.
  - left. apply deqb_spec in E; auto. split; [lra|]. destruct (zget_In l f ltac:(lia)) as (x & G & I). exists x. split; [exact G|]. split; [|exact G].
    rewrite Forall_forall in Fl. now apply Fl.
  - right. assert (Ne : val n <> IZR f).
    { intros C. assert (deqb n (dofZ f) = true) by (apply deqb_spec; auto; lra). congruence. }
    assert (Lf : IZR f < rnd (val q * IZR k)) by (rewrite <- Vn in *; lra). split; [exact Lf|].
    assert (Lk : (f < k)%Z) by (apply lt_IZR; lra). split; [lia|]. split; [exact Fd|].
    destruct (zget_In l f ltac:(lia)) as (x & Gx & Ix). destruct (zget_In l (f + 1) ltac:(lia)) as (y & Gy & Iy).
    rewrite Forall_forall in Fl. assert (Fx := Fl x Ix). assert (Fy := Fl y Iy). unfold Finite in Fx, Fy.
    set (d := rnd (val q * IZR k) - IZR f) in *.
    assert (Rd : rnd (val n - val (dofZ f)) = d) by (rewrite Vf, Vn; apply round_generic; [apply valid_rnd_N|exact Fd]).
    assert (L1 : 1 < pow2 1024) by (change 1 with (pow2 0); apply bpow_lt; lia).
    destruct (dsub_ok n (dofZ f) Fn Ff') as [Vd Fdd]; [rewrite Rd, Rabs_pos_eq; lra|]. rewrite Rd in Vd.
    assert (Hd : 0 < d < 1) by (unfold d in *; lra).
    destruct (dofZ_small 1 ltac:(lia)) as [V1 F1].
    destruct (weight_complement d Fd Hd) as (Fe & He & _). cbv zeta in He.
    destruct (dsub_ok (dofZ 1) (dsub n (dofZ f)) F1 Fdd) as [Ve Fee].
    { rewrite V1, Vd. rewrite Rabs_pos_eq; lra. }
    rewrite V1, Vd in Ve.
    destruct (sum_finite d (val x) (val y) Fd Hd (val_max x) (val_max y)) as (S1 & S2 & S3).
    destruct (dmul_ok x (dsub n (dofZ f)) Fx Fdd) as [VX FX]; [rewrite Vd; now apply max_lt|].
    destruct (dmul_ok y (dsub (dofZ 1) (dsub n (dofZ f))) Fy Fee) as [VY FY]; [rewrite Ve; now apply max_lt|].
    rewrite Vd in VX. rewrite Ve in VY.
    destruct (dadd_ok _ _ FX FY) as [VV FV]; [rewrite VX, VY; now apply max_lt|]. rewrite VX, VY in VV.
    exists x, y. eexists. split; [exact Gx|]. split; [exact Gy|]. split; [exact Fx|]. split; [exact Fy|]. split; [|split; [exact FV|exact VV]].
    rewrite Gx. cbn [bind]. rewrite Gy. reflexivity.
Qed.

Theorem quantile_defined l q : l <> [] -> (Z.of_nat (length l) <= 2 ^ 53)%Z -> Forall Finite l -> Finite q -> 0 <= real q <= 1 ->
  exists v, dquantile l q = Ok v /\ Finite v.
Proof.
  intros N H Fl Fq Q. destruct (quantile_cases l q N H Fl Fq Q) as (f & _ & _ & [(_ & x & _ & F & E)|(_ & _ & _ & x & y & v & _ & _ & _ & _ & E & F & _)]); eauto.
Qed.

Theorem quantile_extremes l q : l <> [] -> (Z.of_nat (length l) <= 2 ^ 53)%Z -> Forall Finite l -> Finite q ->
  (real q = 0 -> dquantile l q = zget l 0) /\ (real q = 1 -> dquantile l q = zget l (Z.of_nat (length l) - 1)).
Proof.
  intros N H Fl Fq. assert (G : forall j, (0 <= j <= Z.of_nat (length l) - 1)%Z -> exactRank l q = IZR j -> 0 <= real q <= 1 -> dquantile l q = zget l j).
  { intros j J E Q. destruct (quantile_cases l q N H Fl Fq Q) as (f & B & _ & C). unfold roundedRank in *. rewrite E in *.
    assert (R : nearestDouble (IZR j) = IZR j) by (apply (rnd_int j); lia). rewrite R in *.
    assert (f = j) as -> by (apply Z.le_antisymm; [apply le_IZR; lra|apply Z.lt_succ_r, lt_IZR; rewrite succ_IZR; lra]).
    destruct C as [(_ & x & G & _ & D)|(L & _)]; [congruence|lra]. }
  assert (L : (0 < Z.of_nat (length l))%Z) by (destruct l; [congruence|cbn [length]; lia]).
  split; intros E; apply G; unfold exactRank; try lia; rewrite E; try lra; ring.
Qed.

(** Median *)
Theorem median_odd l m : length l = (2 * m + 1)%nat -> (Z.of_nat (length l) <= 2 ^ 53)%Z -> Forall Finite l -> dmedian l = zget l (Z.of_nat m).
Proof.
  intros E H Fl. destruct half_val as [Fh Vh]. assert (N : l <> []) by (intros ->; cbn [length] in E; lia).
  unfold dmedian. destruct (quantile_cases l (dlit 1 (-1)) N H Fl Fh) as (f & B & _ & C); [unfold real; lra|].
  assert (R : roundedRank l (dlit 1 (-1)) = IZR (Z.of_nat m)).
  { unfold roundedRank, exactRank, real. rewrite Vh, E. replace (Z.of_nat (2 * m + 1) - 1)%Z with (2 * Z.of_nat m)%Z by lia. rewrite mult_IZR.
    replace (/ 2 * (2 * IZR (Z.of_nat m))) with (IZR (Z.of_nat m)) by field. apply (rnd_int (Z.of_nat m)). lia. }
  rewrite R in *. assert (f = Z.of_nat m) as -> by (apply Z.le_antisymm; [apply le_IZR; lra|apply Z.lt_succ_r, lt_IZR; rewrite succ_IZR; lra]).
  destruct C as [(_ & x & G & _ & D)|(L & _)]; [congruence|lra].
Qed.

Lemma median_even_cases l m : length l = (2 * m + 2)%nat -> (Z.of_nat (length l) <= 2 ^ 53)%Z -> Forall Finite l ->
  exists x y v, zget l (Z.of_nat m) = Ok x /\ zget l (Z.of_nat m + 1) = Ok y /\ Finite x /\ Finite y /\ dmedian l = Ok v /\ Finite v /\ real v = rnd (rnd (real x / 2) + rnd (real y / 2)).
Proof.
  intros E H Fl. destruct half_val as [Fh Vh]. assert (N : l <> []) by (intros ->; cbn [length] in E; lia).
  unfold dmedian. destruct (quantile_cases l (dlit 1 (-1)) N H Fl Fh) as (f & B & _ & C); [unfold real; lra|].
  assert (F2 : F64 (/ 2)) by (change (/ 2) with (pow2 (-1)); apply (generic_format_FLT_bpow radix2 (3 - 1024 - 53) 53); lia).
  assert (R : roundedRank l (dlit 1 (-1)) = IZR (Z.of_nat m) + / 2).
  { unfold roundedRank, exactRank, real. rewrite Vh, E. replace (Z.of_nat (2 * m + 2) - 1)%Z with (2 * Z.of_nat m + 1)%Z by lia. rewrite plus_IZR, mult_IZR.
    replace (/ 2 * (2 * IZR (Z.of_nat m) + 1)) with (IZR (2 * Z.of_nat m + 1) * pow2 (-1)) by (rewrite plus_IZR, mult_IZR; change (pow2 (-1)) with (/ 2); field).
    transitivity (IZR (2 * Z.of_nat m + 1) * pow2 (-1)); [|rewrite plus_IZR, mult_IZR; change (pow2 (-1)) with (/ 2); field].
    apply round_generic; [apply valid_rnd_N|]. apply F64_scaled; lia. }
  rewrite R in *. assert (f = Z.of_nat m) as -> by (apply Z.le_antisymm; apply Z.lt_succ_r, lt_IZR; rewrite succ_IZR; lra).
  destruct C as [(C & _)|(_ & _ & _ & x & y & v & Gx & Gy & Fx & Fy & D & Fv & V)]; [lra|].
  exists x, y, v. repeat split; auto. cbv zeta in V. rewrite V. replace (IZR (Z.of_nat m) + / 2 - IZR (Z.of_nat m)) with (/ 2) by ring.
  replace (1 - / 2) with (/ 2) by field. rewrite (round_generic radix2 fexp64 ZnearestE (/ 2) F2). reflexivity.
Qed.

Theorem median_even l m : length l = (2 * m + 2)%nat -> (Z.of_nat (length l) <= 2 ^ 53)%Z -> Forall Finite l ->
  exists x y v, zget l (Z.of_nat m) = Ok x /\ zget l (Z.of_nat m + 1) = Ok y /\ dmedian l = Ok v /\ Finite v /\
    (Halvable x -> Halvable y -> real v = nearestDouble ((real x + real y) / 2) /\
      Rmin (real x) (real y) <= real v <= Rmax (real x) (real y)).
Proof.
  intros E H Fl. destruct (median_even_cases l m E H Fl) as (x & y & v & Gx & Gy & Fx & Fy & D & Fv & V). exists x, y, v. repeat split; auto.
  all: destruct H0 as (hx & Fhx & Vhx), H1 as (hy & Fhy & Vhy).
  all: assert (Rx : rnd (real x / 2) = real x / 2) by (rewrite <- Vhx; apply round_generic; [apply valid_rnd_N|apply F64_val]).
  all: assert (Ry : rnd (real y / 2) = real y / 2) by (rewrite <- Vhy; apply round_generic; [apply valid_rnd_N|apply F64_val]).
  all: rewrite Rx, Ry in V; rewrite V; replace (real x / 2 + real y / 2) with ((real x + real y) / 2) by field.
  - reflexivity.
  - apply round_ge_generic; [apply valid64|apply valid_rnd_N| |unfold Rmin; destruct (Rle_dec (real x) (real y)); lra].
    unfold Rmin. destruct (Rle_dec (real x) (real y)); apply F64_val.
  - apply round_le_generic; [apply valid64|apply valid_rnd_N| |unfold Rmax; destruct (Rle_dec (real x) (real y)); lra].
    unfold Rmax. destruct (Rle_dec (real x) (real y)); apply F64_val.
Qed.

Lemma ofsf x sf : B2SF x = sf -> val x = SF2R radix2 sf.
Proof. intros <-. symmetry. apply SF2R_B2SF. Qed.

Theorem median_subnormal : exists x v, Finite x /\ 0 < real x /\ dmedian [x; x] = Ok v /\ Finite v /\ real v = 0.
Proof.
  exists (dlit 1 (-1074)). destruct (dofZ_small 0 ltac:(lia)) as [V0 F0]. exists (B754_zero false).
  split; [reflexivity|]. split; [unfold real; rewrite <- V0; apply compare_lt; reflexivity|]. split; [vm_compute; reflexivity|]. split; reflexivity.
Qed.

(** Error bound *)
Lemma rnd_error x : Rabs (rnd x - x) <= pow2 (-53) * Rabs x + pow2 (-1075).
Proof.
  destruct (Rlt_or_le (Rabs x) (pow2 (-1022))) as [L|L].
  - apply Rle_trans with (pow2 (-1075)).
    + apply Rle_trans with (/ 2 * ulp radix2 fexp64 x); [apply error_le_half_ulp; apply valid64|].
      change (pow2 (-1075)) with (pow2 (-1 + -1074)). rewrite bpow_plus. change (pow2 (-1)) with (/ 2). apply Rmult_le_compat_l; [lra|].
      rewrite (ulp_FLT_small radix2 (3 - 1024 - 53) 53); [right; reflexivity|]. apply Rlt_le_trans with (1 := L). apply bpow_le. lia.
    + assert (0 <= pow2 (-53) * Rabs x) by (apply Rmult_le_pos; [apply bpow_ge_0|apply Rabs_pos]). lra.
  - assert (E := relative_error_N_FLT radix2 (3 - 1024 - 53) 53 ltac:(lia) (fun z => negb (Z.even z)) x).
    assert (U : / 2 * pow2 (- (53) + 1) = pow2 (-53)) by (change (/ 2) with (pow2 (-1)); rewrite <- bpow_plus; reflexivity). rewrite U in E. specialize (E L).
    change (Rabs (rnd x - x) <= pow2 (-53) * Rabs x) in E. assert (P := bpow_ge_0 radix2 (-1075)). lra.
Qed.

Lemma error_real x y d e a b r M u h : 0 < u <= / 128 -> 0 < h -> Rabs x <= M -> Rabs y <= M -> 0 < d < 1 -> 0 < e <= 1 -> Rabs (e - (1 - d)) <= u / 2 ->
  Rabs (a - x * d) <= u * Rabs (x * d) + h -> Rabs (b - y * e) <= u * Rabs (y * e) + h -> Rabs (r - (a + b)) <= u * Rabs (a + b) + h ->
  Rabs (r - (x * d + y * (1 - d))) <= 3 * u * M + 4 * h.
Proof.
  intros Hu Hh Bx By Hd He Ee Ea Eb Es. assert (PM : 0 <= M) by (assert (P := Rabs_pos x); lra).
  assert (Xd : Rabs (x * d) <= M * d) by (rewrite Rabs_mult, (Rabs_pos_eq d) by lra; apply Rmult_le_compat_r; lra).
  assert (Ye : Rabs (y * e) <= M * e) by (rewrite Rabs_mult, (Rabs_pos_eq e) by lra; apply Rmult_le_compat_r; lra).
  assert (Yc : Rabs (y * e - y * (1 - d)) <= M * (u / 2)).
  { replace (y * e - y * (1 - d)) with (y * (e - (1 - d))) by ring. rewrite Rabs_mult. apply Rmult_le_compat; auto using Rabs_pos. }
  assert (Ua : u * Rabs (x * d) <= u * (M * d)) by (apply Rmult_le_compat_l; lra).
  assert (Ub : u * Rabs (y * e) <= u * (M * e)) by (apply Rmult_le_compat_l; lra).
  assert (S : d + e <= 1 + u / 2) by (apply Rabs_le_inv in Ee; lra).
  assert (MS : M * (d + e) <= M * (1 + u / 2)) by (apply Rmult_le_compat_l; lra).
  set (P := u * M). assert (PP : 0 <= P) by (apply Rmult_le_pos; lra).
  assert (Pu : P * u <= P * / 128) by (apply Rmult_le_compat_l; lra).
  assert (PS : P * (d + e) <= P * (1 + u / 2)) by (apply Rmult_le_compat_l; lra).
  assert (T : Rabs (a + b) <= M * (1 + u / 2) + P * (1 + u / 2) + 2 * h).
  { replace (a + b) with ((a - x * d) + (b - y * e) + (x * d + y * e)) by ring.
    apply Rle_trans with (1 := Rabs_triang _ _). assert (T1 := Rabs_triang (a - x * d) (b - y * e)). assert (T2 := Rabs_triang (x * d) (y * e)). unfold P in *. lra. }
  assert (UT : u * Rabs (a + b) <= u * (M * (1 + u / 2) + P * (1 + u / 2) + 2 * h)) by (apply Rmult_le_compat_l; lra).
  assert (Uh : u * h <= / 128 * h) by (apply Rmult_le_compat_r; lra).
  assert (PU2 : P * u * u <= P * / 128 * / 128).
  { apply Rmult_le_compat; try lra. apply Rmult_le_pos; lra. }
  replace (r - (x * d + y * (1 - d))) with ((r - (a + b)) + ((a - x * d) + (b - y * e) + (y * e - y * (1 - d)))) by ring.
  apply Rle_trans with (1 := Rabs_triang _ _). assert (T1 := Rabs_triang (a - x * d + (b - y * e)) (y * e - y * (1 - d))). assert (T2 := Rabs_triang (a - x * d) (b - y * e)).
  assert (X : u * (M * (1 + u / 2) + P * (1 + u / 2) + 2 * h) = P + P * u / 2 + P * u + P * u * u / 2 + 2 * (u * h)) by (unfold P; field).
  unfold P in *. lra.
Qed.

Theorem quantile_error l q M v : l <> [] -> (Z.of_nat (length l) <= 2 ^ 53)%Z -> Forall (fun x => Finite x /\ Rabs (real x) <= M) l -> Finite q -> 0 <= real q <= 1 ->
  dquantile l q = Ok v ->
  exists f, IZR f <= roundedRank l q < IZR f + 1 /\
  (roundedRank l q = IZR f /\ zget l f = Ok v \/
   IZR f < roundedRank l q /\ exists x y, zget l f = Ok x /\ zget l (f + 1) = Ok y /\
     let d := roundedRank l q - IZR f in Rabs (real v - (real x * d + real y * (1 - d))) <= 3 * pow2 (-53) * M + pow2 (-1073)).
Proof.
  intros N H Fl Fq Q E. assert (Fl' : Forall Finite l) by (eapply Forall_impl; [|exact Fl]; cbv beta; tauto).
  destruct (quantile_cases l q N H Fl' Fq Q) as (f & B & I & C). exists f. split; [exact B|].
  destruct C as [(C & x & G & _ & D)|(C & I2 & Fd & x & y & w & Gx & Gy & _ & _ & D & Fw & V)]; [left; split; [exact C|congruence]|right].
  split; [exact C|]. exists x, y. split; [exact Gx|]. split; [exact Gy|]. assert (w = v) as -> by congruence. cbv zeta in V |- *. rewrite V. clear V D E.
  assert (Bx : Rabs (real x) <= M /\ Rabs (real y) <= M).
  { destruct (zget_In l f I) as (x' & Gx' & Ix). destruct (zget_In l (f + 1) ltac:(lia)) as (y' & Gy' & Iy). rewrite Gx in Gx'. injection Gx' as <-. rewrite Gy in Gy'. injection Gy' as <-.
    rewrite Forall_forall in Fl. split; [apply (Fl x Ix)|apply (Fl y Iy)]. }
  destruct Bx as [Bx By]. set (d := roundedRank l q - IZR f) in *. assert (Hd : 0 < d < 1) by (unfold d; lra).
  destruct (weight_complement d Fd Hd) as (Fe & He & Ee). cbv zeta in *. set (e := rnd (1 - d)) in *. clearbody e d.
  assert (Ea := rnd_error (real x * d)). assert (Eb := rnd_error (real y * e)). assert (Es := rnd_error (rnd (real x * d) + rnd (real y * e))).
  set (a := rnd (real x * d)) in *. set (b := rnd (real y * e)) in *. set (r := rnd (a + b)) in *.
  assert (U : pow2 (-54) = pow2 (-53) / 2) by (change (-54)%Z with (-1 + -53)%Z; rewrite bpow_plus; change (pow2 (-1)) with (/ 2); field).
  assert (H4 : pow2 (-1073) = 4 * pow2 (-1075)) by (change 4 with (pow2 2); rewrite <- bpow_plus; reflexivity).
  assert (Pu := bpow_gt_0 radix2 (-53)). assert (Pe := bpow_gt_0 radix2 (-1075)).
  assert (Su : pow2 (-53) <= / 128) by (change (/ 128) with (pow2 (-7)); apply bpow_le; lia).
  set (u := pow2 (-53)) in *. set (h := pow2 (-1075)) in *. rewrite U in Ee. rewrite H4.
  apply error_real with (e := e) (a := a) (b := b); auto; lra.
Qed.

Theorem rank_error l q : l <> [] -> 0 <= real q -> Rabs (roundedRank l q - exactRank l q) <= pow2 (-53) * exactRank l q + pow2 (-1075).
Proof.
  intros N Q. assert (P : 0 <= exactRank l q).
  { unfold exactRank. apply Rmult_le_pos; [exact Q|]. apply IZR_le. destruct l; [congruence|cbn [length]; lia]. }
  assert (E := rnd_error (exactRank l q)). rewrite (Rabs_pos_eq _ P) in E. exact E.
Qed.

(** Two equal values: the quantile exceeds them. *)
Lemma ok_get {A} (r : res A) (d : A) : match r with Ok _ => true | _ => false end = true -> r = Ok (match r with Ok v => v | _ => d end).
Proof. destruct r; congruence. Qed.

Theorem quantile_refuted : exists x q v, Finite x /\ Finite q /\ 0 < real q < 1 /\ dquantile [x; x] q = Ok v /\ Finite v /\ real x < real v.
Proof.
  exists (ddiv (dofZ 1) (dofZ 10)), (ddiv (dofZ 1) (dofZ 5)). destruct (dofZ_small 0 ltac:(lia)) as [V0 F0]. destruct (dofZ_small 1 ltac:(lia)) as [V1 F1].
  exists (match dquantile [ddiv (dofZ 1) (dofZ 10); ddiv (dofZ 1) (dofZ 10)] (ddiv (dofZ 1) (dofZ 5)) with Ok v => v | _ => dofZ 0 end).
  split; [vm_compute; reflexivity|]. split; [vm_compute; reflexivity|]. split; [unfold real; rewrite <- V0, <- V1; split; apply compare_lt; vm_compute; reflexivity|].
  split; [apply ok_get; vm_compute; reflexivity|]. split; [vm_compute; reflexivity|]. apply compare_lt; vm_compute; reflexivity.
Qed.

(** Outside of the domain *)
Theorem quantile_empty q : dquantile [] q = UB.
Proof.
  unfold dquantile. destruct (dtruncU _) as [f| |] eqn:E; cbn [bind]; [|exfalso|reflexivity].
  - assert (Z : forall i, zget (A := double) [] i = UB) by (intros i; apply zget_out; cbn [length]; lia).
    cbv zeta. rewrite !Z. cbn [bind]. destruct (deqb _ _); reflexivity.
  - destruct (dmul _ _) as [s| | |s m ee B]; try discriminate E. unfold dtruncU in E. cbv zeta in E. destruct (_ && _)%bool in E; discriminate.
Qed.

Lemma dtruncU_inv x z : dtruncU x = Ok z -> fin x = true /\ z = Ztrunc (val x) /\ (0 <= z < 2 ^ 64)%Z.
Proof.
  intros E. destruct x as [s| | |s m e B]; try discriminate E.
  - injection E as <-. cbn [B2R]. rewrite Ztrunc_IZR. repeat split; lia.
  - split; [reflexivity|]. unfold dtruncU in E. cbv zeta in E. set (a := if (0 <=? e)%Z then _ else _) in E.
    assert (A : Ztrunc (F2R (Float radix2 (Zpos m) e)) = a).
    { unfold a, F2R. cbn [Fnum Fexp]. destruct (Z.leb_spec 0 e) as [Le|Le].
      - rewrite <- (IZR_Zpower radix2) by lia. rewrite <- mult_IZR. apply Ztrunc_IZR.
      - assert (Q : (0 < 2 ^ (- e))%Z) by (apply Z.pow_pos_nonneg; lia).
        rewrite Ztrunc_floor by (apply Rmult_le_pos; [apply IZR_le; lia|apply bpow_ge_0]). rewrite <- Zfloor_div by lia. f_equal. unfold Rdiv. f_equal.
        change (2 ^ (- e))%Z with (radix2 ^ (- e))%Z. rewrite IZR_Zpower by lia. rewrite <- bpow_opp. f_equal. lia. }
    clearbody a. assert (V : Ztrunc (val (B754_finite s m e B)) = if s then (- a)%Z else a).
    { cbn [B2R]. destruct s; cbn [SpecFloat.cond_Zopp]; [|exact A]. change (Z.neg m) with (- Zpos m)%Z. rewrite F2R_Zopp, Ztrunc_opp. now rewrite A. }
    rewrite V. set (w := if s then (- a)%Z else a) in *. destruct ((0 <=? w) && (w <? 2 ^ 64))%Z eqn:C; [|discriminate]. injection E as <-. split; [reflexivity|lia].
Qed.

Lemma dtruncU_total x : (exists z, dtruncU x = Ok z) \/ dtruncU x = UB.
Proof. destruct x as [s| | |s m e B]; cbn [dtruncU]; eauto. destruct (_ && _)%bool; eauto. Qed.

Theorem quantile_outside l q : l <> [] -> (Z.of_nat (length l) <= 2 ^ 53)%Z -> Finite q ->
  roundedRank l q <= -1 \/ IZR (Z.of_nat (length l) - 1) < roundedRank l q -> dquantile l q = UB.
Proof.
  unfold Finite. intros N H Fq O. destruct (u64_size l N H) as [U K]. unfold dquantile. rewrite U. clear U. unfold roundedRank, exactRank, real in O.
  change (nearestDouble (val q * IZR (Z.of_nat (length l) - 1))) with (rnd (val q * IZR (Z.of_nat (length l) - 1))) in O.
  set (k := (Z.of_nat (length l) - 1)%Z) in *. destruct (dofZ_small k ltac:(lia)) as [Vk Fk]. cbv zeta.
  destruct (dtruncU_total (dmul q (dofZ k))) as [[f E]| ->]; [|reflexivity]. rewrite E. cbn [bind].
  destruct (dtruncU_inv _ _ E) as (Fn & Ef & Bf).
  assert (Vn : val (dmul q (dofZ k)) = rnd (val q * IZR k)).
  { assert (C := Bmult_correct 53 1024 hprec hmax mode_NE q (dofZ k)). cbn [round_mode] in C. fold (dmul q (dofZ k)) in C. rewrite Vk in C.
    destruct (Rlt_bool_spec (Rabs (rnd (val q * IZR k))) (pow2 1024)); [apply C|].
    destruct (dmul q (dofZ k)); cbn [B2SF binary_overflow overflow_to_inf] in C; discriminate. }
  rewrite Vn in Ef. destruct O as [O|O].
  - exfalso. assert (Ztrunc (rnd (val q * IZR k)) <= Ztrunc (IZR (-1)))%Z by (apply Ztrunc_le; exact O). rewrite Ztrunc_IZR in H0. lia.
  - assert (Lf : (k <= f)%Z) by (assert (T := Ztrunc_le _ _ (Rlt_le _ _ O)); rewrite Ztrunc_IZR, <- Ef in T; exact T).
    destruct (Z.eq_dec f k) as [->|Ne].
    + rewrite (zget_out l (k + 1)) by (unfold k; lia). destruct (deqb _ _) eqn:D; [|destruct (zget l k) as [x| |] eqn:G; cbn [bind]; try reflexivity].
      * apply (deqb_spec _ _ Fn Fk) in D. rewrite Vn, Vk in D. lra.
      * unfold zget in G. destruct (_ <? _)%Z; [discriminate|]. destruct (nth_error _ _); discriminate.
    + rewrite (zget_out l f) by (unfold k in *; lia). cbn [bind]. destruct (deqb _ _); reflexivity.
Qed.

Theorem quantile_infinite l q : l <> [] -> (Z.of_nat (length l) <= 2 ^ 53)%Z -> ~ Finite q -> dquantile l q = UB.
Proof.
  unfold Finite. intros N H Nq. destruct (u64_size l N H) as [U K]. unfold dquantile. rewrite U. cbv zeta.
  set (k := (Z.of_nat (length l) - 1)%Z) in *. destruct (dofZ_small k ltac:(lia)) as [_ Fk].
  destruct (dtruncU_total (dmul q (dofZ k))) as [[f E]| ->]; [|reflexivity]. exfalso. apply dtruncU_inv in E. destruct E as [E _].
  destruct q; try (apply Nq; reflexivity); destruct (dofZ k); discriminate.
Qed.

(** A slightly negative argument is not detected. *)
Theorem quantile_negative : exists l q v, Forall Finite l /\ Finite q /\ real q < 0 /\ dquantile l q = Ok v /\ Finite v /\ Forall (fun x => real x < real v) l.
Proof.
  exists [dofZ 1; dofZ 2], (dlit (-1) (-1)). destruct (dofZ_small 0 ltac:(lia)) as [V0 F0].
  exists (match dquantile [dofZ 1; dofZ 2] (dlit (-1) (-1)) with Ok v => v | _ => dofZ 0 end).
  split; [repeat constructor|]. split; [reflexivity|]. split; [unfold real; rewrite <- V0; apply compare_lt; vm_compute; reflexivity|].
  split; [apply ok_get; vm_compute; reflexivity|]. split; [vm_compute; reflexivity|]. repeat constructor; apply compare_lt; vm_compute; reflexivity.
Qed.

Theorem quantile_within l q lo hi M v : l <> [] -> (Z.of_nat (length l) <= 2 ^ 53)%Z -> Forall (fun x => Within lo hi x /\ Rabs (real x) <= M) l -> Finite q -> 0 <= real q <= 1 ->
  dquantile l q = Ok v -> lo - (3 * pow2 (-53) * M + pow2 (-1073)) <= real v <= hi + (3 * pow2 (-53) * M + pow2 (-1073)).
Proof.
  intros N H Fl Fq Q E.
  assert (G : forall i x, zget l i = Ok x -> lo <= real x <= hi /\ Rabs (real x) <= M).
  { intros i x G. unfold zget in G. destruct (_ <? _)%Z; [discriminate|]. destruct (nth_error l (Z.to_nat i)) as [w|] eqn:W; [|discriminate]. injection G as ->.
    apply nth_error_In in W. rewrite Forall_forall in Fl. destruct (Fl x W) as [[_ A] B]. auto. }
  destruct (quantile_error l q M v N H) as (f & B & C); auto.
  { eapply Forall_impl; [|exact Fl]. intros x [[A _] D]. auto. }
  assert (P := bpow_gt_0 radix2 (-1073)). assert (Pu := bpow_gt_0 radix2 (-53)).
  destruct C as [(_ & C)|(C & x & y & Gx & Gy & D)].
  - destruct (G f v C) as [A1 A2]. assert (0 <= M) by (assert (P2 := Rabs_pos (real v)); lra).
    assert (0 <= 3 * pow2 (-53) * M) by (apply Rmult_le_pos; lra). lra.
  - destruct (G _ _ Gx) as [Ax _]. destruct (G _ _ Gy) as [Ay _]. cbv zeta in D. set (d := roundedRank l q - IZR f) in *. assert (Hd : 0 < d < 1) by (unfold d; lra). clearbody d.
    apply Rabs_le_inv in D.
    assert (lo * d <= real x * d) by (apply Rmult_le_compat_r; lra). assert (real x * d <= hi * d) by (apply Rmult_le_compat_r; lra).
    assert (lo * (1 - d) <= real y * (1 - d)) by (apply Rmult_le_compat_r; lra). assert (real y * (1 - d) <= hi * (1 - d)) by (apply Rmult_le_compat_r; lra).
    lra.
Qed.
