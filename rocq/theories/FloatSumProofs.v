(** Proofs of the error bounds of sums of doubles. *)
From Coq Require Import Reals Lra Psatz.
From Flocq Require Import Core IEEE754.BinarySingleNaN Plus_error Relative.
From Verif Require Import Res FloatModel FloatSpec FloatKernelSpec FloatSumSpec FloatProofs QuantileProofs FloatKernelProofs.
Local Existing Instance hprec.
Local Existing Instance hmax.
Local Existing Instance valid64.
Open Scope R_scope.

(** Sums do not underflow: the error is relative. *)
Lemma plus_error x y : F64 x -> F64 y -> Rabs (rnd (x + y) - (x + y)) <= uu * Rabs (x + y).
Proof.
  intros Fx Fy. destruct (FLT_plus_error_N_ex radix2 (3 - 1024 - 53) 53 (fun t => negb (Z.even t)) x y Fx Fy) as (eps & He & E).
  assert (E' : rnd (x + y) = (x + y) * (1 + eps)) by exact E. rewrite E'. clear E E'.
  replace ((x + y) * (1 + eps) - (x + y)) with (eps * (x + y)) by ring. rewrite Rabs_mult. apply Rmult_le_compat_r; [apply Rabs_pos|].
  apply Rle_trans with (1 := He). assert (U : u_ro radix2 53 = uu).
  { unfold u_ro, uu. change (/ 2) with (pow2 (-1)). rewrite <- bpow_plus. reflexivity. }
  rewrite U. assert (P := uu_pos). apply Rmult_le_reg_r with (1 + uu); [lra|]. unfold Rdiv. rewrite Rmult_assoc, Rinv_l by lra.
  assert (0 <= uu * uu) by (apply Rmult_le_pos; lra). lra.
Qed.

Lemma pow_roundings n : (Z.of_nat n <= 2 ^ 53)%Z -> (1 + uu) ^ n - 1 <= roundings (Z.of_nat n).
Proof.
  intros H. assert (U := uu_pos). unfold roundings. fold uu. rewrite <- INR_IZR_INZ.
  assert (B : INR n * uu <= 1).
  { apply Rle_trans with (pow2 53 * uu); [apply Rmult_le_compat_r; [lra|]|right; unfold uu; rewrite <- bpow_plus; reflexivity].
    rewrite INR_IZR_INZ. change (pow2 53) with (IZR (2 ^ 53)). apply IZR_le. exact H. }
  assert (P := pow_bound uu n ltac:(lra) B). lra.
Qed.

Lemma pow_two n : (Z.of_nat n <= 2 ^ 52)%Z -> (1 + uu) ^ n <= 2.
Proof.
  intros H. assert (P := pow_roundings n ltac:(lia)). unfold roundings in P. fold uu in P.
  assert (U := uu_pos). assert (B : IZR (Z.of_nat n) * uu <= / 2).
  { apply Rle_trans with (pow2 52 * uu); [apply Rmult_le_compat_r; [lra|]|right; unfold uu; rewrite <- bpow_plus; reflexivity].
    change (pow2 52) with (IZR (2 ^ 52)). apply IZR_le. exact H. }
  assert (0 <= IZR (Z.of_nat n) * uu) by (apply Rmult_le_pos; [apply IZR_le; lia|lra]).
  assert (IZR (Z.of_nat n) * uu * (1 + IZR (Z.of_nat n) * uu) <= / 2 * (1 + / 2)) by (apply Rmult_le_compat; lra). lra.
Qed.

(** Sums from any partial sum [acc] after [k] roundings, where [s] is the exact one and [a] the sum of the absolute values. *)
Lemma fold_error l : forall k acc s a, fin acc = true -> Forall Finite l -> Rabs (val acc - s) <= ((1 + uu) ^ k - 1) * a -> Rabs s <= a ->
  a + gain l <= pow2 1022 -> (Z.of_nat (k + length l) <= 2 ^ 52)%Z ->
  let r := fold_left dadd l acc in
  fin r = true /\ Rabs (val r - (s + exactSum l)) <= ((1 + uu) ^ (k + length l) - 1) * (a + gain l) /\ Rabs (s + exactSum l) <= a + gain l.
Proof.
  induction l as [|x l IH]; intros k acc s a Fa FL E Hs HA HK.
  - cbn [fold_left]. unfold exactSum, gain, totalR. cbn [map fold_right]. rewrite Nat.add_0_r, !Rplus_0_r. auto.
  - apply Forall_cons_iff in FL as [Fx FL]. cbn [length] in HK. assert (P := pow_ge k). assert (U := uu_pos).
    assert (G : gain (x :: l) = Rabs (val x) + gain l) by reflexivity. rewrite G in *. assert (G0 := gain_nonneg l).
    assert (S0 : exactSum (x :: l) = val x + exactSum l) by reflexivity. rewrite S0 in *. assert (X0 := Rabs_pos (val x)).
    assert (A0 : 0 <= a) by (pose proof (Rabs_pos s); lra).
    set (e := (1 + uu) ^ k - 1) in *. assert (E0 : 0 <= e) by (unfold e; lra).
    assert (T : Rabs (val acc + val x) <= (1 + e) * (a + Rabs (val x))).
    { replace (val acc + val x) with ((val acc - s) + (s + val x)) by ring. assert (T1 := Rabs_triang (val acc - s) (s + val x)).
      assert (T2 := Rabs_triang s (val x)). assert (0 <= e * Rabs (val x)) by (apply Rmult_le_pos; lra). lra. }
    assert (B : Rabs (val acc + val x) <= pow2 1023).
    { apply Rle_trans with (1 := T). assert (P2 := pow_two k ltac:(lia)). apply Rle_trans with (2 * pow2 1022).
      - apply Rmult_le_compat; unfold e; lra.
      - right. change 2 with (pow2 1). rewrite <- bpow_plus. reflexivity. }
    destruct (dadd_ok acc x Fa Fx (no_overflow _ B)) as [V F]. assert (R := plus_error (val acc) (val x) (F64_val acc) (F64_val x)). rewrite <- V in R.
    cbn [fold_left]. replace (k + length (x :: l))%nat with (S k + length l)%nat by (cbn [length]; lia).
    replace (s + (val x + exactSum l)) with ((s + val x) + exactSum l) by ring. replace (a + (Rabs (val x) + gain l)) with ((a + Rabs (val x)) + gain l) by ring.
    apply IH; auto; try lra; try lia.
    + cbn [Rpow_def.pow]. replace ((1 + uu) * (1 + uu) ^ k - 1) with (e + uu * (1 + e)) by (unfold e; ring).
      replace (val (dadd acc x) - (s + val x)) with ((val (dadd acc x) - (val acc + val x)) + (val acc - s)) by ring.
      assert (T3 := Rabs_triang (val (dadd acc x) - (val acc + val x)) (val acc - s)).
      assert (uu * Rabs (val acc + val x) <= uu * ((1 + e) * (a + Rabs (val x)))) by (apply Rmult_le_compat_l; lra).
      assert (0 <= e * Rabs (val x)) by (apply Rmult_le_pos; lra). lra.
    + assert (T2 := Rabs_triang s (val x)). lra.
Qed.

Lemma sum_ok l : Forall Finite l -> gain l <= pow2 1022 -> (Z.of_nat (length l) <= 2 ^ 52)%Z ->
  let r := fold_left dadd l (dofZ 0) in
  fin r = true /\ Rabs (val r - exactSum l) <= ((1 + uu) ^ (length l) - 1) * gain l /\ Rabs (exactSum l) <= gain l.
Proof.
  intros F G N. destruct (dofZ_small 0 ltac:(lia)) as [V0 F0].
  assert (H := fold_error l 0 (dofZ 0) 0 0 F0 F). cbn [Nat.add] in H. rewrite !Rplus_0_l in H. apply H; auto.
  - rewrite V0, Rminus_0_r, Rabs_R0. cbn [Rpow_def.pow]. lra.
  - rewrite Rabs_R0. lra.
Qed.

Lemma mean_error l : l <> [] -> (Z.of_nat (length l) < 2 ^ 52)%Z -> Forall Finite l -> gain l <= pow2 1022 ->
  Finite (dmean l) /\
  Rabs (real (dmean l) - exactSum l / IZR (Z.of_nat (length l))) <= roundings (Z.of_nat (length l) + 1) * (gain l / IZR (Z.of_nat (length l))) + pow2 (-1075).
Proof.
  intros NE N F G. destruct (sum_ok l F G ltac:(lia)) as (F1 & E1 & S1). set (r := fold_left dadd l (dofZ 0)) in *. set (n := Z.of_nat (length l)) in *.
  assert (N1 : (1 <= n)%Z) by (unfold n; destruct l; [congruence|cbn [length]; lia]). assert (N1' : 1 <= IZR n) by (apply IZR_le; lia).
  destruct (dofZ_small n ltac:(lia)) as [VN FN]. assert (U := uu_pos). assert (G0 := gain_nonneg l). assert (P := pow_ge (length l)). assert (P2 := pow_two (length l) ltac:(lia)).
  assert (R1 : Rabs (val r) <= (1 + uu) ^ length l * gain l).
  { replace (val r) with ((val r - exactSum l) + exactSum l) by ring. assert (T := Rabs_triang (val r - exactSum l) (exactSum l)). lra. }
  assert (I0 : 0 < / IZR n) by (apply Rinv_0_lt_compat; lra). assert (I1 : / IZR n <= 1) by (rewrite <- Rinv_1; apply Rinv_le_contravar; lra).
  assert (Q : Rabs (val r / IZR n) = Rabs (val r) * / IZR n) by (unfold Rdiv; rewrite Rabs_mult, (Rabs_pos_eq (/ IZR n)); lra).
  assert (B : Rabs (val r / IZR n) <= pow2 1023).
  { rewrite Q. apply Rle_trans with (2 * pow2 1022 * 1).
    - apply Rmult_le_compat; [apply Rabs_pos|lra| |lra]. apply Rle_trans with (1 := R1). apply Rmult_le_compat; lra.
    - rewrite Rmult_1_r. right. change 2 with (pow2 1). rewrite <- bpow_plus. reflexivity. }
  destruct (ddiv_ok r (dofZ n) F1) as [V FV]; [rewrite VN; lra|rewrite VN; now apply no_overflow|]. fold (dmean l) in V, FV. unfold dmean. fold r n.
  split; [exact FV|]. unfold real. rewrite V, VN. assert (E2 := rnd_error (val r / IZR n)). fold uu in E2. rewrite Q in E2.
  replace (n + 1)%Z with (Z.of_nat (S (length l))) by (unfold n; lia). assert (P3 := pow_roundings (S (length l)) ltac:(lia)). cbn [Rpow_def.pow] in P3.
  replace (rnd (val r / IZR n) - exactSum l / IZR n) with ((rnd (val r / IZR n) - val r / IZR n) + (val r - exactSum l) * / IZR n) by (unfold Rdiv; ring).
  assert (T := Rabs_triang (rnd (val r / IZR n) - val r / IZR n) ((val r - exactSum l) * / IZR n)). rewrite (Rabs_mult (val r - exactSum l)), (Rabs_pos_eq (/ IZR n)) in T by lra.
  assert (A1 : Rabs (val r - exactSum l) * / IZR n <= ((1 + uu) ^ length l - 1) * gain l * / IZR n) by (apply Rmult_le_compat_r; lra).
  assert (A2 : uu * (Rabs (val r) * / IZR n) <= uu * ((1 + uu) ^ length l * gain l * / IZR n)) by (apply Rmult_le_compat_l; [lra|]; apply Rmult_le_compat_r; lra).
  assert (A3 : ((1 + uu) * (1 + uu) ^ length l - 1) * (gain l * / IZR n) <= roundings (Z.of_nat (S (length l))) * (gain l * / IZR n)).
  { apply Rmult_le_compat_r; [apply Rmult_le_pos; lra|exact P3]. }
  unfold Rdiv. lra.
Qed.

(** Ramps. *)
Lemma drange_fold n step : forall mn i, (i < n)%nat -> nth_error (drange n mn step) i = Some (fold_left dadd (repeat step i) mn).
Proof.
  induction n as [|n IH]; intros mn [|i] H; try lia; cbn [drange nth_error repeat fold_left]; [reflexivity|]. apply IH. lia.
Qed.

Lemma gain_repeat x i : gain (repeat x i) = IZR (Z.of_nat i) * Rabs (real x).
Proof.
  unfold gain, totalR. induction i as [|i IH]; cbn [repeat map fold_right]; [change (Z.of_nat 0) with 0%Z; lra|]. rewrite IH, Nat2Z.inj_succ, succ_IZR. lra.
Qed.
Lemma sum_repeat x i : exactSum (repeat x i) = IZR (Z.of_nat i) * real x.
Proof.
  unfold exactSum, totalR. induction i as [|i IH]; cbn [repeat map fold_right]; [change (Z.of_nat 0) with 0%Z; lra|]. rewrite IH, Nat2Z.inj_succ, succ_IZR. lra.
Qed.

Lemma range_error n mn step i : (i < n)%nat -> (Z.of_nat i <= 2 ^ 52)%Z -> Finite mn -> Finite step ->
  Rabs (real mn) + IZR (Z.of_nat i) * Rabs (real step) <= pow2 1022 ->
  exists v, nth_error (drange n mn step) i = Some v /\ Finite v /\
  Rabs (real v - (real mn + IZR (Z.of_nat i) * real step)) <= roundings (Z.of_nat i) * (Rabs (real mn) + IZR (Z.of_nat i) * Rabs (real step)).
Proof.
  intros Hi N Fm Fs B. eexists. split; [now apply drange_fold|].
  assert (H := fold_error (repeat step i) 0 mn (real mn) (Rabs (real mn)) Fm). cbn [Nat.add Rpow_def.pow] in H. rewrite gain_repeat, sum_repeat, repeat_length in H.
  destruct H as (F & E & _); auto.
  - apply Forall_forall. intros y Hy. apply repeat_spec in Hy as ->. exact Fs.
  - unfold real. rewrite Rminus_diag_eq, Rabs_R0 by reflexivity. pose proof (Rabs_pos (val mn)). lra.
  - lra.
  - split; [exact F|]. apply Rle_trans with (1 := E). apply Rmult_le_compat_r.
    + apply Rplus_le_le_0_compat; [apply Rabs_pos|]. apply Rmult_le_pos; [apply IZR_le; lia|apply Rabs_pos].
    + apply pow_roundings. lia.
Qed.

Lemma linspace_nth k : forall i0 mn step i, (i < k)%nat -> nth_error (dlinspaceLoop k i0 mn step) i = Some (dadd mn (dmul step (dofZ (i0 + Z.of_nat i)))).
Proof.
  induction k as [|k IH]; intros i0 mn step [|i] H; try lia; cbn [dlinspaceLoop nth_error].
  - now rewrite Z.add_0_r.
  - rewrite IH by lia. do 4 f_equal. lia.
Qed.
Lemma linspace_length k : forall i0 mn step, length (dlinspaceLoop k i0 mn step) = k.
Proof. induction k; intros; cbn [dlinspaceLoop length]; auto. Qed.

Lemma uu_small : uu <= / 1024.
Proof. unfold uu. change (/ 1024) with (pow2 (-10)). apply bpow_le. lia. Qed.
Lemma hh_small : hh <= pow2 (-53).
Proof. unfold hh. apply bpow_le. lia. Qed.

Lemma linspace_real u h a D t i q p m v M :
  0 < u <= / 1024 -> 0 < h -> 0 <= t <= 1 -> 0 <= i ->
  Rabs (q - D * t) <= (2 * u + u * u) * (Rabs D * t) + i * h ->
  Rabs (p - q) <= u * Rabs q + h ->
  Rabs (v - (a + p)) <= u * Rabs (a + p) ->
  Rabs (a + D * t) <= M -> m = a + D * t ->
  Rabs p <= 2 * Rabs D + (2 * i + 1) * h /\ Rabs (v - m) <= u * (M + 4 * Rabs D) + (i + 2) * (2 * h).
Proof.
  intros U H T I E1 E2 E3 HM ->. assert (D0 := Rabs_pos D). set (x := Rabs D * t) in *.
  assert (X0 : 0 <= x <= Rabs D).
  { unfold x. split; [apply Rmult_le_pos; lra|]. rewrite <- (Rmult_1_r (Rabs D)) at 2. apply Rmult_le_compat_l; lra. }
  assert (DX : Rabs (D * t) = x) by (unfold x; rewrite Rabs_mult, (Rabs_pos_eq t); lra).
  assert (U2 : 0 <= u * u <= / 1024 * u) by (split; [apply Rmult_le_pos; lra|apply Rmult_le_compat_r; lra]).
  assert (IH : 0 <= i * h) by (apply Rmult_le_pos; lra).
  assert (UX : 0 <= u * x) by (apply Rmult_le_pos; lra). assert (UUX : 0 <= u * u * x <= / 1024 * (u * x)).
  { split; [apply Rmult_le_pos; lra|]. rewrite <- Rmult_assoc. apply Rmult_le_compat_r; lra. }
  assert (UX1 : u * x <= / 1024 * x) by (apply Rmult_le_compat_r; lra).
  assert (UIH : 0 <= u * (i * h) <= / 1024 * (i * h)) by (split; [apply Rmult_le_pos; lra|apply Rmult_le_compat_r; lra]).
  assert (UH : 0 <= u * h <= / 1024 * h) by (split; [apply Rmult_le_pos; lra|apply Rmult_le_compat_r; lra]).
  assert (Q : Rabs q <= x + (2 * u + u * u) * x + i * h).
  { replace q with ((q - D * t) + D * t) by ring. assert (T1 := Rabs_triang (q - D * t) (D * t)). lra. }
  assert (UQ : u * Rabs q <= u * (x + (2 * u + u * u) * x + i * h)) by (apply Rmult_le_compat_l; lra).
  assert (UUUX : 0 <= u * (u * u * x) <= / 1024 * (u * u * x)) by (split; [apply Rmult_le_pos; lra|apply Rmult_le_compat_r; lra]).
  assert (P : Rabs (p - D * t) <= (3 * u + 3 * (u * u) + u * (u * u)) * x + (i + 1) * h + u * (i * h)).
  { replace (p - D * t) with ((p - q) + (q - D * t)) by ring. assert (T1 := Rabs_triang (p - q) (q - D * t)). lra. }
  assert (P' : Rabs (p - D * t) <= (3 + / 128) * (u * x) + (i + 1) * h + / 1024 * (i * h)) by lra.
  assert (UXD : u * x <= u * Rabs D) by (apply Rmult_le_compat_l; lra).
  split.
  - replace p with ((p - D * t) + D * t) by ring. assert (T1 := Rabs_triang (p - D * t) (D * t)). lra.
  - replace (v - (a + D * t)) with ((v - (a + p)) + (p - D * t)) by ring. assert (T1 := Rabs_triang (v - (a + p)) (p - D * t)).
    assert (A : Rabs (a + p) <= M + Rabs (p - D * t)).
    { replace (a + p) with ((a + D * t) + (p - D * t)) by ring. assert (T2 := Rabs_triang (a + D * t) (p - D * t)). lra. }
    assert (UA : u * Rabs (a + p) <= u * (M + Rabs (p - D * t))) by (apply Rmult_le_compat_l; lra).
    assert (UP : u * Rabs (p - D * t) <= / 1024 * Rabs (p - D * t)) by (apply Rmult_le_compat_r; [apply Rabs_pos|lra]). lra.
Qed.

Lemma linspace_error size mn mx M : (2 <= size)%nat -> (Z.of_nat size <= 2 ^ 53)%Z -> Finite mn -> Finite mx ->
  Rabs (real mn) <= M -> Rabs (real mx) <= M -> M <= pow2 1020 ->
  exists l, dlinspace size mn mx = Ok l /\ length l = size /\ nth_error l (size - 1) = Some mx /\
  forall i, (i < size)%nat -> exists v, nth_error l i = Some v /\ Finite v /\
    Rabs (real v - (real mn + (real mx - real mn) * (IZR (Z.of_nat i) / IZR (Z.of_nat size - 1)))) <=
      pow2 (-53) * (M + 4 * Rabs (real mx - real mn)) + IZR (Z.of_nat i + 2) * pow2 (-1074).
Proof.
  intros S2 SB Fn Fx Bn Bx BM. destruct size as [|k]; [lia|]. cbn [dlinspace]. eexists. split; [reflexivity|].
  rewrite app_length, linspace_length. cbn [length]. split; [lia|]. replace (S k - 1)%nat with k by lia.
  split. { rewrite nth_error_app2 by (rewrite linspace_length; lia). now rewrite linspace_length, Nat.sub_diag. }
  replace (Z.of_nat (S k) - 1)%Z with (Z.of_nat k) by lia. set (K := IZR (Z.of_nat k)).
  assert (K1 : 1 <= K) by (apply IZR_le; lia). assert (U := uu_pos). assert (US := uu_small). assert (W := hh_pos).
  assert (H2 : pow2 (-1074) = 2 * hh) by (unfold hh; change 2 with (pow2 1); rewrite <- bpow_plus; reflexivity). rewrite H2. fold uu.
  set (D := real mx - real mn). assert (M0 : 0 <= M) by (pose proof (Rabs_pos (real mn)); lra).
  assert (D2 : Rabs D <= 2 * M) by (unfold D; replace (real mx - real mn) with (real mx + - real mn) by ring; apply Rle_trans with (1 := Rabs_triang _ _); rewrite Rabs_Ropp; lra).
  assert (PB : pow2 1023 = 8 * pow2 1020) by (change 8 with (pow2 3); rewrite <- bpow_plus; reflexivity). assert (PP := bpow_gt_0 radix2 1020).
  intros i Hi. assert (I0 : 0 <= IZR (Z.of_nat i)) by (apply IZR_le; lia). rewrite plus_IZR.
  assert (PO : 0 <= uu * (M + 4 * Rabs D) + (IZR (Z.of_nat i) + 2) * (2 * hh)).
  { pose proof (Rabs_pos D). apply Rplus_le_le_0_compat; apply Rmult_le_pos; lra. }
  destruct (Nat.eq_dec i k) as [-> | NK].
  - exists mx. split. { rewrite nth_error_app2 by (rewrite linspace_length; lia). now rewrite linspace_length, Nat.sub_diag. }
    split; [exact Fx|]. fold K. replace (K / K) with 1 by (field; lra). replace (real mx - (real mn + D * 1)) with 0 by (unfold D; ring). rewrite Rabs_R0. exact PO.
  - eexists. split; [rewrite nth_error_app1 by (rewrite linspace_length; lia); apply linspace_nth; lia|]. cbn [Z.add].
    destruct (dofZ_small (Z.of_nat k) ltac:(lia)) as [VK FK]. destruct (dofZ_small (Z.of_nat i) ltac:(lia)) as [VI FI].
    (* difference *)
    assert (E1 : Rabs (rnd D - D) <= uu * Rabs D).
    { unfold D, real. replace (val mx - val mn) with (val mx + - val mn) by ring. apply plus_error; [apply F64_val|apply generic_format_opp, F64_val]. }
    destruct (dsub_ok mx mn Fx Fn) as [V1 F1]; [apply no_overflow; fold (real mx) (real mn) D; lra|]. fold (real mx) (real mn) D in V1. set (d := dsub mx mn) in *.
    assert (D1 : Rabs (val d) <= (1 + uu) * Rabs D).
    { rewrite V1. replace (rnd D) with ((rnd D - D) + D) by ring. assert (T := Rabs_triang (rnd D - D) D). lra. }
    assert (DB : Rabs (val d) <= 3 * pow2 1020).
    { apply Rle_trans with (1 := D1). apply Rle_trans with ((1 + / 1024) * (2 * pow2 1020)); [apply Rmult_le_compat; try lra; apply Rabs_pos|lra]. }
    (* step *)
    assert (IK0 : 0 < / K) by (apply Rinv_0_lt_compat; lra). assert (IK1 : / K <= 1) by (rewrite <- Rinv_1; apply Rinv_le_contravar; lra).
    assert (QK : Rabs (val d / K) = Rabs (val d) * / K) by (unfold Rdiv; rewrite Rabs_mult, (Rabs_pos_eq (/ K)); lra).
    assert (QB : Rabs (val d / K) <= 3 * pow2 1020).
    { rewrite QK. rewrite <- (Rmult_1_r (3 * pow2 1020)). apply Rmult_le_compat; try lra. apply Rabs_pos. }
    destruct (ddiv_ok d (dofZ (Z.of_nat k)) F1) as [V2 F2]; [rewrite VK; fold K; lra|rewrite VK; fold K; apply no_overflow; lra|].
    rewrite VK in V2. fold K in V2. set (q := ddiv d (dofZ (Z.of_nat k))) in *. assert (E2 := rnd_error (val d / K)). rewrite <- V2, QK in E2. fold uu hh in E2.
    (* product *)
    set (ir := IZR (Z.of_nat i)) in *. set (t := ir / K). assert (IT : ir <= K) by (apply IZR_le; lia).
    assert (T01 : 0 <= t <= 1).
    { unfold t, Rdiv. split; [apply Rmult_le_pos; lra|]. apply Rle_trans with (K * / K); [apply Rmult_le_compat_r; lra|right; field; lra]. }
    assert (EQ : Rabs (val q * ir - D * t) <= (2 * uu + uu * uu) * (Rabs D * t) + ir * hh).
    { replace (val q * ir - D * t) with ((val q - D / K) * ir) by (unfold t; field; lra). rewrite Rabs_mult, (Rabs_pos_eq ir) by lra.
      assert (A : Rabs (val q - D / K) <= (2 * uu + uu * uu) * Rabs D * / K + hh).
      { replace (val q - D / K) with ((val q - val d / K) + (val d - D) * / K) by (unfold Rdiv; ring). assert (T := Rabs_triang (val q - val d / K) ((val d - D) * / K)).
        rewrite (Rabs_mult (val d - D)), (Rabs_pos_eq (/ K)) in T by lra. rewrite <- V1 in E1.
        assert (A1 : Rabs (val d - D) * / K <= uu * Rabs D * / K) by (apply Rmult_le_compat_r; lra).
        assert (A2 : uu * (Rabs (val d) * / K) <= uu * ((1 + uu) * Rabs D * / K)) by (apply Rmult_le_compat_l; [lra|]; apply Rmult_le_compat_r; lra). lra. }
      apply Rle_trans with (((2 * uu + uu * uu) * Rabs D * / K + hh) * ir); [apply Rmult_le_compat_r; lra|]. right. unfold t. field. lra. }
    assert (IK52 : ir <= pow2 53) by (change (pow2 53) with (IZR (2 ^ 53)); apply IZR_le; lia).
    assert (IH : ir * hh <= pow2 1000).
    { apply Rle_trans with (pow2 53 * hh); [apply Rmult_le_compat_r; lra|]. unfold hh. rewrite <- bpow_plus. apply bpow_le. lia. }
    assert (P1000 : 1024 * pow2 1000 <= pow2 1020) by (change 1024 with (pow2 10); rewrite <- bpow_plus; apply bpow_le; lia).
    assert (P0 := bpow_gt_0 radix2 1000). assert (HS : hh <= pow2 1000) by (unfold hh; apply bpow_le; lia).
    assert (DT : Rabs (D * t) <= Rabs D).
    { rewrite Rabs_mult, (Rabs_pos_eq t) by lra. rewrite <- (Rmult_1_r (Rabs D)) at 2. apply Rmult_le_compat_l; [apply Rabs_pos|lra]. }
    assert (DT' : Rabs D * t <= Rabs D) by (rewrite <- (Rmult_1_r (Rabs D)) at 2; apply Rmult_le_compat_l; [apply Rabs_pos|lra]).
    assert (DT0 : 0 <= Rabs D * t) by (apply Rmult_le_pos; [apply Rabs_pos|lra]).
    assert (UU : 0 <= 2 * uu + uu * uu <= / 256) by (assert (0 <= uu * uu <= / 1024 * / 1024) by (split; [apply Rmult_le_pos|apply Rmult_le_compat]; lra); lra).
    assert (QI : Rabs (val q * ir) <= 3 * pow2 1020).
    { replace (val q * ir) with ((val q * ir - D * t) + D * t) by ring. assert (T := Rabs_triang (val q * ir - D * t) (D * t)).
      assert ((2 * uu + uu * uu) * (Rabs D * t) <= / 256 * Rabs D) by (apply Rmult_le_compat; lra). lra. }
    destruct (dmul_ok q (dofZ (Z.of_nat i)) F2 FI) as [V3 F3]; [rewrite VI; fold ir; apply no_overflow; lra|]. rewrite VI in V3. fold ir in V3. set (p := dmul q (dofZ (Z.of_nat i))) in *.
    assert (E3 := rnd_error (val q * ir)). rewrite <- V3 in E3. fold uu hh in E3.
    (* sum *)
    assert (E4 := plus_error (val mn) (val p) (F64_val mn) (F64_val p)). fold (real mn) in E4.
    assert (HM : Rabs (real mn + D * t) <= M).
    { replace (real mn + D * t) with (real mn * (1 - t) + real mx * t) by (unfold D; ring). assert (T := Rabs_triang (real mn * (1 - t)) (real mx * t)).
      rewrite !Rabs_mult, (Rabs_pos_eq t), (Rabs_pos_eq (1 - t)) in T by lra.
      assert (Rabs (real mn) * (1 - t) <= M * (1 - t)) by (apply Rmult_le_compat_r; lra). assert (Rabs (real mx) * t <= M * t) by (apply Rmult_le_compat_r; lra). lra. }
    destruct (linspace_real uu hh (real mn) D t ir (val q * ir) (val p) _ (rnd (real mn + val p)) M ltac:(lra) W T01 I0 EQ E3 E4 HM eq_refl) as [PA PV].
    assert (SB2 : Rabs (real mn + val p) <= pow2 1023).
    { assert (T := Rabs_triang (real mn) (val p)). lra. }
    destruct (dadd_ok mn p Fn F3 (no_overflow _ SB2)) as [V4 F4]. fold (real mn) in V4. unfold real at 1. unfold Finite. rewrite V4. split; [exact F4|exact PV].
Qed.

(** Overflow of the sum, and cancellation. *)
Lemma dmax_val : fin dmax = true /\ val dmax = maxDouble.
Proof.
  assert (E : B2SF dmax = SpecFloat.S754_finite false 9007199254740991 971) by (vm_compute; reflexivity).
  destruct dmax as [s|s| |s m e H]; try discriminate. cbn [B2SF] in E. injection E as -> -> ->. split; [reflexivity|].
  unfold B2R, F2R, maxDouble. cbn [Fnum Fexp cond_Zopp]. reflexivity.
Qed.

Lemma mean_overflow : let l := [dmax; dmax] in
  Forall Finite l /\ exactSum l / 2 = real dmax /\ is_finite (dmean l) = false.
Proof.
  destruct dmax_val as [F V]. cbv zeta. split; [repeat constructor; exact F|]. split; [unfold exactSum, totalR; cbn [map fold_right]; lra|].
  vm_compute. reflexivity.
Qed.

Lemma mean_cancellation : let l := [dofZ (2 ^ 53); dofZ 1; dofZ (- 2 ^ 53)] in
  Forall Finite l /\ exactSum l = 1 /\ Finite (dmean l) /\ real (dmean l) = 0.
Proof.
  destruct (dofZ_small (2 ^ 53) ltac:(lia)) as [V1 F1]. destruct (dofZ_small 1 ltac:(lia)) as [V2 F2]. destruct (dofZ_small (- 2 ^ 53) ltac:(lia)) as [V3 F3].
  split; [repeat constructor; assumption|]. split.
  { unfold exactSum, totalR, real. cbn [map fold_right]. rewrite V1, V2, V3, opp_IZR. lra. }
  assert (E : B2SF (dmean [dofZ (2 ^ 53); dofZ 1; dofZ (- 2 ^ 53)]) = SpecFloat.S754_zero false) by (vm_compute; reflexivity).
  destruct (dmean _) as [s|s| |s m e H]; try discriminate. split; reflexivity.
Qed.
