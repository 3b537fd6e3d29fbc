(** Proofs about samplings of doubles. *)
From Coq Require Import Reals Lra Lia Psatz Sorted.
From Flocq Require Import Core IEEE754.BinarySingleNaN.
From Verif Require Import Res Lemmas WidthModel WidthSpec LoopModel SamplingModel FloatModel FloatSpec FloatKernelSpec FloatSumSpec TypedMedianModel.
From Verif Require Import FloatProofs QuantileProofs FloatKernelProofs FloatSumProofs MathProofs HsvProofs TypedMedianFloatProofs FloatSamplingModel FloatSamplingSpec.
Local Existing Instance hprec.
Local Existing Instance hmax.
Local Existing Instance valid64.
Open Scope R_scope.

Lemma wf_size : Wf sizeType.
Proof. right. cbn. lia. Qed.
Lemma size_trunc x z : dtruncTo sizeType x = Ok z <-> Finite x /\ z = Ztrunc (real x) /\ (0 <= z < 2 ^ 64)%Z.
Proof.
  rewrite (dtruncTo_spec sizeType x z wf_size). unfold InType. change (itmin sizeType) with 0%Z. change (itmax sizeType) with (2 ^ 64 - 1)%Z.
  split; intros (A & B & C); (split; [exact A|split; [exact B|lia]]).
Qed.
Lemma size_int x z : isInt x z -> (0 <= z < 2 ^ 64)%Z -> dtruncTo sizeType x = Ok z.
Proof. intros [F V] H. apply size_trunc. split; [exact F|]. split; [|exact H]. unfold real. now rewrite V, Ztrunc_IZR. Qed.

(** Increments *)
Lemma index_next i : (0 <= i < 2 ^ 53)%Z -> dtruncTo sizeType (dadd (dofZ i) (dofZ 1)) = Ok (i + 1)%Z.
Proof. intros H. apply size_int; [|lia]. apply int_add; try apply int_ofZ; lia. Qed.
Lemma index_stuck : dtruncTo sizeType (dadd (dofZ (2 ^ 53)) (dofZ 1)) = Ok (2 ^ 53)%Z.
Proof. vm_compute. reflexivity. Qed.

Lemma mul_one x : fin x = true -> val (dmul x (dofZ 1)) = val x /\ fin (dmul x (dofZ 1)) = true.
Proof.
  intros F. destruct (dofZ_small 1 ltac:(lia)) as [V1 F1].
  assert (E : rnd (val x * val (dofZ 1)) = val x) by (rewrite V1, Rmult_1_r; apply round_generic; [apply valid_rnd_N|apply F64_val]).
  destruct (dmul_ok x (dofZ 1) F F1) as [V G]; [rewrite E; apply abs_B2R_lt_emax|]. split; [now rewrite V|exact G].
Qed.
Lemma mul_zero x : fin x = true -> val (dmul x (dofZ 0)) = 0 /\ fin (dmul x (dofZ 0)) = true.
Proof.
  intros F. destruct (dofZ_small 0 ltac:(lia)) as [V1 F1].
  assert (E : rnd (val x * val (dofZ 0)) = 0) by (rewrite V1, Rmult_0_r; apply round_0; apply valid_rnd_N).
  destruct (dmul_ok x (dofZ 0) F F1) as [V G]; [rewrite E, Rabs_R0; apply bpow_gt_0|]. split; [now rewrite V|exact G].
Qed.
Lemma add_zero x y : fin x = true -> fin y = true -> val y = 0 -> val (dadd x y) = val x /\ fin (dadd x y) = true.
Proof.
  intros F Fy V0.
  assert (E : rnd (val x + val y) = val x) by (rewrite V0, Rplus_0_r; apply round_generic; [apply valid_rnd_N|apply F64_val]).
  destruct (dadd_ok x y F Fy) as [V G]; [rewrite E; apply abs_B2R_lt_emax|]. split; [now rewrite V|exact G].
Qed.

(** The iteration gives a ramp. *)
Lemma ramp s n : (n <= 2 ^ 53)%Z -> forall k i v fuel, (0 <= i)%Z -> (i + Z.of_nat k = n)%Z -> (k < fuel)%nat ->
  exists l, forLoop fuel (fun it => (snd it =? n)%Z) (axisNext s) (v, i) = Some (Ok l) /\ map fst l = drange k v (dmul (astep s) (dofZ 1)).
Proof.
  intros N. induction k as [|k IH]; intros i v [|fuel] Hi E H; try lia; cbn [forLoop snd].
  - rewrite (proj2 (Z.eqb_eq i n)) by lia. exists []. split; reflexivity.
  - rewrite (proj2 (Z.eqb_neq i n)) by lia. unfold axisNext at 1, axisAdd. cbn [fst snd]. rewrite index_next by lia. cbn [bind].
    destruct (IH (i + 1)%Z (dadd v (dmul (astep s) (dofZ 1))) fuel ltac:(lia) ltac:(lia) ltac:(lia)) as (l & L & M). rewrite L.
    exists ((v, i) :: l). split; [reflexivity|]. cbn [map fst drange]. now rewrite M.
Qed.

Lemma drange_length n : forall v st, length (drange n v st) = n.
Proof. induction n as [|n IH]; intros v st; cbn [drange length]; [reflexivity|]. now rewrite IH. Qed.

Lemma sampled_ramp s n : axisSize s = Ok n -> (n <= 2 ^ 53)%Z ->
  Sampled s (drange (Z.to_nat n) (dadd (afront s) (dmul (astep s) (dofZ 0))) (dmul (astep s) (dofZ 1))).
Proof.
  intros E N. assert (P : (0 <= n)%Z) by (apply size_trunc in E; lia). exists (S (Z.to_nat n)). intros fuel F. unfold axisForeach. rewrite E.
  destruct (ramp s n N (Z.to_nat n) 0 (dadd (afront s) (dmul (astep s) (dofZ 0))) fuel ltac:(lia) ltac:(lia) ltac:(lia)) as (l & L & M).
  unfold axisIter. rewrite L, M. reflexivity.
Qed.

Lemma drange_sorted n st : fin st = true -> 0 <= val st -> forall v, (forall i x, nth_error (drange n v st) i = Some x -> fin x = true) ->
  Sorted (fun x y => real x <= real y) (drange n v st).
Proof.
  intros Fs P. induction n as [|n IH]; intros v H; cbn [drange]; [constructor|].
  constructor; [apply IH; intros i x Hx; apply (H (S i) x Hx)|].
  destruct n as [|n]; cbn [drange]; constructor.
  assert (Fv : fin v = true) by (apply (H O v); reflexivity). assert (Fa : fin (dadd v st) = true) by (apply (H 1%nat); reflexivity).
  assert (C := Bplus_correct 53 1024 hprec hmax mode_NE v st Fv Fs). fold (dadd v st) in C.
  destruct (Rlt_bool _ _).
  - destruct C as (C & _). cbn [round_mode] in C. unfold real. rewrite C. apply round_ge_generic; [apply valid64|apply valid_rnd_N|apply F64_val|]. lra.
  - exfalso. destruct C as (C & _). assert (B : is_finite_SF (B2SF (dadd v st)) = true) by (rewrite is_finite_SF_B2SF; exact Fa).
    rewrite C in B. destruct (Bsign v); discriminate B.
Qed.

Lemma elements s n : Finite (afront s) -> Finite (astep s) -> axisSize s = Ok n -> (n <= 2 ^ 52)%Z ->
  Rabs (real (afront s)) + IZR n * Rabs (real (astep s)) <= pow2 1022 ->
  exists L, Sampled s L /\ Z.of_nat (length L) = n /\
    (forall i x, nth_error L i = Some x -> Finite x /\
      Rabs (real x - (real (afront s) + IZR (Z.of_nat i) * real (astep s))) <=
        roundings (Z.of_nat i) * (Rabs (real (afront s)) + IZR (Z.of_nat i) * Rabs (real (astep s)))) /\
    (0 <= real (astep s) -> Sorted (fun x y => real x <= real y) L).
Proof.
  intros Ff Fs E N B. assert (P : (0 <= n)%Z) by (apply size_trunc in E; lia). eexists. split; [apply sampled_ramp; [exact E|lia]|].
  destruct (mul_one _ Fs) as [V1 F1]. destruct (mul_zero _ Fs) as [V0 F0]. destruct (add_zero _ _ Ff F0 V0) as [Vf F2].
  set (v := dadd (afront s) _) in *. set (st := dmul (astep s) (dofZ 1)) in *.
  split; [rewrite drange_length; lia|].
  assert (K : forall i x, nth_error (drange (Z.to_nat n) v st) i = Some x -> Finite x /\
      Rabs (real x - (real (afront s) + IZR (Z.of_nat i) * real (astep s))) <=
        roundings (Z.of_nat i) * (Rabs (real (afront s)) + IZR (Z.of_nat i) * Rabs (real (astep s)))).
  { intros i x Hx. assert (Hi : (i < Z.to_nat n)%nat) by (rewrite <- (drange_length (Z.to_nat n) v st); apply nth_error_Some; congruence).
    destruct (range_error (Z.to_nat n) v st i Hi ltac:(lia) F2 F1) as (w & W & Fw & Ew).
    - unfold real in *. rewrite Vf, V1. apply Rle_trans with (2 := B). apply Rplus_le_compat_l, Rmult_le_compat_r; [apply Rabs_pos|]. apply IZR_le. lia.
    - rewrite Hx in W. injection W as <-. split; [exact Fw|]. unfold real in *. rewrite Vf, V1 in Ew. exact Ew. }
  split; [exact K|]. intros Ps. apply drange_sorted; [exact F1|now rewrite V1|]. intros i x Hx. apply (K i x Hx).
Qed.

(** Iterations which never end. *)
Lemma endless_loop s n : (2 ^ 53 < n)%Z -> forall fuel v i, (0 <= i <= 2 ^ 53)%Z -> forLoop fuel (fun it => (snd it =? n)%Z) (axisNext s) (v, i) = None.
Proof.
  intros N. induction fuel as [|fuel IH]; intros v i Hi; cbn [forLoop snd]; [reflexivity|].
  rewrite (proj2 (Z.eqb_neq i n)) by lia. unfold axisNext at 1, axisAdd. cbn [fst snd].
  assert (E : exists j, dtruncTo sizeType (dadd (dofZ i) (dofZ 1)) = Ok j /\ (0 <= j <= 2 ^ 53)%Z).
  { destruct (Z.eq_dec i (2 ^ 53)) as [->|D]; [exists (2 ^ 53)%Z; split; [exact index_stuck|lia]|]. exists (i + 1)%Z. split; [apply index_next; lia|lia]. }
  destruct E as (j & E & J). rewrite E. cbn [bind]. rewrite (IH _ j J). reflexivity.
Qed.
Lemma endless s n : axisSize s = Ok n -> (2 ^ 53 < n)%Z -> forall fuel, axisForeach fuel s = None.
Proof. intros E N fuel. unfold axisForeach, axisIter. rewrite E, (endless_loop s n N); [reflexivity|lia]. Qed.

(** The count *)
Lemma max_zero q z : fin q = true -> z = Ztrunc (Rmax 0 (val q)) -> (z < 2 ^ 64)%Z -> dtruncTo sizeType (if dltb (dofZ 0) q then q else dofZ 0) = Ok z.
Proof.
  intros F -> H. destruct (dofZ_small 0 ltac:(lia)) as [V0 F0]. rewrite (dltb_val (dofZ 0) q F0 F), V0.
  destruct (Rlt_dec 0 (val q)) as [L|L].
  - rewrite Rmax_right in * by lra. apply size_trunc. split; [exact F|]. split; [reflexivity|]. split; [|exact H].
    rewrite Ztrunc_floor by lra. apply Zfloor_lub. lra.
  - rewrite Rmax_left by lra. rewrite Ztrunc_IZR. apply size_int; [apply int_ofZ|]; lia.
Qed.

Lemma count_real u h a s A S Q : 0 < s -> 0 <= u <= / 1024 -> 0 <= a -> 0 <= h ->
  Rabs (A - a) <= u * a -> Rabs (S - (A + s)) <= u * (A + s) -> Rabs (Q - S / s) <= u * (S / s) + h ->
  Rabs (Q - (a / s + 1)) <= 4 * u * (a / s + 1) + h.
Proof.
  intros Ps Hu Ha Hh EA ES EQ. set (e := a / s + 1). set (r := S / s) in *. set (q := A / s).
  assert (I : 0 < / s) by now apply Rinv_0_lt_compat.
  assert (Ee : a / s = e - 1) by (unfold e; lra). assert (Ge : 0 <= a / s) by (apply Rmult_le_pos; lra).
  assert (E1 : Rabs (q - (e - 1)) <= u * (e - 1)).
  { rewrite <- Ee. unfold q, Rdiv. replace (A * / s - a * / s) with ((A - a) * / s) by ring. rewrite Rabs_mult, (Rabs_pos_eq (/ s)) by lra.
    rewrite <- Rmult_assoc. apply Rmult_le_compat_r; lra. }
  assert (E2 : Rabs (r - (q + 1)) <= u * (q + 1)).
  { unfold r, q, Rdiv. replace (A * / s + 1) with ((A + s) * / s) by (field; lra). rewrite <- Rmult_minus_distr_r, Rabs_mult, (Rabs_pos_eq (/ s)) by lra.
    rewrite <- Rmult_assoc. apply Rmult_le_compat_r; lra. }
  assert (U1 := proj1 (Rabs_le_inv _ _ E1)). assert (U2 := proj2 (Rabs_le_inv _ _ E1)).
  assert (W1 := proj1 (Rabs_le_inv _ _ E2)). assert (W2 := proj2 (Rabs_le_inv _ _ E2)).
  assert (X1 := proj1 (Rabs_le_inv _ _ EQ)). assert (X2 := proj2 (Rabs_le_inv _ _ EQ)).
  assert (Q1 : q <= (1 + u) * e - 1) by nra. assert (Q2 : (1 - u) * e - 1 <= q) by nra.
  assert (R1 : r <= (1 + u) * ((1 + u) * e)) by nra. assert (R2 : (1 - u) * ((1 - u) * e) <= r) by nra.
  assert (T1 : Q <= (1 + u) * ((1 + u) * ((1 + u) * e)) + h) by nra.
  assert (T2 : (1 - u) * ((1 - u) * ((1 - u) * e)) - h <= Q) by nra.
  assert (M1 : (1 + u) * ((1 + u) * (1 + u)) <= 1 + 4 * u) by nra.
  assert (M2 : 1 - 4 * u <= (1 - u) * ((1 - u) * (1 - u))) by nra.
  assert (Pe : 0 <= e) by lra.
  assert (N1 := Rmult_le_compat_r e _ _ Pe M1). assert (N2 := Rmult_le_compat_r e _ _ Pe M2).
  apply Rabs_le. lra.
Qed.

Lemma count_error s : Finite (afront s) -> Finite (aback s) -> Finite (astep s) -> 0 < real (astep s) ->
  real (afront s) <= real (aback s) ->
  Rabs (real (afront s)) <= pow2 1021 -> Rabs (real (aback s)) <= pow2 1021 -> real (astep s) <= pow2 1021 ->
  (exactCount s <= 2 ^ 50)%Z -> exists n, axisSize s = Ok n /\ (Z.abs (n - exactCount s) <= 1)%Z.
Proof.
  intros Ff Fb Fs Ps Hfb Bf Bb Bs Hc. unfold real in *. unfold exactCount in *. unfold real in *.
  set (f := val (afront s)) in *. set (b := val (aback s)) in *. set (t := val (astep s)) in *.
  assert (P2 : pow2 1022 = 2 * pow2 1021) by (change 2 with (pow2 1); rewrite <- bpow_plus; reflexivity).
  assert (P3 : pow2 1023 = 4 * pow2 1021) by (change 4 with (pow2 2); rewrite <- bpow_plus; reflexivity).
  assert (P1 := bpow_gt_0 radix2 1021). assert (U0 := uu_pos). assert (U1 := uu_small).
  assert (A0 : 0 <= b - f) by lra.
  assert (Ab : b - f <= pow2 1022) by (pose proof (Rabs_le_inv _ _ Bf); pose proof (Rabs_le_inv _ _ Bb); lra).
  destruct (dsub_ok (aback s) (afront s) Fb Ff) as [VA FA].
  { apply no_overflow. fold b f. rewrite Rabs_pos_eq by exact A0. lra. }
  fold b f in VA. set (A := dsub (aback s) (afront s)) in *.
  assert (EA : Rabs (val A - (b - f)) <= uu * (b - f)).
  { rewrite VA. assert (H := plus_error b (- f) (F64_val _) (generic_format_opp _ _ _ (F64_val _))). fold (b - f) in H. now rewrite (Rabs_pos_eq (b - f)) in H by exact A0. }
  assert (GA : 0 <= val A) by (rewrite VA; apply round_ge_generic; [apply valid64|apply valid_rnd_N|apply generic_format_0|exact A0]).
  assert (EA2 := Rabs_le_inv _ _ EA).
  assert (LA : val A <= pow2 1022 + pow2 1021). { assert (uu * (b - f) <= / 1024 * pow2 1022) by (apply Rmult_le_compat; lra). lra. }
  destruct (dadd_ok A (astep s) FA Fs) as [VS FS].
  { apply no_overflow. fold t. rewrite Rabs_pos_eq by lra. lra. }
  fold t in VS. set (S := dadd A (astep s)) in *.
  assert (ES : Rabs (val S - (val A + t)) <= uu * (val A + t)).
  { rewrite VS. assert (H := plus_error (val A) t (F64_val _) (F64_val _)). now rewrite (Rabs_pos_eq (val A + t)) in H by lra. }
  assert (Ft := F64_val (astep s)). fold t in Ft.
  assert (GS : t <= val S) by (rewrite VS; apply round_ge_generic; [apply valid64|apply valid_rnd_N|exact Ft|lra]).
  set (e := (b - f) / t + 1).
  assert (Pe : 1 <= e) by (unfold e; assert (0 <= (b - f) / t) by (apply Rmult_le_pos; [exact A0|left; now apply Rinv_0_lt_compat]); lra).
  set (c := Zfloor ((b - f) / t)) in *. assert (L1 := Zfloor_lb ((b - f) / t)). assert (L2 := Zfloor_ub ((b - f) / t)). fold c in L1, L2.
  assert (Hc' : IZR c + 1 <= pow2 50) by (rewrite <- (plus_IZR c 1); change (pow2 50) with (IZR (2 ^ 50)); now apply IZR_le).
  assert (G50 : 1 <= pow2 50) by (change 1 with (pow2 0); apply bpow_le; lia).
  assert (Ue : e <= 2 * pow2 50) by (unfold e; lra).
  assert (It : 0 < / t) by now apply Rinv_0_lt_compat.
  assert (ES2 := Rabs_le_inv _ _ ES).
  assert (Q0 : 0 <= val S / t) by (apply Rmult_le_pos; lra).
  assert (QS : val S / t <= 4 * e).
  { apply Rmult_le_reg_r with t; [exact Ps|]. unfold Rdiv. rewrite Rmult_assoc, Rinv_l, Rmult_1_r by lra.
    replace (4 * e * t) with (4 * (b - f + t)) by (unfold e; field; lra).
    assert (uu * (val A + t) <= 1 * (val A + t)) by (apply Rmult_le_compat_r; lra).
    assert (uu * (b - f) <= 1 * (b - f)) by (apply Rmult_le_compat_r; lra). lra. }
  assert (Q1 : Rabs (val S / t) <= pow2 1023).
  { rewrite Rabs_pos_eq by exact Q0. apply Rle_trans with (pow2 53); [|apply bpow_le; lia].
    assert (E53 : pow2 53 = 8 * pow2 50) by (change 8 with (pow2 3); rewrite <- bpow_plus; reflexivity). lra. }
  assert (Nt : val (astep s) <> 0) by (fold t; lra).
  destruct (ddiv_ok S (astep s) FS Nt) as [VQ FQ]; [fold t; now apply no_overflow|]. fold t in VQ. set (Q := ddiv S (astep s)) in *.
  assert (EQ : Rabs (val Q - val S / t) <= uu * (val S / t) + pow2 (-1075)).
  { rewrite VQ. assert (H := rnd_error (val S / t)). fold uu in H. now rewrite (Rabs_pos_eq (val S / t)) in H by exact Q0. }
  assert (H0 := bpow_gt_0 radix2 (-1075)).
  assert (C := count_real uu (pow2 (-1075)) (b - f) t (val A) (val S) (val Q) Ps ltac:(lra) A0 ltac:(lra) EA ES EQ). fold e in C.
  assert (H1 : pow2 (-1075) <= / 16) by (change (/ 16) with (pow2 (-4)); apply bpow_le; lia).
  assert (D : 4 * uu * e <= 13 / 16).
  { assert (E8 : uu * pow2 50 = / 8) by (unfold uu; rewrite <- bpow_plus; reflexivity).
    assert (G2 : uu * 4 <= / 16) by lra.
    assert (Ue' : e <= pow2 50 + 1) by (unfold e; lra).
    assert (uu * e <= uu * (pow2 50 + 1)) by (apply Rmult_le_compat_l; lra). lra. }
  assert (C2 := Rabs_le_inv _ _ C).
  assert (Lo : IZR c < val Q) by (unfold e in *; lra). assert (Hi : val Q < IZR c + 3) by (unfold e in *; lra).
  assert (Q2 : 0 <= val Q) by (rewrite VQ; apply round_ge_generic; [apply valid64|apply valid_rnd_N|apply generic_format_0|exact Q0]).
  assert (F1 : (c <= Zfloor (val Q))%Z) by (apply Zfloor_lub; lra).
  assert (F2 : (Zfloor (val Q) < c + 3)%Z).
  { apply lt_IZR. rewrite plus_IZR. apply Rle_lt_trans with (2 := Hi). apply Zfloor_lb. }
  exists (Zfloor (val Q)). split; [|lia]. unfold axisSize. cbv zeta. fold A. fold S. fold Q. apply max_zero; [exact FQ| |lia].
  rewrite Rmax_right by exact Q2. now rewrite Ztrunc_floor by exact Q2.
Qed.

(** Empty samplings *)
Lemma sf_not_less x : B2SF x = SpecFloat.S754_infinity true -> dltb (dofZ 0) x = false.
Proof. destruct x as [s|s| |s m e B]; cbn [B2SF]; intros E; try discriminate E. injection E as ->. reflexivity. Qed.

Lemma empty s : Finite (afront s) -> Finite (aback s) -> Finite (astep s) -> 0 < real (astep s) ->
  real (aback s) <= real (afront s) - real (astep s) ->
  Rabs (real (afront s)) <= pow2 1021 -> Rabs (real (aback s)) <= pow2 1021 -> axisSize s = Ok 0%Z.
Proof.
  intros Ff Fb Fs Ps Hfb Bf Bb. unfold real in *.
  set (f := val (afront s)) in *. set (b := val (aback s)) in *. set (t := val (astep s)) in *.
  assert (P3 : pow2 1023 = 4 * pow2 1021) by (change 4 with (pow2 2); rewrite <- bpow_plus; reflexivity).
  assert (P1 := bpow_gt_0 radix2 1021). assert (Bf2 := Rabs_le_inv _ _ Bf). assert (Bb2 := Rabs_le_inv _ _ Bb).
  assert (Ft := F64_val (astep s)). fold t in Ft.
  destruct (dsub_ok (aback s) (afront s) Fb Ff) as [VA FA]; [apply no_overflow; fold b f; apply Rabs_le; lra|].
  fold b f in VA. set (A := dsub (aback s) (afront s)) in *.
  assert (LA : val A <= - t) by (rewrite VA; apply round_le_generic; [apply valid64|apply valid_rnd_N|now apply generic_format_opp|lra]).
  assert (GA : - pow2 1022 <= val A).
  { assert (P2 : pow2 1022 = 2 * pow2 1021) by (change 2 with (pow2 1); rewrite <- bpow_plus; reflexivity).
    rewrite VA. apply round_ge_generic; [apply valid64|apply valid_rnd_N| |lra].
    apply generic_format_opp, (generic_format_FLT_bpow radix2 (3 - 1024 - 53) 53). lia. }
  assert (P4 : pow2 1023 = 2 * pow2 1022) by (change 2 with (pow2 1); rewrite <- bpow_plus; reflexivity).
  destruct (dadd_ok A (astep s) FA Fs) as [VS FS]; [apply no_overflow; fold t; apply Rabs_le; lra|].
  fold t in VS. set (S := dadd A (astep s)) in *.
  assert (GS : val S <= 0) by (rewrite VS; apply round_le_generic; [apply valid64|apply valid_rnd_N|apply generic_format_0|lra]).
  unfold axisSize. cbv zeta. fold A. fold S.
  assert (Nt : val (astep s) <> 0) by (fold t; lra).
  assert (It : 0 < / t) by now apply Rinv_0_lt_compat.
  assert (D : dltb (dofZ 0) (ddiv S (astep s)) = false).
  { assert (C := Bdiv_correct 53 1024 hprec hmax mode_NE S (astep s) Nt). fold (ddiv S (astep s)) in C. cbn [round_mode] in C. fold t in C.
    match type of C with context [Rlt_bool ?x ?y] => destruct (Rlt_bool_spec x y) as [L|L] end.
    - destruct C as (V & F & _). rewrite FS in F.
      destruct (dofZ_small 0 ltac:(lia)) as [V0 F0]. rewrite (dltb_val _ _ F0 F), V0.
      destruct (Rlt_dec 0 (val (ddiv S (astep s)))) as [X|X]; [exfalso|reflexivity]. rewrite V in X.
      apply (Rlt_irrefl 0). apply Rlt_le_trans with (1 := X). apply round_le_generic; [apply valid64|apply valid_rnd_N|apply generic_format_0|].
      unfold Rdiv. assert (0 <= - val S * / t) by (apply Rmult_le_pos; lra). lra.
    - apply sf_not_less. rewrite C.
      assert (Z0 : val S <> 0).
      { intros Z0. rewrite Z0 in L. unfold Rdiv in L. rewrite Rmult_0_l, round_0, Rabs_R0 in L by apply valid_rnd_N. pose proof (bpow_gt_0 radix2 1024). lra. }
      assert (Bs : Bsign S = true).
      { destruct S as [z|z| |z m e B] eqn:ES; try discriminate FS; cbn [Bsign].
        - exfalso. apply Z0. reflexivity.
        - destruct z; [reflexivity|exfalso]. cbn [B2R] in GS. assert (0 < F2R (Float radix2 (Zpos m) e)) by (apply F2R_gt_0; reflexivity). cbn [SpecFloat.cond_Zopp] in GS. lra. }
      assert (Bt : Bsign (astep s) = false).
      { unfold t in Ps. destruct (astep s) as [z|z| |z m e B] eqn:ES; try discriminate Fs; cbn [Bsign].
        - exfalso. cbn [B2R] in Ps. lra.
        - destruct z; [exfalso|reflexivity]. cbn [B2R] in Ps. assert (F2R (Float radix2 (Zneg m) e) < 0) by (apply F2R_lt_0; reflexivity). cbn [SpecFloat.cond_Zopp] in Ps. change (- Z.pos m)%Z with (Z.neg m) in Ps. lra. }
      rewrite Bs, Bt. reflexivity. }
  rewrite D. reflexivity.
Qed.

(** Null step *)
Lemma null_axis f b : Finite f -> Finite b -> Rabs (real f) <= pow2 1021 -> Rabs (real b) <= pow2 1021 ->
  axisSize (mkAxis f b (dofZ 0)) = if Rlt_dec (real f) (real b) then UB else Ok 0%Z.
Proof.
  intros Ff Fb Bf Bb. unfold real in *.
  assert (P3 : pow2 1023 = 4 * pow2 1021) by (change 4 with (pow2 2); rewrite <- bpow_plus; reflexivity).
  assert (P1 := bpow_gt_0 radix2 1021). assert (Bf2 := Rabs_le_inv _ _ Bf). assert (Bb2 := Rabs_le_inv _ _ Bb).
  destruct (dsub_ok b f Fb Ff) as [VA FA]; [apply no_overflow; apply Rabs_le; lra|].
  assert (FZ : fin (dofZ 0) = true) by reflexivity. assert (VZ : val (dofZ 0) = 0) by reflexivity.
  destruct (add_zero _ _ FA FZ VZ) as [VS FS].
  unfold axisSize. cbn [afront aback astep]. cbv zeta. set (S := dadd (dsub b f) (dofZ 0)) in *.
  destruct (Rlt_dec (val f) (val b)) as [L|L].
  - assert (Pos : 0 < val S).
    { rewrite VS, VA. assert (N := plus_error (val b) (- val f) (F64_val _) (generic_format_opp _ _ _ (F64_val _))). fold (val b - val f) in N.
      rewrite (Rabs_pos_eq (val b - val f)) in N by lra. assert (N2 := Rabs_le_inv _ _ N). assert (U := uu_small).
      assert (uu * (val b - val f) <= / 1024 * (val b - val f)) by (apply Rmult_le_compat_r; lra). lra. }
    destruct S as [z|z| |z m e B]; try discriminate FS; cbn [B2R] in Pos; [lra|]. destruct z.
    + exfalso. assert (F2R (Float radix2 (Zneg m) e) < 0) by (apply F2R_lt_0; reflexivity). cbn [SpecFloat.cond_Zopp] in Pos. change (- Z.pos m)%Z with (Z.neg m) in Pos. lra.
    + reflexivity.
  - assert (Neg : val S <= 0) by (rewrite VS, VA; apply round_le_generic; [apply valid64|apply valid_rnd_N|apply generic_format_0|lra]).
    destruct S as [z|z| |z m e B]; try discriminate FS; [destruct z; reflexivity|]. destruct z; [reflexivity|exfalso].
    cbn [B2R] in Neg. assert (0 < F2R (Float radix2 (Zpos m) e)) by (apply F2R_gt_0; reflexivity). cbn [SpecFloat.cond_Zopp] in Neg. lra.
Qed.

(** Integers *)
Lemma floor_quotient x y : (0 <= x)%Z -> (0 < y)%Z -> (x + y <= 2 ^ 53)%Z -> Zfloor (rnd (IZR x / IZR y)) = (x / y)%Z.
Proof.
  intros Hx Hy H. assert (Y : 0 < IZR y) by now apply IZR_lt. set (m := (x / y)%Z).
  assert (M := Z_div_mod_eq_full x y). assert (R := Z.mod_pos_bound x y Hy). fold m in M.
  assert (M0 : (0 <= m)%Z) by (apply Z.div_pos; lia). assert (M1 : (m <= x)%Z) by nia.
  assert (I : 0 < / IZR y) by now apply Rinv_0_lt_compat.
  apply Zfloor_imp. split.
  - rewrite <- (rnd_int m) by lia. apply round_le; [apply valid64|apply valid_rnd_N|].
    apply Rmult_le_reg_r with (IZR y); [exact Y|]. unfold Rdiv. rewrite Rmult_assoc, Rinv_l, Rmult_1_r, <- mult_IZR by lra. apply IZR_le. nia.
  - rewrite plus_IZR. assert (E := rnd_error (IZR x / IZR y)). assert (X : 0 <= IZR x) by now apply IZR_le.
    rewrite (Rabs_pos_eq (IZR x / IZR y)) in E by (apply Rmult_le_pos; lra). assert (E2 := Rabs_le_inv _ _ E).
    apply Rle_lt_trans with (IZR x / IZR y + (pow2 (-53) * (IZR x / IZR y) + pow2 (-1075))); [lra|].
    apply Rmult_lt_reg_r with (IZR y); [exact Y|].
    replace ((IZR x / IZR y + (pow2 (-53) * (IZR x / IZR y) + pow2 (-1075))) * IZR y) with (IZR x + pow2 (-53) * IZR x + pow2 (-1075) * IZR y) by (field; lra).
    assert (B1 : IZR x <= (IZR m + 1) * IZR y - 1) by (rewrite <- (plus_IZR m 1), <- mult_IZR, <- minus_IZR; apply IZR_le; nia).
    assert (P := bpow_gt_0 radix2 (-53)). assert (P2 := bpow_gt_0 radix2 (-1075)).
    assert (T : pow2 (-53) * pow2 53 = 1) by (rewrite <- bpow_plus; reflexivity).
    assert (T2 : pow2 (-1075) <= pow2 (-107)) by (apply bpow_le; lia).
    assert (T3 : pow2 (-107) * pow2 53 = / 2 * pow2 (-53)) by (change (/ 2) with (pow2 (-1)); rewrite <- !bpow_plus; reflexivity).
    assert (B2 : IZR x <= pow2 53 - 1) by (change (pow2 53) with (IZR (2 ^ 53)); rewrite <- minus_IZR; apply IZR_le; lia).
    assert (B3 : IZR y <= pow2 53) by (change (pow2 53) with (IZR (2 ^ 53)); apply IZR_le; lia).
    assert (B4 : pow2 (-53) * IZR x <= pow2 (-53) * (pow2 53 - 1)) by (apply Rmult_le_compat_l; lra).
    assert (B5 : pow2 (-1075) * IZR y <= pow2 (-107) * pow2 53) by (apply Rmult_le_compat; lra). lra.
Qed.

Lemma integral_int x z : Integral x z <-> isInt x z.
Proof. reflexivity. Qed.

Lemma quot_sign d c : c <> 0%Z -> ((0 <= d * c)%Z -> (0 <= Z.quot d c)%Z) /\ ((d * c < 0)%Z -> (Z.quot d c <= 0)%Z).
Proof.
  intros N. split; intros S; destruct (Z_lt_le_dec d 0) as [L|L].
  - rewrite <- (Z.quot_opp_opp d c) by exact N. apply Z.quot_pos; nia.
  - destruct (Z.eq_dec d 0) as [->|D]; [rewrite Z.quot_0_l by exact N; reflexivity|]. apply Z.quot_pos; nia.
  - apply Z.opp_nonneg_nonpos. rewrite <- Z.quot_opp_l by exact N. apply Z.quot_pos; nia.
  - apply Z.opp_nonneg_nonpos. rewrite <- Z.quot_opp_r by exact N. apply Z.quot_pos; nia.
Qed.
Lemma quot_bound d c : c <> 0%Z -> (Z.abs (Z.quot d c) * Z.abs c <= Z.abs d)%Z /\ ((0 <= d * c)%Z -> Z.quot d c = (Z.abs d / Z.abs c)%Z) /\ ((d * c < 0)%Z -> (Z.quot d c <= 0)%Z).
Proof.
  intros N. destruct (quot_sign d c N) as [Qp Qn]. assert (C0 : (0 < Z.abs c)%Z) by (clear - N; lia). assert (D0 := Z.abs_nonneg d).
  assert (D : (Z.quot (Z.abs d) (Z.abs c) = Z.abs d / Z.abs c)%Z) by (now apply Z.quot_div_nonneg).
  rewrite <- D, Z.quot_abs by exact N. split; [|split; [intros S; symmetry; apply Z.abs_eq; now apply Qp|exact Qn]].
  rewrite <- Z.quot_abs by exact N. rewrite Z.mul_comm. apply Z.mul_quot_le; [exact D0|]. clear - C0. lia.
Qed.

Lemma quot_small d c : c <> 0%Z -> (Z.abs (Z.quot d c) <= Z.abs d)%Z.
Proof.
  intros N. destruct (quot_bound d c N) as (Q & _). revert Q. generalize (Z.quot d c). clear - N. intros q Q. nia.
Qed.
Lemma max_small q B : (Z.abs q <= B)%Z -> (0 <= Z.max 0 q <= B)%Z.
Proof. lia. Qed.
Lemma between_abs q B : (Z.abs q <= B)%Z -> (B < 2 ^ 63)%Z -> (- 2 ^ 63 <= q < 2 ^ 63)%Z.
Proof. lia. Qed.
Lemma scaled_small k n c B : (0 <= k <= n)%Z -> (n * Z.abs c <= B)%Z -> (Z.abs (k * c) <= B)%Z.
Proof. intros. rewrite Z.abs_mul. nia. Qed.

Section Integers.
Variable s : axis.
Variable t : sampling.
Hypothesis Hf : isInt (afront s) (sfront t).
Hypothesis Hb : isInt (aback s) (sback t).
Hypothesis Hs : isInt (astep s) (sstep t).
Hypothesis Bf : (Z.abs (sfront t) <= 2 ^ 50)%Z.
Hypothesis Bb : (Z.abs (sback t) <= 2 ^ 50)%Z.
Hypothesis Bs : (Z.abs (sstep t) <= 2 ^ 50)%Z.
Hypothesis Ns : sstep t <> 0%Z.

Let d := (sback t - sfront t + sstep t)%Z.
Let n := Z.max 0 (Z.quot d (sstep t)).

Lemma integer_d : (Z.abs d <= 3 * 2 ^ 50)%Z.
Proof. unfold d. clear - Bf Bb Bs. lia. Qed.
Lemma integer_ssize : ssize t = Ok n.
Proof.
  assert (Q := quot_small d (sstep t) Ns). assert (Bd := integer_d). unfold ssize.
  rewrite (SamplingProofs.chk64_ok (sback t - sfront t)) by (clear - Bf Bb; lia). cbn [bind].
  rewrite (SamplingProofs.chk64_ok (sback t - sfront t + sstep t)) by (clear - Bf Bb Bs; lia). cbn [bind].
  rewrite (proj2 (Z.eqb_neq _ _) Ns). fold d.
  rewrite SamplingProofs.chk64_ok; [reflexivity|]. apply (between_abs _ (3 * 2 ^ 50)); [now apply Z.le_trans with (1 := Q)|reflexivity].
Qed.
Lemma integer_index : (0 <= n <= 3 * 2 ^ 50)%Z.
Proof. apply max_small. apply Z.le_trans with (1 := quot_small d (sstep t) Ns). exact integer_d. Qed.

Lemma integer_axisSize : axisSize s = Ok n.
Proof.
  destruct (quot_bound d (sstep t) Ns) as (Q & Qp & Qn).
  assert (B1 : (Z.abs (sback t - sfront t) <= 2 ^ 53)%Z) by (clear - Bf Bb; lia). assert (B2 : (Z.abs (sback t - sfront t + sstep t) <= 2 ^ 53)%Z) by (clear - Bf Bb Bs; lia).
  assert (I1 := int_sub _ _ _ _ Hb Hf B1). assert (I2 := int_add _ _ _ _ I1 Hs B2). fold d in I2. destruct I2 as [F2 V2]. destruct Hs as [Fs Vs].
  assert (Nz : val (astep s) <> 0) by (rewrite Vs; now apply not_0_IZR).
  unfold axisSize. cbv zeta. set (S := dadd _ (astep s)) in *.
  assert (Bd := integer_d). assert (Bn := integer_index).
  assert (E : Rabs (val S / val (astep s)) = IZR (Z.abs d) / IZR (Z.abs (sstep t))).
  { rewrite V2, Vs. unfold Rdiv. rewrite Rabs_mult, Rabs_inv, <- !abs_IZR. reflexivity. }
  assert (C1 : 1 <= IZR (Z.abs (sstep t))) by (apply IZR_le; clear - Ns; lia).
  assert (D0 : 0 <= IZR (Z.abs d)) by (apply IZR_le, Z.abs_nonneg).
  assert (I : 0 < / IZR (Z.abs (sstep t))) by (apply Rinv_0_lt_compat; lra).
  assert (Bq : Rabs (val S / val (astep s)) <= pow2 1023).
  { rewrite E. apply Rle_trans with (pow2 53); [|apply bpow_le; lia].
    apply Rle_trans with (IZR (Z.abs d)).
    - apply Rmult_le_reg_r with (IZR (Z.abs (sstep t))); [lra|]. unfold Rdiv. rewrite Rmult_assoc, Rinv_l, Rmult_1_r by lra. nra.
    - change (pow2 53) with (IZR (2 ^ 53)). apply IZR_le. clear - Bd. lia. }
  destruct (ddiv_ok S (astep s) F2 Nz (no_overflow _ Bq)) as [VQ FQ]. apply max_zero; [exact FQ| |clear - Bn; lia].
  destruct (Z_lt_le_dec (d * sstep t) 0) as [L|L].
  - assert (G : val S / val (astep s) <= 0).
    { rewrite V2, Vs. assert (Y : 0 < IZR (sstep t) * IZR (sstep t)) by (rewrite <- mult_IZR; apply IZR_lt; clear - Ns; nia).
      apply Rmult_le_reg_r with (1 := Y). replace (IZR d / IZR (sstep t) * (IZR (sstep t) * IZR (sstep t))) with (IZR d * IZR (sstep t)) by (field; rewrite Vs in Nz; exact Nz).
      rewrite Rmult_0_l, <- mult_IZR. apply IZR_le. clear - L. lia. }
    rewrite VQ, Rmax_left by (apply round_le_generic; [apply valid64|apply valid_rnd_N|apply generic_format_0|exact G]).
    rewrite Ztrunc_IZR. apply Z.max_l. now apply Qn.
  - assert (G : val S / val (astep s) = IZR (Z.abs d) / IZR (Z.abs (sstep t))).
    { rewrite <- E. symmetry. apply Rabs_pos_eq. rewrite V2, Vs.
      assert (Y : 0 < IZR (sstep t) * IZR (sstep t)) by (rewrite <- mult_IZR; apply IZR_lt; clear - Ns; nia).
      apply Rmult_le_reg_r with (1 := Y). replace (IZR d / IZR (sstep t) * (IZR (sstep t) * IZR (sstep t))) with (IZR d * IZR (sstep t)) by (field; rewrite Vs in Nz; exact Nz).
      rewrite Rmult_0_l, <- mult_IZR. apply IZR_le. clear - L. lia. }
    assert (P : 0 <= val (ddiv S (astep s))).
    { rewrite VQ, G. apply round_ge_generic; [apply valid64|apply valid_rnd_N|apply generic_format_0|]. apply Rmult_le_pos; lra. }
    rewrite Rmax_right by exact P. rewrite Ztrunc_floor by exact P. rewrite VQ, G, floor_quotient by (clear - Bd Bs Ns; lia).
    unfold n. rewrite (Qp L). apply Z.max_r, Z.div_pos; clear - Ns; lia.
Qed.

Lemma integer_current k : (0 <= k <= n)%Z -> (Z.abs (k * sstep t) <= 3 * 2 ^ 50)%Z.
Proof.
  intros K. destruct (quot_bound d (sstep t) Ns) as (Q & _). assert (Bd := integer_d). apply (scaled_small k (Z.abs (Z.quot d (sstep t)))).
  - split; [apply K|]. apply Z.le_trans with (1 := proj2 K). unfold n. now apply max_small.
  - now apply Z.le_trans with (1 := Q).
Qed.

Lemma integer_loop fuel : forall v k, (0 <= k <= n)%Z -> isInt v (sfront t + k * sstep t) ->
  match forLoop fuel (fun it => (snd it =? n)%Z) (axisNext s) (v, k), forLoop fuel (fun it => (snd it =? n)%Z) (snext t) ((sfront t + k * sstep t)%Z, k) with
  | None, None => True
  | Some (Ok l), Some (Ok l') => Forall2 (fun x y => Integral (fst x) (fst y)) l l'
  | _, _ => False
  end.
Proof.
  assert (N := integer_index). assert (CU := integer_current). clearbody n. induction fuel as [|fuel IH]; intros v k K V; cbn [forLoop snd]; [exact I|].
  destruct (Z.eqb_spec k n) as [->|D]; [constructor|].
  assert (B := CU (k + 1)%Z ltac:(lia)).
  assert (AX : axisNext s (v, k) = Ok (dadd v (dmul (astep s) (dofZ 1)), (k + 1)%Z)).
  { unfold axisNext, axisAdd. cbn [fst snd]. rewrite index_next by lia. reflexivity. }
  assert (SN : snext t ((sfront t + k * sstep t)%Z, k) = Ok ((sfront t + (k + 1) * sstep t)%Z, (k + 1)%Z)).
  { unfold snext. cbn [fst snd]. rewrite SamplingProofs.chk64_ok by lia. cbn [bind]. do 2 f_equal. lia. }
  rewrite AX, SN.
  assert (W : isInt (dadd v (dmul (astep s) (dofZ 1))) (sfront t + (k + 1) * sstep t)).
  { replace (sfront t + (k + 1) * sstep t)%Z with (sfront t + k * sstep t + sstep t * 1)%Z by lia.
    apply int_add; [exact V|apply int_mul; [exact Hs|apply int_ofZ; lia|lia]|lia]. }
  specialize (IH _ (k + 1)%Z ltac:(lia) W).
  set (X := forLoop fuel _ (axisNext s) _) in *. set (Y := forLoop fuel _ (snext t) _) in *. clearbody X Y.
  destruct X as [[l| |]|], Y as [[l'| |]|]; try exact IH.
  constructor; [exact V|exact IH].
Qed.

Lemma integer_run : axisSize s = ssize t /\ forall fuel, SameRun (axisForeach fuel s) (sforeach fuel t).
Proof.
  split; [now rewrite integer_ssize, integer_axisSize|]. intros fuel. unfold axisForeach, sforeach. rewrite integer_ssize, integer_axisSize.
  unfold axisIter, siter. rewrite Z.mul_0_r, Z.add_0_r. rewrite SamplingProofs.s64_id by (clear - Bf; lia).
  assert (V : isInt (dadd (afront s) (dmul (astep s) (dofZ 0))) (sfront t + 0 * sstep t)).
  { replace (0 * sstep t)%Z with (sstep t * 0)%Z by lia. apply int_add; [exact Hf|apply int_mul; [exact Hs|apply int_ofZ; clear; lia|clear; lia]|clear - Bf; lia]. }
  assert (L := integer_loop fuel _ 0%Z (conj (Z.le_refl 0) (proj1 integer_index)) V). replace (sfront t + 0 * sstep t)%Z with (sfront t) in L by lia.
  set (X := forLoop fuel _ (axisNext s) _) in *. set (Y := forLoop fuel _ (snext t) _) in *. clearbody X Y.
  destruct X as [[l| |]|], Y as [[l'| |]|]; try exact L.
  cbn [SameRun]. clear V. induction L; cbn [map]; constructor; auto.
Qed.
End Integers.

(** Witnesses *)
Lemma sampled_by fuel s L : axisForeach fuel s = Some (Ok L) -> Sampled s L.
Proof.
  assert (M : forall (atEnd : double * Z -> bool) next k f x l, forLoop f atEnd next x = Some (Ok l) -> forLoop (k + f) atEnd next x = Some (Ok l)).
  { intros atEnd next k f. revert k. induction f as [|f IH]; intros k x l H; [discriminate|]. replace (k + S f)%nat with (S (k + f)) by lia. cbn [forLoop] in *.
    destruct (atEnd x); [exact H|]. destruct (next x) as [y| |]; try discriminate. destruct (forLoop f atEnd next y) as [[m| |]|] eqn:E; try discriminate.
    rewrite (IH k y m E). exact H. }
  intros H. exists fuel. intros f Hf. unfold axisForeach in *. destruct (axisSize s) as [n| |]; try discriminate.
  destruct (forLoop fuel _ (axisNext s) (axisIter s 0)) as [[l| |]|] eqn:E; try discriminate.
  replace f with ((f - fuel) + fuel)%nat by lia. rewrite (M _ _ _ _ _ _ E). exact H.
Qed.

Lemma real_lt_dec x y : Finite x -> Finite y -> dltb x y = true -> real x < real y.
Proof. intros Fx Fy H. rewrite (dltb_val x y Fx Fy) in H. destruct (Rlt_dec (val x) (val y)); [assumption|discriminate]. Qed.
Lemma real_le_dec x y : Finite x -> Finite y -> dltb y x = false -> real x <= real y.
Proof. intros Fx Fy H. rewrite (dltb_val y x Fy Fx) in H. destruct (Rlt_dec (val y) (val x)); [discriminate|]. unfold real. lra. Qed.

Definition checkRun (fuel : nat) (s : axis) (f : list double -> bool) : bool := match axisForeach fuel s with Some (Ok L) => f L | _ => false end.
Lemma check_run fuel s f : checkRun fuel s f = true -> exists L, Sampled s L /\ f L = true.
Proof.
  unfold checkRun. destruct (axisForeach fuel s) as [[L| |]|] eqn:E; try discriminate. intros H. exists L. split; [now apply sampled_by with fuel|exact H].
Qed.

Lemma exceeds : exists L x, Sampled (mkAxis (dofZ 0) threeTenths tenth) L /\ In x L /\ Finite x /\ real threeTenths < real x.
Proof.
  destruct (check_run 5 (mkAxis (dofZ 0) threeTenths tenth) (fun L => Nat.eqb (length L) 4 && (fin (nth 3 L (dofZ 0)) && dltb threeTenths (nth 3 L (dofZ 0))))) as (L & S & C);
    [vm_compute; reflexivity|].
  apply andb_true_iff in C as [Len C]. apply Nat.eqb_eq in Len. apply andb_true_iff in C as [F D]. exists L, (nth 3 L (dofZ 0)).
  split; [exact S|]. split; [apply nth_In; lia|]. split; [exact F|]. apply real_lt_dec; [vm_compute; reflexivity|exact F|exact D].
Qed.

Lemma misses : exists L x, Sampled (mkAxis (dofZ 0) sevenTenths tenth) L /\ In x L /\
  Finite (dadd x tenth) /\ real (dadd x tenth) <= real sevenTenths /\ forall y, In y L -> real y < real (dadd x tenth).
Proof.
  destruct (check_run 8 (mkAxis (dofZ 0) sevenTenths tenth) (fun L => Nat.eqb (length L) 7 && (fin (dadd (nth 6 L (dofZ 0)) tenth) &&
    (negb (dltb sevenTenths (dadd (nth 6 L (dofZ 0)) tenth)) && forallb (fun y => fin y && dltb y (dadd (nth 6 L (dofZ 0)) tenth)) L)))) as (L & S & C);
    [vm_compute; reflexivity|].
  apply andb_true_iff in C as [Len C]. apply Nat.eqb_eq in Len. apply andb_true_iff in C as [F C]. apply andb_true_iff in C as [D A]. apply negb_true_iff in D.
  exists L, (nth 6 L (dofZ 0)). split; [exact S|]. split; [apply nth_In; lia|]. split; [exact F|].
  split; [apply real_le_dec; [exact F|vm_compute; reflexivity|exact D]|].
  intros y Hy. rewrite forallb_forall in A. apply A in Hy. apply andb_true_iff in Hy as [Fy Ly]. now apply real_lt_dec.
Qed.

Lemma stuck : exists L, Sampled (mkAxis (dofZ (2 ^ 53)) (dofZ (2 ^ 53 + 4)) (dofZ 1)) L /\ length L = 5%nat /\
  forall x, In x L -> real x = IZR (2 ^ 53).
Proof.
  assert (F0 : fin (dofZ (2 ^ 53)) = true) by (vm_compute; reflexivity).
  destruct (check_run 6 (mkAxis (dofZ (2 ^ 53)) (dofZ (2 ^ 53 + 4)) (dofZ 1)) (fun L => Nat.eqb (length L) 5 &&
    forallb (fun y => fin y && (negb (dltb y (dofZ (2 ^ 53))) && negb (dltb (dofZ (2 ^ 53)) y))) L)) as (L & S & C); [vm_compute; reflexivity|].
  apply andb_true_iff in C as [Len C]. apply Nat.eqb_eq in Len. exists L. split; [exact S|]. split; [exact Len|].
  intros x Hx. rewrite forallb_forall in C. apply C in Hx. apply andb_true_iff in Hx as [C1 Hx]. apply andb_true_iff in Hx as [C2 C3].
  apply negb_true_iff in C2, C3. destruct (dofZ_small (2 ^ 53) ltac:(lia)) as [V _].
  assert (L1 := real_le_dec (dofZ (2 ^ 53)) x F0 C1 C2). assert (L2 := real_le_dec x (dofZ (2 ^ 53)) C1 F0 C3). unfold real in *. rewrite V in *. lra.
Qed.

Lemma default_axis : axisSize axisDefault = UB.
Proof. vm_compute. reflexivity. Qed.

Lemma count_witness : let s := mkAxis (dofZ 0) (dofZ 1) tenth in exactCount s = 10%Z /\ axisSize s = Ok 11%Z.
Proof.
  cbv zeta. split; [|vm_compute; reflexivity]. destruct (dlit_exact 7205759403792794 (-56) ltac:(lia) ltac:(lia)) as [_ V].
  unfold exactCount. cbn [afront aback astep]. unfold tenth, real. rewrite V, (proj1 (dofZ_small 0 ltac:(lia))), (proj1 (dofZ_small 1 ltac:(lia))).
  change (pow2 (-56)) with (/ 72057594037927936).
  change 10%Z with (9 + 1)%Z. f_equal. apply Zfloor_imp.
  set (x := 7205759403792794 * / 72057594037927936). assert (X : 1 / 10 < x < 1 / 9) by (unfold x; lra). clearbody x.
  assert (I : 0 < / x) by (apply Rinv_0_lt_compat; lra).
  split; [apply Rmult_le_reg_r with x; [lra|]|apply Rmult_lt_reg_r with x; [lra|]]; unfold Rdiv; rewrite Rmult_assoc, Rinv_l by lra. all: change (IZR (9 + 1)) with 10 || idtac; lra.
Qed.

(** Moves *)
Lemma moved n z v i s : isInt n z -> (0 <= i <= 2 ^ 53)%Z -> (Z.abs (i + z) <= 2 ^ 53)%Z ->
  axisAdd s n (v, i) = if (0 <=? i + z)%Z then Ok (dadd v (dmul (astep s) n), (i + z)%Z) else UB.
Proof.
  intros Hn Hi B. unfold axisAdd. cbn [fst snd]. assert (J := int_add _ _ _ _ (int_ofZ i ltac:(lia)) Hn B). destruct (Z.leb_spec 0 (i + z)) as [P|P].
  - rewrite (size_int _ _ J) by lia. reflexivity.
  - destruct (dtruncTo sizeType (dadd (dofZ i) n)) as [j| |] eqn:E; [|exfalso|reflexivity].
    + apply size_trunc in E as (_ & E & R). unfold real in E. rewrite (proj2 J), Ztrunc_IZR in E. lia.
    + destruct (dadd (dofZ i) n) as [q|q| |q m e0 H]; cbn [dtruncTo] in E; try discriminate. destruct (WidthModel.fits _ _); discriminate.
Qed.
Lemma moves s v i n z : Integral n z -> (0 <= i <= 2 ^ 53)%Z ->
  ((Z.abs (i + z) <= 2 ^ 53)%Z -> axisAdd s n (v, i) = if (0 <=? i + z)%Z then Ok (dadd v (dmul (astep s) n), (i + z)%Z) else UB) /\
  ((Z.abs (i - z) <= 2 ^ 53)%Z -> axisSub s n (v, i) = if (0 <=? i - z)%Z then Ok (dadd v (dmul (astep s) (dopp n)), (i - z)%Z) else UB).
Proof.
  intros Hn Hi. split; intros B; [now apply moved|]. unfold axisSub. apply (moved (dopp n) (- z)); auto. now apply int_opp.
Qed.
Lemma half_moves : let s := mkAxis (dofZ 0) (dofZ 9) (dofZ 2) in
  exists it, axisAdd s (dlit 1 (-1)) (dofZ 6, 3%Z) = Ok it /\ real (fst it) = 7 /\ snd it = 3%Z.
Proof.
  cbv zeta. exists (dadd (dofZ 6) (dmul (dofZ 2) (dlit 1 (-1))), 3%Z). cbn [fst snd]. split; [|split; [|reflexivity]].
  - unfold axisAdd. cbn [fst snd astep]. replace (dtruncTo sizeType (dadd (dofZ 3) (dlit 1 (-1)))) with (Ok 3%Z) by (vm_compute; reflexivity). reflexivity.
  - unfold real. rewrite (same_value _ (dofZ 7)) by (vm_compute; reflexivity). apply (proj1 (dofZ_small 7 ltac:(lia))).
Qed.
