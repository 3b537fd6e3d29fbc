(** Balls of floating-point radius. *)
From Coq Require Import Reals Lra Sorted.
From Flocq Require Import Core Relative IEEE754.BinarySingleNaN.
From Verif Require Import Res VecModel BoxModel BallModel FloatModel BallFloatModel Spec SamplingSpec FloatSpec BallFloatSpec.
From Verif Require Import Lemmas BoxIterProofs BoxGeomProofs BallProofs FloatProofs.

Local Existing Instance hprec.
Local Existing Instance hmax.
Open Scope R_scope.

Lemma Faithful_exact y x z : Faithful y x -> Finite z -> real z = y -> real x = y.
Proof. intros (F & L & U) Fz E. specialize (L z Fz). specialize (U z Fz). lra. Qed.

Lemma Faithful_int y x k : (Z.abs k <= 2 ^ 53)%Z -> Faithful y x -> IZR k <= y -> IZR k <= real x.
Proof. intros H (F & L & U) E. destruct (dofZ_small k H) as [V FV]. rewrite <- V in *. apply L; auto. Qed.

Lemma Faithful_int_eq k x : (Z.abs k <= 2 ^ 53)%Z -> Faithful (IZR k) x -> real x = IZR k.
Proof. intros H HF. destruct (dofZ_small k H) as [V FV]. eapply Faithful_exact; eauto. Qed.

Lemma small_max z : (Z.abs z <= 2 ^ 53)%Z -> IZR z <= maxDouble.
Proof.
  intros H. apply Rle_trans with (IZR (2 ^ 53)); [apply IZR_le; lia|].
  unfold maxDouble. apply Rle_trans with (IZR (2 ^ 53 - 1) * pow2 1).
  - change (pow2 1) with 2. rewrite <- mult_IZR. apply IZR_le. lia.
  - apply Rmult_le_compat_l; [apply IZR_le; lia|]. apply bpow_le. lia.
Qed.

Lemma IZR_pow x P : (0 <= P)%Z -> IZR x ^ Z.to_nat P = IZR (x ^ P).
Proof. intros H. rewrite pow_IZR. now rewrite Z2Nat.id. Qed.

Section Ball.
Variables (P : Z) (pow : double -> double).
Hypothesis HP : (0 < P)%Z.
Hypothesis Hpow : PowerOf P pow.

(** One coordinate *)
Lemma pow_int d k : (0 <= k <= 2 ^ 53)%Z -> (k ^ P <= 2 ^ 53)%Z -> Finite d -> real d = IZR k -> Finite (pow d) /\ real (pow d) = IZR (k ^ P).
Proof.
  intros Hk Hp Fd E. assert (0 <= k ^ P)%Z by (apply Z.pow_nonneg; lia).
  assert (HF : Faithful (real d ^ Z.to_nat P) (pow d)).
  { apply Hpow; auto; rewrite E; [apply IZR_le; lia|]. rewrite IZR_pow by lia. apply small_max. lia. }
  rewrite E, IZR_pow in HF by lia. split; [apply HF|]. apply Faithful_int_eq; [lia|exact HF].
Qed.

Lemma coordinate x y : (Z.abs x <= 2 ^ 53)%Z -> (Z.abs y <= 2 ^ 53)%Z -> (Z.abs (x - y) <= 2 ^ 53)%Z ->
  Finite (dabs (dsub (dofZ y) (dofZ x))) /\ real (dabs (dsub (dofZ y) (dofZ x))) = IZR (Z.abs (x - y)).
Proof.
  intros Hx Hy Hd. destruct (dofZ_small x Hx) as [Vx Fx]. destruct (dofZ_small y Hy) as [Vy Fy].
  assert (R0 : rnd (val (dofZ y) - val (dofZ x)) = IZR (y - x)).
  { rewrite Vx, Vy, <- minus_IZR. apply round_generic; [apply valid_rnd_N|]. apply F64_small. lia. }
  destruct (dsub_ok _ _ Fy Fx) as [V F].
  { rewrite R0, <- abs_IZR. apply Rle_lt_trans with (IZR (2 ^ 53)); [apply IZR_le; lia|]. rewrite (IZR_Zpower radix2) by lia. apply bpow_lt. lia. }
  unfold Finite, real, dabs. rewrite is_finite_Babs, B2R_Babs, V, R0, <- abs_IZR. split; [exact F|]. f_equal. lia.
Qed.

Lemma add_int a b j k : Finite a -> Finite b -> real a = IZR j -> real b = IZR k -> (Z.abs (j + k) <= 2 ^ 53)%Z ->
  Finite (dadd a b) /\ real (dadd a b) = IZR (j + k).
Proof.
  intros Fa Fb Ea Eb H. unfold Finite, real in *.
  assert (R0 : rnd (val a + val b) = IZR (j + k)).
  { rewrite Ea, Eb, <- plus_IZR. apply round_generic; [apply valid_rnd_N|]. now apply F64_small. }
  destruct (dadd_ok _ _ Fa Fb) as [V F].
  { rewrite R0, <- abs_IZR. apply Rle_lt_trans with (IZR (2 ^ 53)); [apply IZR_le; lia|]. rewrite (IZR_Zpower radix2) by lia. apply bpow_lt. lia. }
  split; [exact F|]. now rewrite V.
Qed.

Lemma dballDist_exact k : (0 <= k <= 2 ^ 52)%Z -> forall p c acc j,
  length p = length c -> Forall (fun x => (Z.abs x <= 2 ^ 52)%Z) c -> Between (vsubs c k) (vadds c k) p ->
  Finite acc -> real acc = IZR j -> (0 <= j)%Z -> (j + Z.of_nat (length c) * k ^ P <= 2 ^ 53)%Z ->
  Finite (dballDist pow acc p c) /\ real (dballDist pow acc p c) = IZR (j + distancePower P p c) /\
  (j + distancePower P p c <= 2 ^ 53)%Z.
Proof.
  intros Hk. induction p as [|x p IH]; intros [|y c] acc j Hl Hc HB Fa Ea Hj Hs; cbn in Hl; try discriminate.
  - unfold distancePower. cbn [dballDist combine map fold_right]. rewrite Z.add_0_r. cbn [length] in Hs. repeat split; auto. lia.
  - cbn [dballDist]. cbn [vsubs vadds map] in HB. inversion HB as [|? ? ? ? ? ? Hx HB']; subst. inversion Hc as [|? ? Hy Hc']; subst.
    cbn [length] in Hs. assert (K0 : (0 <= k ^ P)%Z) by (apply Z.pow_nonneg; lia).
    assert (Hd : (0 <= Z.abs (x - y) <= k)%Z) by lia.
    assert (Hq : (0 <= Z.abs (x - y) ^ P <= k ^ P)%Z) by (split; [apply Z.pow_nonneg; lia|apply Z.pow_le_mono_l; lia]).
    destruct (coordinate x y ltac:(lia) ltac:(lia) ltac:(lia)) as [F1 E1].
    destruct (pow_int _ (Z.abs (x - y)) ltac:(lia) ltac:(nia) F1 E1) as [F2 E2].
    destruct (add_int _ _ _ _ Fa F2 Ea E2 ltac:(nia)) as [F3 E3].
    change (distancePower P (x :: p) (y :: c)) with (Z.abs (x - y) ^ P + distancePower P p c)%Z.
    rewrite Z.add_assoc. apply IH; auto; nia.
Qed.

Lemma distancePower_R p c r : length p = length c -> 0 <= r -> IZR (distancePower P p c) <= r ^ Z.to_nat P ->
  forall k, r < IZR k + 1 -> Between (vsubs c k) (vadds c k) p.
Proof.
  intros Hl Hr H k Hk. revert c Hl H. induction p as [|x p IH]; intros [|y c] Hl H; cbn in Hl; try discriminate; [constructor|].
  assert (E : distancePower P (x :: p) (y :: c) = (Z.abs (x - y) ^ P + distancePower P p c)%Z) by reflexivity. rewrite E in H.
  assert (N1 : (0 <= Z.abs (x - y) ^ P)%Z) by (apply Z.pow_nonneg; lia). assert (N2 := distancePower_nonneg P p c HP).
  rewrite plus_IZR in H. apply IZR_le in N1, N2. cbn [vsubs vadds map]. constructor.
  - assert (B : IZR (Z.abs (x - y)) < IZR (k + 1)).
    { destruct (Rle_or_lt (IZR (k + 1)) (IZR (Z.abs (x - y)))) as [L|L]; [exfalso|exact L]. rewrite plus_IZR in L.
      assert (Lt : r ^ Z.to_nat P < IZR (Z.abs (x - y)) ^ Z.to_nat P).
      { destruct (Z.to_nat P) as [|n] eqn:En; [lia|]. clear -Hr Hk L. assert (L' : r < IZR (Z.abs (x - y))) by lra.
        revert Hr L'. generalize (IZR (Z.abs (x - y))) as b. intros b Hr Hb. induction n as [|n IH]; [cbn; lra|].
        cbn [Rpow_def.pow] in *. assert (0 <= r ^ n) by (now apply pow_le). apply Rle_lt_trans with (r * (b * b ^ n)); [apply Rmult_le_compat_l; lra|].
        apply Rmult_lt_compat_r; [|exact Hb]. assert (0 <= r * r ^ n) by (apply Rmult_le_pos; lra). lra. }
      rewrite IZR_pow in Lt by lia. lra. }
    apply lt_IZR in B. lia.
  - apply IH; [lia|lra].
Qed.

Lemma trunc_bounds r z : Finite r -> 0 <= real r -> dtrunc r = Ok z -> (0 <= z)%Z /\ IZR z <= real r < IZR z + 1.
Proof. intros F H E. destruct (dtrunc_ok r z F H E) as (B & _ & _ & D). unfold real in *. split; [lia|lra]. Qed.

Lemma dball_loop r c : c <> [] -> Finite r -> 0 <= real r -> Representable P (real r) c ->
  Faithful (real r ^ Z.to_nat P) (pow r) /\
  exists L, NoDup L /\ StronglySorted lexLt L /\
    (exists enough, forall fuel, (enough <= fuel)%nat -> dballForeach pow fuel (mkDball r c) = Some (Ok L)) /\
    (forall p, In p L -> (0 <= distancePower P p c <= 2 ^ 53)%Z) /\
    forall p, In p L <-> length p = length c /\ IZR (distancePower P p c) <= real (pow r) /\ exists k, (0 <= k)%Z /\ IZR k <= real r < IZR k + 1 /\ Between (vsubs c k) (vadds c k) p.
Proof.
  intros Hc Fr Hr (Hco & Hr2 & Hn).
  destruct (dtrunc_total r Fr) as (k & Ek & _).
  { unfold real in *. rewrite Rabs_pos_eq by exact Hr. apply Rle_lt_trans with (1 := Hr2). rewrite (IZR_Zpower radix2) by lia. apply bpow_lt. lia. }
  destruct (trunc_bounds r k Fr Hr Ek) as [Hk Hkr].
  assert (Hk52 : (k <= 2 ^ 52)%Z) by (apply le_IZR; lra).
  assert (Hkp : (Z.of_nat (length c) * k ^ P <= 2 ^ 53)%Z).
  { apply le_IZR. apply Rle_trans with (2 := Hn). rewrite mult_IZR, <- INR_IZR_INZ. apply Rmult_le_compat_l; [apply pos_INR|].
    rewrite <- IZR_pow by lia. apply pow_incr. split; [apply IZR_le; lia|lra]. }
  assert (HF : Faithful (real r ^ Z.to_nat P) (pow r)).
  { apply Hpow; auto. apply Rle_trans with (2 := small_max (2 ^ 53) ltac:(lia)). apply Rle_trans with (2 := Hn).
    rewrite <- (Rmult_1_l (real r ^ _)) at 1. apply Rmult_le_compat_r; [now apply pow_le|]. change 1 with (INR 1). apply le_INR. destruct c; [congruence|cbn; lia]. }
  split; [exact HF|].
  assert (HD : forall p, Between (vsubs c k) (vadds c k) p -> length p = length c /\ (0 <= distancePower P p c <= 2 ^ 53)%Z /\
    (negb (dballOut pow (mkDball r c) p) = true <-> IZR (distancePower P p c) <= real (pow r))).
  { intros p HB. assert (Hl : length p = length c) by (apply Between_length in HB as [HB _]; unfold vsubs in HB; rewrite map_length in HB; lia).
    destruct (dofZ_small 0 ltac:(lia)) as [V0 F0].
    destruct (dballDist_exact k ltac:(lia) p c (dofZ 0) 0%Z Hl Hco HB F0 V0 ltac:(lia) ltac:(lia)) as (F & V & B).
    rewrite Z.add_0_l in *. split; [exact Hl|]. split; [split; [now apply distancePower_nonneg|exact B]|].
    unfold dballOut. cbn [dbradius dbcenter]. destruct HF as (Fp & _). unfold dltb. rewrite (Bcompare_correct 53 1024 _ _ Fp F).
    unfold real in *. rewrite V. destruct (Rcompare_spec (val (pow r)) (IZR (distancePower P p c))) as [L|L|L]; cbn; split; intros; auto; try discriminate; lra. }
  exists (filter (fun p => negb (dballOut pow (mkDball r c) p)) (positions (vsubs c k) (vadds c k))).
  split; [apply NoDup_filter, positions_NoDup|]. split; [apply filter_sorted, positions_sorted|]. split; [|split].
  - exists (S (length (positions (vsubs c k) (vadds c k)))). intros fuel Hf. unfold dballForeach, dballBox. cbn [dbradius dbcenter]. rewrite Ek. cbn [bind].
    unfold fromCenter. apply regionForeach_eq; [destruct c; [congruence|discriminate]|now apply centered_nonempty|lia].
  - intros p Hp. apply filter_In in Hp as [Hp _]. apply In_positions in Hp. now apply HD.
  - intros p. rewrite filter_In, In_positions. split.
    + intros [HB HO]. destruct (HD p HB) as (Hl & _ & HI). split; [exact Hl|]. split; [now apply HI|]. exists k. auto.
    + intros (Hl & HO & k' & Hk' & Hkr' & HB). assert (k' = k) as ->.
      { assert (IZR k' < IZR (k + 1)) as A1 by (rewrite plus_IZR; lra). assert (IZR k < IZR (k' + 1)) as A2 by (rewrite plus_IZR; lra). apply lt_IZR in A1, A2. lia. }
      split; [exact HB|]. now apply HD.
Qed.
End Ball.

(** Every real of the format is a double. *)
Lemma F64_double x : F64 x -> Rabs x < pow2 1024 -> exists z, Finite z /\ real z = x.
Proof.
  intros Fx L. set (m := Ztrunc (scaled_mantissa radix2 fexp64 x)). set (e := cexp radix2 fexp64 x).
  exists (dlit m e). assert (C := binary_normalize_correct 53 1024 hprec hmax mode_NE m e false). cbv zeta in C. cbn [round_mode] in C.
  assert (E : F2R (Float radix2 m e) = x) by (symmetry; exact Fx). rewrite E in C.
  rewrite (round_generic radix2 fexp64 ZnearestE x Fx) in C. rewrite (rlt_true _ _ L) in C. unfold Finite, real, dlit. tauto.
Qed.

Lemma below_int k y x : (1 <= k <= 2 ^ 53)%Z -> Faithful y x -> y < IZR k * (1 - pow2 (-52)) -> real x < IZR k.
Proof.
  intros Hk HF Hy. set (y' := IZR k * (1 - pow2 (-52))) in *.
  assert (P52 : 0 < pow2 (-52) <= / 2).
  { split; [apply bpow_gt_0|]. apply Rle_trans with (pow2 (-1)); [apply bpow_le; lia|]. right. reflexivity. }
  assert (K1 : 1 <= IZR k) by (apply IZR_le; lia).
  assert (K2 : IZR k <= IZR (2 ^ 53)) by (apply IZR_le; lia).
  assert (Y1 : / 2 <= y') by (unfold y'; nra). assert (Y2 : y' <= IZR k) by (unfold y'; nra).
  assert (R0 := relative_error_FLT radix2 (-1074) 53 ltac:(lia) Zceil y'). cbn [IZR] in R0.
  assert (B : pow2 (-1074 + 53 - 1) <= Rabs y').
  { rewrite Rabs_pos_eq by lra. apply Rle_trans with (2 := Y1). apply Rle_trans with (pow2 (-1)); [apply bpow_le; lia|right; reflexivity]. }
  specialize (R0 B). change (- (53) + 1)%Z with (-52)%Z in R0.
  set (z := round radix2 (FLT_exp (-1074) 53) Zceil y') in *. rewrite (Rabs_pos_eq y') in R0 by lra.
  assert (Hz : y' <= z) by (apply round_UP_pt; apply FLT_exp_valid; exact hprec).
  rewrite Rabs_pos_eq in R0 by lra.
  assert (Hzk : z < IZR k).
  { apply Rlt_le_trans with (y' * (1 + pow2 (-52))); [lra|]. unfold y'. nra. }
  destruct (F64_double z) as (d & Fd & Ed).
  { apply generic_format_round; [apply (FLT_exp_valid (-1074) 53)|apply valid_rnd_UP]. }
  { rewrite Rabs_pos_eq by lra. apply Rlt_le_trans with (IZR (2 ^ 53)); [lra|]. rewrite (IZR_Zpower radix2) by lia. apply bpow_le. lia. }
  destruct HF as (_ & _ & U). specialize (U d Fd). lra.
Qed.

Lemma dball_iteration P pow r c : (0 < P)%Z -> PowerOf P pow -> c <> [] -> Finite r -> 0 <= real r -> Representable P (real r) c ->
  exists L, NoDup L /\ StronglySorted lexLt L /\
    (exists enough, forall fuel, (enough <= fuel)%nat -> dballForeach pow fuel (mkDball r c) = Some (Ok L)) /\
    (forall p, WithinRadius P (real r) c p -> In p L) /\
    (forall p, In p L -> length p = length c /\ IZR (distancePower P p c) * (1 - pow2 (-52)) <= real r ^ Z.to_nat P).
Proof.
  intros HP Hpow Hc Fr Hr HR. destruct (dball_loop P pow HP Hpow r c Hc Fr Hr HR) as (HF & L & N & S & F & B & I).
  exists L. split; [exact N|]. split; [exact S|]. split; [exact F|]. split.
  - intros p [Hl Hd]. apply I. split; [exact Hl|].
    destruct HR as (_ & Hr2 & Hn). 
    assert (Hd53 : (0 <= distancePower P p c <= 2 ^ 53)%Z).
    { split; [now apply distancePower_nonneg|]. apply le_IZR. apply Rle_trans with (1 := Hd). apply Rle_trans with (2 := Hn).
      rewrite <- (Rmult_1_l (real r ^ _)) at 1. apply Rmult_le_compat_r; [now apply pow_le|]. change 1 with (INR 1). apply le_INR. destruct c; [congruence|cbn; lia]. }
    split; [refine (Faithful_int _ _ _ _ HF Hd); lia|].
    destruct (dtrunc_total r Fr) as (k & Ek & _).
    { unfold real in *. rewrite Rabs_pos_eq by exact Hr. apply Rle_lt_trans with (1 := Hr2). rewrite (IZR_Zpower radix2) by lia. apply bpow_lt. lia. }
    destruct (trunc_bounds r k Fr Hr Ek) as [Hk Hkr]. exists k. split; [exact Hk|]. split; [exact Hkr|].
    apply (distancePower_R P HP p c (real r) Hl Hr Hd). lra.
  - intros p Hp. pose proof (B p Hp) as Bp. apply I in Hp. destruct Hp as (Hl & Hd & _). split; [exact Hl|].
    destruct (Z.eq_dec (distancePower P p c) 0) as [E|E]; [rewrite E, Rmult_0_l; now apply pow_le|].
    destruct (Rle_or_lt (IZR (distancePower P p c) * (1 - pow2 (-52))) (real r ^ Z.to_nat P)) as [|L0]; [assumption|exfalso].
    apply (fun H => below_int _ _ _ H HF) in L0; [lra|lia].
Qed.

(** If the P-th power of the radius is a double, then the iteration is exact. *)
Lemma dball_exact P pow r c z : (0 < P)%Z -> PowerOf P pow -> c <> [] -> Finite r -> 0 <= real r -> Representable P (real r) c ->
  Finite z -> real z = real r ^ Z.to_nat P ->
  exists L, NoDup L /\ StronglySorted lexLt L /\ (forall p, In p L <-> WithinRadius P (real r) c p) /\
    exists enough, forall fuel, (enough <= fuel)%nat -> dballForeach pow fuel (mkDball r c) = Some (Ok L).
Proof.
  intros HP Hpow Hc Fr Hr HR Fz Ez. destruct (dball_loop P pow HP Hpow r c Hc Fr Hr HR) as (HF & L & N & S & F & B & I).
  destruct (dball_iteration P pow r c HP Hpow Hc Fr Hr HR) as (L' & _ & _ & [n' F'] & I' & _).
  destruct F as [n F]. assert (L' = L) as ->.
  { specialize (F (Nat.max n n') ltac:(lia)). specialize (F' (Nat.max n n') ltac:(lia)). congruence. }
  exists L. split; [exact N|]. split; [exact S|]. split; [|eauto]. intros p. split; [|apply I'].
  intros Hp. apply I in Hp. destruct Hp as (Hl & Hd & _). split; [exact Hl|]. now rewrite (Faithful_exact _ _ _ HF Fz Ez) in Hd.
Qed.

(** The identity, and the product rounded to nearest. *)
Lemma PowerOf_1 : PowerOf 1 (fun x => x).
Proof.
  intros x F H _. change (Z.to_nat 1) with 1%nat. rewrite pow_1. split; [exact F|]. split; auto.
Qed.

Lemma maxDouble_lt : maxDouble < pow2 1024.
Proof.
  unfold maxDouble. replace 1024%Z with (53 + 971)%Z by lia. rewrite bpow_plus. apply Rmult_lt_compat_r; [apply bpow_gt_0|].
  rewrite <- (IZR_Zpower radix2) by lia. apply IZR_lt. cbn. lia.
Qed.

Lemma F64_max : F64 maxDouble.
Proof. apply (generic_format_FLT radix2 (-1074) 53). exists (Float radix2 (2 ^ 53 - 1) 971); cbn; [reflexivity|lia|lia]. Qed.

Lemma PowerOf_2 : PowerOf 2 (fun x => dmul x x).
Proof.
  intros x F H M. change (Z.to_nat 2) with 2%nat in *. replace (real x ^ 2) with (real x * real x) in * by ring.
  unfold Finite, real in *.
  assert (R1 : 0 <= rnd (val x * val x) <= maxDouble).
  { split; [apply round_ge_generic; [apply valid64|apply valid_rnd_N|apply generic_format_0|nra]|].
    apply round_le_generic; [apply valid64|apply valid_rnd_N|apply F64_max|exact M]. }
  destruct (dmul_ok x x F F) as [V FV].
  { rewrite Rabs_pos_eq by lra. pose proof maxDouble_lt. lra. }
  split; [exact FV|]. unfold real. rewrite V. split; intros z Fz Hz.
  - apply round_ge_generic; [apply valid64|apply valid_rnd_N|apply F64_val|exact Hz].
  - apply round_le_generic; [apply valid64|apply valid_rnd_N|apply F64_val|exact Hz].
Qed.

Definition root41 : double := dlit 7209276982427392 (-50).

Lemma root41_val : Finite root41 /\ real root41 = IZR 7209276982427392 * / IZR (2 ^ 50).
Proof.
  split; [reflexivity|]. unfold real. rewrite <- (SF2R_B2SF 53 1024 root41).
  assert (E : B2SF root41 = SpecFloat.S754_finite false 7209276982427392 (-50)) by (vm_compute; reflexivity).
  rewrite E. unfold SF2R, F2R. cbn [Fnum Fexp SpecFloat.cond_Zopp]. reflexivity.
Qed.

Definition visits41 : list (list Z) :=
  match dballForeach (fun x => dmul x x) 200 (mkDball root41 [0; 0]%Z) with Some (Ok L) => L | _ => [] end.
Lemma visits41_ok : dballForeach (fun x => dmul x x) 200 (mkDball root41 [0; 0]%Z) = Some (Ok visits41).
Proof. vm_compute. reflexivity. Qed.
Lemma visits41_in : In [4; 5]%Z visits41.
Proof.
  assert (E : existsb (veqb [4; 5]%Z) visits41 = true) by (vm_compute; reflexivity).
  apply existsb_exists in E. destruct E as (p & Hp & E). apply veqb_spec in E. rewrite E. exact Hp.
Qed.

Lemma dball_refuted : exists pow r c L p, PowerOf 2 pow /\ Finite r /\ 0 <= real r /\ Representable 2 (real r) c /\
  dballForeach pow 200 (mkDball r c) = Some (Ok L) /\ In p L /\ ~ WithinRadius 2 (real r) c p.
Proof.
  exists (fun x => dmul x x), root41, [0; 0]%Z, visits41, [4; 5]%Z. destruct root41_val as [F V].
  split; [exact PowerOf_2|]. split; [exact F|].
  assert (V2 : 0 <= real root41 /\ real root41 * real root41 < 41) by (rewrite V; change (2 ^ 50)%Z with 1125899906842624%Z; lra).
  split; [lra|]. split; [split; [repeat constructor; lia|]|].
  - split; [apply Rle_trans with (IZR 7); [nra|apply IZR_le; lia]|]. cbn [length INR]. change (Z.to_nat 2) with 2%nat. replace (real root41 ^ 2) with (real root41 * real root41) by ring.
    apply Rle_trans with (IZR 82); [lra|apply IZR_le; lia].
  - split; [exact visits41_ok|]. split; [exact visits41_in|].
    intros [_ H]. change (Z.to_nat 2) with 2%nat in H. replace (real root41 ^ 2) with (real root41 * real root41) in H by ring.
    change (distancePower 2 [4; 5]%Z [0; 0]%Z) with 41%Z in H. lra.
Qed.
