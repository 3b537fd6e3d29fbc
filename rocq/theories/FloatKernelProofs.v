(** Rounding of the correlations. *)
From Coq Require Import Reals Lra.
From Flocq Require Import Core IEEE754.BinarySingleNaN.
From Verif Require Import Res Lemmas Spec KernelSpec SeparableSpec VecModel BoxModel RasterModel SamplingModel LineKernelModel SeparableModel FloatModel FloatSpec.
From Verif Require Import SeparableProofs MixedProofs FloatProofs QuantileProofs FloatKernelModel FloatKernelSpec.

Local Existing Instance hprec.
Local Existing Instance hmax.
Local Existing Instance valid64.
Open Scope R_scope.

(** ** Simulation of exact correlations: [R n] relates the partial sums over the first [n] values of the kernel at most *)

Section Simulation.
Context (k : list double) (l : list Z) (RX : double -> Z -> Prop) (R : nat -> double -> Z -> Prop).
Hypothesis Hlen : length k = length l.
Hypothesis Hzero : R 0 (dofZ 0) 0%Z.
Hypothesis Hmono : forall n m a b, (n <= m <= length k)%nat -> R n a b -> R m a b.
Hypothesis Hstep : forall n acc acc0 v w x y, nth_error k n = Some v -> nth_error l n = Some w -> RX x y -> R n acc acc0 ->
  R (S n) (dadd acc (dmul v x)) (acc0 + w * y)%Z.

Lemma inner_simD mem mem' stride : Forall2 RX mem mem' -> forall n m a b acc acc0, (m <= length k)%nat -> (a < 0 \/ Z.of_nat m <= a)%Z -> R m acc acc0 ->
  rrel False (R (length k)) (innerLoopD n k mem a b stride acc) (innerLoop n l mem' a b stride acc0).
Proof.
  intros HM. induction n as [|n IH]; intros m a b acc acc0 Hm Ha HR; cbn [innerLoopD innerLoop].
  - exists acc0. split; [reflexivity|]. apply (Hmono m); auto.
  - destruct (zget k a) as [v|x|] eqn:Ev.
    + assert (Ra := zget_range _ _ _ Ev). destruct (zget_In l a ltac:(lia)) as (w & Ew & _). rewrite Ew. cbn [bind].
      apply (rrel_bind False RX); [apply (rrel_weaken _ RX); auto; now apply forall2_get|]. intros x y Hxy.
      apply zget_ok in Ev. destruct Ev as [_ Ev]. apply zget_ok in Ew. destruct Ew as [_ Ew].
      apply (IH (S (Z.to_nat a))); [lia|lia|]. eapply Hstep; eauto. apply (Hmono m); auto; lia.
    + exfalso. unfold zget in Ev. destruct (a <? 0)%Z; [discriminate|]. destruct (nth_error k _); discriminate.
    + destruct (zget l a) as [w|x|] eqn:Ew; [| |now left].
      * exfalso. apply zget_range in Ew. destruct (zget_In k a ltac:(lia)) as (v & E & _). congruence.
      * exfalso. unfold zget in Ew. destruct (a <? 0)%Z; [discriminate|]. destruct (nth_error l _); discriminate.
Qed.

Lemma product_simD mem mem' first last b stride : Forall2 RX mem mem' ->
  rrel False (R (length k)) (innerProductD k mem first last b stride) (innerProduct l mem' first last b stride 0).
Proof. intros H. unfold innerProductD, innerProduct. destruct (last <? first)%Z; [now left|]. apply (inner_simD _ _ _ H _ 0%nat); auto; lia. Qed.

Definition crelD (s : dcstate) (s' : cstate) : Prop := dci s = ci s' /\ dcin s = cin s' /\ dcout s = cout s' /\ Forall2 (R (length k)) (dcmem s) (cmem s').

Lemma loop_simD cond value value' st istride ostride : (forall i it, rrel False (R (length k)) (value i it) (value' i it)) ->
  forall fuel s s', crelD s s' -> orel False crelD (corrLoopD fuel cond value st istride ostride s) (corrLoop fuel cond value' st istride ostride s').
Proof.
  intros HV. induction fuel as [|fuel IH]; intros s s' (E1 & E2 & E3 & HM); cbn [corrLoopD corrLoop]; [reflexivity|].
  rewrite <- E1, <- E2, <- E3. destruct (cond (dci s)).
  - pose proof (HV (dci s) (dcin s)) as V. destruct (value (dci s) (dcin s)) as [v|x|]; cbn [rrel] in V.
    + destruct V as (v' & -> & V). pose proof (forall2_set _ _ _ (dcout s) v v' HM V) as Z. destruct (zset (dcmem s) (dcout s) v) as [m|x|]; cbn [rrel] in Z.
      * destruct Z as (m' & -> & Z). apply IH. repeat split; cbn [dci dcin dcout dcmem ci cin cout cmem]; auto.
      * now rewrite Z.
      * destruct Z as [->|[]]. now left.
    + now rewrite V.
    + destruct V as [->|[]]. now left.
  - cbn [orel]. exists s'. repeat split; auto.
Qed.

Lemma correlate_simD fuel o mem mem' din mout mout' dout : Forall2 RX mem mem' -> Forall2 (R (length k)) mout mout' ->
  orel False (Forall2 (R (length k))) (correlateD fuel (mkDkernel k o) mem din mout dout) (correlate fuel (mkLkernel l o) mem' din mout' dout).
Proof.
  intros HM HO. unfold correlateD, correlate, dksize, lsize. cbn [lvalues lorigin dkvalues dkorigin]. rewrite <- Hlen.
  apply (orel_bind False crelD); [apply loop_simD; [intros; now apply product_simD|repeat split; auto]|]. intros s1 s1' H1.
  apply (orel_bind False crelD); [apply loop_simD; [intros; now apply product_simD|auto]|]. intros s2 s2' H2.
  apply (orel_bind False crelD); [apply loop_simD; [intros; now apply product_simD|auto]|]. intros s3 s3' (_ & _ & _ & H3).
  cbn [orel]. eauto.
Qed.

Lemma rows_simD (f : list double -> list Z -> option (res (list double))) (g : list Z -> list Z -> option (res (list Z))) ps :
  (forall p out out', Forall2 (R (length k)) out out' -> orel False (Forall2 (R (length k))) (f out p) (g out' p)) ->
  forall out out', Forall2 (R (length k)) out out' -> orel False (Forall2 (R (length k))) (eachRow f ps out) (eachRow g ps out').
Proof.
  intros H. induction ps as [|p ps IH]; intros out out' HO; cbn [eachRow].
  - cbn [orel]. eauto.
  - apply (orel_bind False (Forall2 (R (length k)))); auto.
Qed.

Lemma along_simD fuel n o axis (r : raster double) r' : rshape r = rshape r' -> Forall2 RX (rdata r) (rdata r') ->
  orel False (fun a b => rshape a = rshape b /\ Forall2 (R (length k)) (rdata a) (rdata b))
    (correlateAlongD fuel n (mkDkernel k o) axis r) (correlateAlong fuel n (mkLkernel l o) axis r').
Proof.
  intros ES HD. unfold correlateAlongD, correlateAlong. rewrite ES.
  apply orel_same. intros len. apply orel_same. intros domain. apply orel_same. intros ps.
  apply (orel_bind False (Forall2 (R (length k)))); [|intros out out' HO; cbn; eexists; split; [reflexivity|now split]].
  apply rows_simD.
  - intros p out out' HO. apply orel_same. intros a. apply correlate_simD; auto.
  - induction (Z.to_nat _) as [|m IH]; cbn [repeat]; constructor; auto. apply (Hmono 0); auto; lia.
Qed.
End Simulation.

(** ** Integers *)

Definition sumAbs (l : list Z) : Z := total (map Z.abs l).
Lemma sumAbs_app l l' : sumAbs (l ++ l') = (sumAbs l + sumAbs l')%Z.
Proof. induction l; cbn in *; [reflexivity|]. unfold sumAbs in *. cbn [total map fold_right app] in *. unfold total in *. lia. Qed.
Lemma sumAbs_nonneg l : (0 <= sumAbs l)%Z.
Proof. induction l; unfold sumAbs, total in *; cbn [map fold_right]; lia. Qed.
Lemma firstn_S {A} (l : list A) n v : nth_error l n = Some v -> firstn (S n) l = firstn n l ++ [v].
Proof. revert l; induction n as [|n IH]; intros [|x l] H; try discriminate; cbn in *; [now injection H as ->|]. f_equal. now apply IH. Qed.
Lemma sumAbs_firstn_mono l n m : (n <= m)%nat -> (sumAbs (firstn n l) <= sumAbs (firstn m l))%Z.
Proof.
  intros H. replace m with (n + (m - n))%nat by lia. rewrite <- (firstn_skipn n (firstn (n + (m - n)) l)), firstn_firstn, Nat.min_l by lia.
  rewrite sumAbs_app. pose proof (sumAbs_nonneg (skipn n (firstn (n + (m - n)) l))). lia.
Qed.

Lemma along_integral fuel n k l o axis M shape xs zs : Integral k l -> Integral xs zs -> (forall z, In z zs -> (Z.abs z <= M)%Z) -> (0 <= M)%Z ->
  (M * total (map Z.abs l) <= 2 ^ 53)%Z ->
  orel False (fun a b => rshape a = rshape b /\ Integral (rdata a) (rdata b) /\ forall z, In z (rdata b) -> (Z.abs z <= M * total (map Z.abs l))%Z)
    (correlateAlongD fuel n (mkDkernel k o) axis (mkRaster shape xs)) (correlateAlong fuel n (mkLkernel l o) axis (mkRaster shape zs)).
Proof.
  intros HK HX HM M0 HB. fold (sumAbs l) in *.
  set (R := fun (m : nat) (a : double) (b : Z) => isInt a b /\ (Z.abs b <= M * sumAbs (firstn m l))%Z).
  assert (L := forall2_len _ _ _ HK).
  assert (G : orel False (fun a b => rshape a = rshape b /\ Forall2 (R (length k)) (rdata a) (rdata b))
    (correlateAlongD fuel n (mkDkernel k o) axis (mkRaster shape xs)) (correlateAlong fuel n (mkLkernel l o) axis (mkRaster shape zs))).
  { apply (along_simD k l (fun x y => isInt x y /\ (Z.abs y <= M)%Z)); auto.
    - split; [apply int_ofZ; lia|]. cbn. lia.
    - intros p q a b Hpq [H1 H2]. split; [exact H1|]. pose proof (sumAbs_firstn_mono l p q ltac:(lia)). nia.
    - intros p acc acc0 v w x y Hv Hw [X1 X2] [R1 R2].
      assert (IV : isInt v w).
      { clear - HK Hv Hw. revert p Hv Hw. induction HK as [|v0 w0 k l [F V] H IH]; intros [|p]; try discriminate; cbn; [intros [= ->] [= ->]; now split|apply IH]. }
      pose proof (firstn_S _ _ _ Hw) as ES. assert (SB := sumAbs_firstn_mono l (Datatypes.S p) (length l)). rewrite firstn_all in SB.
      assert (p < length l)%nat by (apply nth_error_Some; congruence). specialize (SB ltac:(lia)). 
      assert (S1 : sumAbs (firstn (Datatypes.S p) l) = (sumAbs (firstn p l) + Z.abs w)%Z) by (rewrite ES, sumAbs_app; unfold sumAbs, total; cbn [map fold_right]; lia).
      assert (P : (Z.abs (w * y) <= M * Z.abs w)%Z) by (rewrite Z.abs_mul; nia).
      pose proof (sumAbs_nonneg (firstn p l)).
      assert (B : (Z.abs (acc0 + w * y) <= M * sumAbs (firstn (Datatypes.S p) l))%Z) by (rewrite S1; lia).
      assert (C : (M * sumAbs (firstn (Datatypes.S p) l) <= 2 ^ 53)%Z) by nia.
      split; [|exact B]. apply int_add; [exact R1|apply int_mul; auto; rewrite S1 in C; lia|lia].
    - cbn [rdata]. clear - HX HM. induction HX as [|x z xs zs [F V] H IH]; constructor; [split; [now split|apply HM; now left]|apply IH; intros w Hw; apply HM; now right]. }
  destruct (correlateAlongD _ _ _ _ _) as [[a|e|]|]; cbn [orel] in *; auto.
  destruct G as (b & E & ES & HF). exists b. split; [exact E|]. split; [exact ES|]. unfold R in HF. rewrite L, firstn_all in HF.
  split.
  - clear - HF. induction HF as [|x z xs zs [[F V] _] H IH]; constructor; [now split|auto].
  - clear - HF. induction HF as [|x z xs zs [_ B] H IH]; intros w []; [subst; exact B|auto].
Qed.

(** ** Fuel *)

Definition omore {A} (x y : option A) : Prop := x = None \/ x = y.
Lemma omore_bind {A B} (x y : option (res A)) (f g : A -> option (res B)) : omore x y -> (forall a, omore (f a) (g a)) -> omore (obind x f) (obind y g).
Proof. intros [-> | ->] H; [now left|]. destruct y as [[a|e|]|]; cbn [obind]; auto; now right. Qed.
Lemma boxLoop_more b e : forall fuel fuel' p, (fuel <= fuel')%nat -> omore (boxLoop fuel b e p) (boxLoop fuel' b e p).
Proof.
  induction fuel as [|fuel IH]; intros fuel' p H; [now left|]. destruct fuel' as [|fuel']; [lia|]. cbn [boxLoop].
  destruct (veqb p e); [now right|]. destruct (next b p) as [q|x|]; [|now right|now right].
  destruct (IH fuel' q ltac:(lia)) as [->| ->]; [now left|now right].
Qed.
Lemma boxForeach_more b fuel fuel' : (fuel <= fuel')%nat -> omore (boxForeach fuel b) (boxForeach fuel' b).
Proof. intros H. unfold boxForeach. destruct (endPosition b); [now apply boxLoop_more|now right|now right]. Qed.
Lemma corrLoopD_more cond value st istride ostride : forall fuel fuel' s, (fuel <= fuel')%nat ->
  omore (corrLoopD fuel cond value st istride ostride s) (corrLoopD fuel' cond value st istride ostride s).
Proof.
  induction fuel as [|fuel IH]; intros fuel' s H; [now left|]. destruct fuel' as [|fuel']; [lia|]. cbn [corrLoopD]. destruct (cond _); [|now right].
  destruct (value _ _); [|now right|now right]. destruct (zset _ _ _); [|now right|now right]. apply IH. lia.
Qed.
Lemma correlateD_more k mem din mout dout fuel fuel' : (fuel <= fuel')%nat -> omore (correlateD fuel k mem din mout dout) (correlateD fuel' k mem din mout dout).
Proof.
  intros H. unfold correlateD. cbv zeta. apply omore_bind; [now apply corrLoopD_more|]. intros s1. apply omore_bind; [now apply corrLoopD_more|]. intros s2.
  apply omore_bind; [now apply corrLoopD_more|]. intros s3. now right.
Qed.
Lemma eachRow_more {A} (f g : A -> list Z -> option (res A)) ps : (forall a p, omore (f a p) (g a p)) -> forall a, omore (eachRow f ps a) (eachRow g ps a).
Proof. intros H. induction ps as [|p ps IH]; intros a; cbn [eachRow]; [now right|]. apply omore_bind; auto. Qed.
Lemma correlateAlongD_more n k axis r fuel fuel' : (fuel <= fuel')%nat -> omore (correlateAlongD fuel n k axis r) (correlateAlongD fuel' n k axis r).
Proof.
  intros H. unfold correlateAlongD. apply omore_bind; [now right|]. intros len. cbv zeta. apply omore_bind; [now right|]. intros d.
  apply omore_bind; [now apply boxForeach_more|]. intros ps. apply omore_bind; [|intros; now right]. apply eachRow_more. intros out p.
  apply omore_bind; [now right|]. intros a. now apply correlateD_more.
Qed.

(** The successive correlations of integers are exact. *)
Theorem seq_integral shape ks ls : Positive shape -> Forall2 IntegralKernel ks ls -> Forall (Fits shape) ls -> forall xs zs M, Integral xs zs ->
  Z.of_nat (length zs) = prod shape -> (forall z, In z zs -> (Z.abs z <= M)%Z) -> (0 <= M)%Z -> Small ls M ->
  exists out enough ints, Integral out ints /\ Z.of_nat (length ints) = prod shape /\
    (forall p, pixel shape ints p = axesCorrelation shape ls (pixel shape zs) p) /\
    forall fuel, (enough <= fuel)%nat ->
      correlateSeqD fuel (Z.of_nat (length shape)) (kernelsOf ks) (mkRaster shape xs) =
        Some (Ok (mkRaster shape out)).
Proof.
  intros HP HK. induction HK as [|[[k o] a] [[l o'] a'] ks ls (HI & EO & EA) HK IH]; intros HF xs zs M HX HL HM M0 HS.
  - exists xs, 0%nat, zs. repeat split; auto.
  - cbn [fst snd] in *. subst o' a'. inversion HF as [|? ? HF1 HF']; subst. unfold Fits in HF1. destruct HF1 as (F1 & F2 & F3 & F4). cbn [Small] in HS. destruct HS as [S1 S2].
    destruct (along_spec shape zs l o a F1 HP HL F2 F3 F4) as (mid & L1 & P1 & e1 & E1).
    pose proof (fun fuel => along_integral fuel (Z.of_nat (length shape)) k l o (Z.of_nat a) M shape xs zs HI HX HM M0 S1) as G.
    pose proof (G e1) as G1. rewrite (E1 e1 (le_n _)) in G1. destruct (orel_false _ _ _ _ G1 eq_refl) as (b & EB & EB1 & EB2 & EB3). cbn [rdata rshape] in *.
    destruct (IH HF' (rdata b) mid (M * total (map Z.abs l))%Z EB2 L1 EB3) as (out & e2 & ints & I2 & L2 & P2 & E2); auto.
    { pose proof (sumAbs_nonneg l). unfold sumAbs in *. nia. }
    exists out, (Nat.max e1 e2), ints. split; [exact I2|]. split; [exact L2|]. split.
    + intros p. rewrite P2. cbn [axesCorrelation]. apply axes_ext, P1.
    + intros fuel Hf. cbn [kernelsOf map fst snd correlateSeqD]. destruct (correlateAlongD_more (Z.of_nat (length shape)) (mkDkernel k o) (Z.of_nat a) (mkRaster shape xs) e1 fuel ltac:(lia)) as [E|E]; [congruence|].
      rewrite <- E, EB. cbn [obind]. destruct b as [sh data]. cbn [rshape rdata] in *. subst sh. apply E2. lia.
Qed.

(** ** Rounding errors *)

Lemma Rle_of_sub a b : 0 <= b - a -> a <= b.
Proof. lra. Qed.

Lemma step_real u h P acc ex p kx s MA Mk m : 0 < u -> 0 < h -> 1 <= P -> 0 <= m -> 0 <= MA -> 0 <= Mk ->
  Rabs (acc - ex) <= (P * (1 + u) - 1) * MA + 3 * m * h * P -> Rabs ex <= MA -> Rabs kx <= Mk ->
  Rabs (p - kx) <= u * Rabs kx + h -> Rabs (s - (acc + p)) <= u * Rabs (acc + p) + h ->
  Rabs (s - (ex + kx)) <= (P * (1 + u) * (1 + u) - 1) * (MA + Mk) + 3 * (m + 1) * h * (P * (1 + u)).
Proof.
  intros U H HP Hm HA HK E1 E2 E3 E4 E5.
  set (D := (P * (1 + u) - 1) * MA + 3 * m * h * P + u * Mk + h).
  assert (A1 : Rabs (acc + p - (ex + kx)) <= D).
  { replace (acc + p - (ex + kx)) with ((acc - ex) + (p - kx)) by ring. apply Rle_trans with (1 := Rabs_triang _ _). unfold D.
    assert (u * Rabs kx <= u * Mk) by (apply Rmult_le_compat_l; lra). lra. }
  assert (A2 : Rabs (acc + p) <= D + (MA + Mk)).
  { replace (acc + p) with ((acc + p - (ex + kx)) + (ex + kx)) by ring. apply Rle_trans with (1 := Rabs_triang _ _).
    assert (Rabs (ex + kx) <= MA + Mk) by (apply Rle_trans with (1 := Rabs_triang _ _); lra). lra. }
  assert (A3 : Rabs (s - (ex + kx)) <= D + u * (D + (MA + Mk)) + h).
  { replace (s - (ex + kx)) with ((s - (acc + p)) + (acc + p - (ex + kx))) by ring. apply Rle_trans with (1 := Rabs_triang _ _).
    assert (u * Rabs (acc + p) <= u * (D + (MA + Mk))) by (apply Rmult_le_compat_l; lra). lra. }
  apply Rle_trans with (1 := A3). unfold D.
  assert (B1 : 0 <= (P - 1) * (1 + u) * (1 + u) * Mk) by (repeat apply Rmult_le_pos; lra).
  assert (B2 : 0 <= h * (3 * (P * (1 + u)) - 2 - u)).
  { apply Rmult_le_pos; [lra|]. assert (1 * (1 + u) <= P * (1 + u)) by (apply Rmult_le_compat_r; lra). lra. }
  apply Rle_of_sub.
  replace (_ - _) with ((P - 1) * (1 + u) * (1 + u) * Mk + h * (3 * (P * (1 + u)) - 2 - u)) by ring. lra.
Qed.

Lemma pow_bound u n : 0 <= u -> INR n * u <= 1 -> (1 + u) ^ n <= 1 + INR n * u + INR n * INR n * (u * u).
Proof.
  intros U. induction n as [|n IH]; intros H; [cbn; lra|]. rewrite S_INR in *. cbn [Rpow_def.pow].
  assert (N := pos_INR n). assert (H' : INR n * u <= 1) by lra. specialize (IH H').
  assert (A : (1 + u) * (1 + u) ^ n <= (1 + u) * (1 + INR n * u + INR n * INR n * (u * u))) by (apply Rmult_le_compat_l; lra).
  apply Rle_trans with (1 := A). apply Rle_of_sub.
  replace (_ - _) with (u * u * (INR n + 1 - INR n * (INR n * u))) by ring.
  apply Rmult_le_pos; [now apply Rmult_le_pos|]. assert (INR n * (INR n * u) <= INR n * 1) by (apply Rmult_le_compat_l; lra). lra.
Qed.

Lemma gain_app k k' : gain (k ++ k') = gain k + gain k'.
Proof. unfold gain, totalR. induction k as [|v k IH]; cbn [app map fold_right]; [lra|]. rewrite IH. lra. Qed.
Lemma gain_nonneg k : 0 <= gain k.
Proof. unfold gain, totalR. induction k as [|v k IH]; cbn [map fold_right]; [lra|]. pose proof (Rabs_pos (real v)). lra. Qed.
Lemma gain_firstn k n m : (n <= m)%nat -> gain (firstn n k) <= gain (firstn m k).
Proof.
  intros H. replace m with (n + (m - n))%nat by lia. rewrite <- (firstn_skipn n (firstn (n + (m - n)) k)), firstn_firstn, Nat.min_l by lia.
  rewrite gain_app. pose proof (gain_nonneg (skipn n (firstn (n + (m - n)) k))). lra.
Qed.
Lemma gain_step k n v : nth_error k n = Some v -> gain (firstn (S n) k) = gain (firstn n k) + Rabs (val v).
Proof. intros H. rewrite (firstn_S _ _ _ H), gain_app. unfold gain, totalR, real. cbn [map fold_right]. lra. Qed.

Definition uu := pow2 (-53).
Definition hh := pow2 (-1075).
Definition qq := pow2 (-1074) * pow2 (-1074).
Definition errAt (k : list double) (M : R) (m : nat) : R := ((1 + uu) ^ m * (1 + uu) - 1) * (M * gain (firstn m k)) + 3 * INR m * hh * (1 + uu) ^ m.

Lemma uu_pos : 0 < uu. Proof. apply bpow_gt_0. Qed.
Lemma hh_pos : 0 < hh. Proof. apply bpow_gt_0. Qed.
Lemma pow_ge m : 1 <= (1 + uu) ^ m.
Proof. apply pow_R1_Rle. assert (U := uu_pos). lra. Qed.
Lemma pow_mono n m : (n <= m)%nat -> (1 + uu) ^ n <= (1 + uu) ^ m.
Proof. intros H. apply Rle_pow; auto. assert (U := uu_pos). lra. Qed.

Lemma errAt_mono k M n m : 0 <= M -> (n <= m)%nat -> errAt k M n <= errAt k M m.
Proof.
  intros HM H. unfold errAt. assert (U := uu_pos). assert (W := hh_pos). assert (P1 := pow_ge n). assert (P2 := pow_mono n m H). assert (G := gain_firstn k n m H).
  assert (G0 := gain_nonneg (firstn n k)). assert (I := le_INR _ _ H). assert (I0 := pos_INR n).
  apply Rplus_le_compat.
  - apply Rmult_le_compat; [|now apply Rmult_le_pos| |now apply Rmult_le_compat_l].
    + assert (1 * 1 <= (1 + uu) ^ n * (1 + uu)) by (apply Rmult_le_compat; lra). lra.
    + assert ((1 + uu) ^ n * (1 + uu) <= (1 + uu) ^ m * (1 + uu)) by (apply Rmult_le_compat_r; lra). lra.
  - apply Rmult_le_compat; [|lra| |exact P2].
    + repeat apply Rmult_le_pos; lra.
    + apply Rmult_le_compat_r; lra.
Qed.

Lemma pow26 n : (Z.of_nat n < 2 ^ 26)%Z -> (1 + uu) ^ n * (1 + uu) - 1 <= (INR n + 2) * uu /\ (1 + uu) ^ n <= 4 / 3.
Proof.
  intros H. assert (U := uu_pos). assert (I0 := pos_INR n). assert (I : INR n + 1 <= pow2 26).
  { rewrite INR_IZR_INZ. change (pow2 26) with (IZR (2 ^ 26)). rewrite <- plus_IZR. apply IZR_le. lia. }
  assert (E1 : pow2 26 * uu = pow2 (-27)) by (unfold uu; rewrite <- bpow_plus; reflexivity).
  assert (E2 : pow2 26 * pow2 26 * uu = pow2 (-1)) by (unfold uu; rewrite <- !bpow_plus; reflexivity).
  assert (E3 : pow2 (-27) <= / 8) by (change (/ 8) with (pow2 (-3)); apply bpow_le; lia). assert (E4 : pow2 (-1) = / 2) by reflexivity.
  assert (A1 : (INR n + 1) * uu <= pow2 (-27)) by (rewrite <- E1; apply Rmult_le_compat_r; lra).
  assert (A2 : (INR n + 1) * (INR n + 1) * uu <= / 2) by (rewrite <- E4, <- E2; apply Rmult_le_compat_r; [lra|]; apply Rmult_le_compat; lra).
  assert (B := pow_bound uu (S n) ltac:(lra)). rewrite S_INR in B. specialize (B ltac:(lra)). cbn [Rpow_def.pow] in B.
  assert (C : (INR n + 1) * (INR n + 1) * (uu * uu) <= / 2 * uu).
  { replace ((INR n + 1) * (INR n + 1) * (uu * uu)) with ((INR n + 1) * (INR n + 1) * uu * uu) by ring. apply Rmult_le_compat_r; lra. }
  split; [lra|]. assert (P := pow_ge n). assert (1 * (1 + uu) ^ n <= (1 + uu) * (1 + uu) ^ n) by (apply Rmult_le_compat_r; lra).
  assert (uu <= pow2 (-27)) by (unfold uu; apply bpow_le; lia). lra.
Qed.

Lemma errAt_final k M : (Z.of_nat (length k) < 2 ^ 26)%Z -> 0 <= M -> errAt k M (length k) <= axisError k M.
Proof.
  intros H HM. unfold errAt, axisError. rewrite firstn_all. destruct (pow26 _ H) as [P1 P2]. assert (G := gain_nonneg k). assert (W := hh_pos).
  rewrite plus_IZR, <- INR_IZR_INZ. assert (I0 := pos_INR (length k)). fold uu.
  assert (E : pow2 (-1073) = 4 * hh) by (unfold hh; change 4 with (pow2 2); rewrite <- bpow_plus; reflexivity). rewrite E.
  apply Rplus_le_compat.
  - apply Rmult_le_compat_r; [now apply Rmult_le_pos|lra].
  - apply Rle_trans with (3 * INR (length k) * hh * (4 / 3)); [apply Rmult_le_compat_l; [repeat apply Rmult_le_pos; lra|lra]|]. lra.
Qed.

(** Finite doubles are multiples of the smallest one. *)
Definition isMultiple (x : double) (z : Z) : Prop := fin x = true /\ val x = IZR z * pow2 (-1074).
Lemma multiple x : Finite x -> exists z, isMultiple x z.
Proof.
  intros F. destruct (F64_mantissa (val x) (F64_val x)) as (m & e & E & _ & L). exists (m * 2 ^ (e + 1074))%Z. split; [exact F|].
  rewrite E, mult_IZR. change 2%Z with (radix_val radix2). rewrite IZR_Zpower by lia. rewrite Rmult_assoc, <- bpow_plus. f_equal. f_equal. lia.
Qed.
Lemma multiples xs : Forall Finite xs -> exists zs, Forall2 isMultiple xs zs.
Proof. induction 1 as [|x xs H _ [zs IH]]; [exists []; constructor|]. destruct (multiple x H) as [z Hz]. exists (z :: zs). now constructor. Qed.

Lemma no_overflow x : Rabs x <= pow2 1023 -> Rabs (rnd x) < pow2 1024.
Proof.
  intros H. rewrite abs_rnd. assert (B := below_overflow (Rabs x)). assert (L := maxDouble_lt).
  assert (E : pow2 1024 = 2 * pow2 1023) by (change 2 with (pow2 1); rewrite <- bpow_plus; reflexivity).
  assert (pow2 970 < pow2 1023) by (apply bpow_lt; lia). lra.
Qed.

Lemma error_small k M m : (Z.of_nat (length k) < 2 ^ 26)%Z -> 0 <= M -> M * gain k <= pow2 1022 -> (m <= length k)%nat -> errAt k M m <= pow2 1021.
Proof.
  intros H HM HG Hm. apply Rle_trans with (1 := errAt_mono k M m (length k) HM Hm). apply Rle_trans with (1 := errAt_final k M H HM).
  unfold axisError. assert (G := gain_nonneg k). assert (MG : 0 <= M * gain k) by now apply Rmult_le_pos.
  assert (I : IZR (Z.of_nat (length k) + 2) <= pow2 27) by (change (pow2 27) with (IZR (2 ^ 27)); apply IZR_le; lia).
  assert (I' : IZR (Z.of_nat (length k)) <= pow2 27) by (change (pow2 27) with (IZR (2 ^ 27)); apply IZR_le; lia).
  assert (P : 0 <= IZR (Z.of_nat (length k))) by (apply IZR_le; lia). assert (P' : 0 <= IZR (Z.of_nat (length k) + 2)) by (apply IZR_le; lia).
  assert (A : IZR (Z.of_nat (length k) + 2) * pow2 (-53) * (M * gain k) <= pow2 27 * pow2 (-53) * pow2 1022).
  { apply Rmult_le_compat; [apply Rmult_le_pos; [lra|apply bpow_ge_0]|exact MG| |exact HG]. apply Rmult_le_compat_r; [apply bpow_ge_0|exact I]. }
  assert (B : IZR (Z.of_nat (length k)) * pow2 (-1073) <= pow2 27 * pow2 (-1073)) by (apply Rmult_le_compat_r; [apply bpow_ge_0|exact I']).
  assert (A' : pow2 27 * pow2 (-53) * pow2 1022 <= pow2 1020) by (rewrite <- !bpow_plus; apply bpow_le; lia).
  assert (B' : pow2 27 * pow2 (-1073) <= pow2 1020) by (rewrite <- !bpow_plus; apply bpow_le; lia).
  assert (E : pow2 1021 = pow2 1020 + pow2 1020).
  { assert (pow2 1021 = 2 * pow2 1020) by (change 2 with (pow2 1); rewrite <- bpow_plus; reflexivity). lra. }
  rewrite E. lra.
Qed.

(** The partial sums over the first [m] values of the kernel, and the exact ones. *)
Definition near (k : list double) (M : R) (m : nat) (a : double) (b : Z) : Prop :=
  fin a = true /\ Rabs (val a - IZR b * qq) <= errAt k M m /\ Rabs (IZR b * qq) <= M * gain (firstn m k).

Lemma near_zero k M : near k M 0 (dofZ 0) 0%Z.
Proof.
  destruct (dofZ_small 0 ltac:(lia)) as [V0 F0]. split; [exact F0|]. rewrite V0. unfold errAt. replace (gain (firstn 0 k)) with 0 by reflexivity.
  rewrite Rmult_0_l, Rminus_0_r, Rabs_R0. cbn [INR Rpow_def.pow]. lra.
Qed.
Lemma near_mono k M p q a b : 0 <= M -> (p <= q)%nat -> near k M p a b -> near k M q a b.
Proof.
  intros M0 Hpq (H1 & H2 & H3). split; [exact H1|]. split; [apply Rle_trans with (1 := H2); now apply errAt_mono|].
  apply Rle_trans with (1 := H3). apply Rmult_le_compat_l; auto. now apply gain_firstn.
Qed.
Lemma near_step k M p acc acc0 v w x y : 0 <= M -> (Z.of_nat (length k) < 2 ^ 26)%Z -> M * gain k <= pow2 1022 -> nth_error k p = Some v -> isMultiple v w ->
  isMultiple x y -> Rabs (val x) <= M -> near k M p acc acc0 ->
  near k M (S p) (dadd acc (dmul v x)) (acc0 + w * y) /\ fin (dmul v x) = true /\ val (dmul v x) = rnd (val v * val x) /\ val (dadd acc (dmul v x)) = rnd (val acc + val (dmul v x)).
Proof.
  intros M0 HL HG Hv IV [X1 X2] X3 (R1 & R2 & R3).
  destruct IV as [V1 V2]. assert (Hp : (p < length k)%nat) by (apply nth_error_Some; congruence).
  assert (GS := gain_step _ _ _ Hv). assert (GA := gain_firstn k (Datatypes.S p) (length k) ltac:(lia)). rewrite firstn_all in GA. assert (G0 := gain_nonneg (firstn p k)).
  assert (KX : Rabs (val v * val x) <= M * Rabs (val v)) by (rewrite Rabs_mult, Rmult_comm; apply Rmult_le_compat_r; [apply Rabs_pos|exact X3]).
  assert (MS : M * (gain (firstn p k) + Rabs (val v)) <= M * gain k) by (apply Rmult_le_compat_l; lra).
  assert (MA : 0 <= M * gain (firstn p k)) by (now apply Rmult_le_pos). assert (MK : 0 <= M * Rabs (val v)) by (apply Rmult_le_pos; [auto|apply Rabs_pos]).
  assert (EP : pow2 1023 = pow2 1022 + pow2 1022).
  { assert (pow2 1023 = 2 * pow2 1022) by (change 2 with (pow2 1); rewrite <- bpow_plus; reflexivity). lra. }
  assert (EQ : pow2 1022 = pow2 1021 + pow2 1021).
  { assert (pow2 1022 = 2 * pow2 1021) by (change 2 with (pow2 1); rewrite <- bpow_plus; reflexivity). lra. }
  assert (PP := bpow_gt_0 radix2 1021).
  destruct (dmul_ok v x V1 X1) as [P1 P2]; [apply no_overflow; lra|]. set (pr := dmul v x) in *.
  assert (E4 := rnd_error (val v * val x)). rewrite <- P1 in E4. fold uu hh in E4.
  assert (EX : IZR (acc0 + w * y) * qq = IZR acc0 * qq + val v * val x) by (rewrite V2, X2, plus_IZR, mult_IZR; unfold qq; ring).
  assert (BE := error_small k M p HL M0 HG ltac:(lia)).
  assert (BP : Rabs (val acc + val pr) <= pow2 1023).
  { replace (val acc + val pr) with ((val acc - IZR acc0 * qq) + (val pr - val v * val x) + (IZR acc0 * qq + val v * val x)) by ring.
    assert (T1 := Rabs_triang ((val acc - IZR acc0 * qq) + (val pr - val v * val x)) (IZR acc0 * qq + val v * val x)).
    assert (T2 := Rabs_triang (val acc - IZR acc0 * qq) (val pr - val v * val x)). assert (T3 := Rabs_triang (IZR acc0 * qq) (val v * val x)).
    assert (B1 : uu * Rabs (val v * val x) <= / 4 * pow2 1022).
    { apply Rmult_le_compat; [apply bpow_ge_0|apply Rabs_pos| |lra]. unfold uu. change (/ 4) with (pow2 (-2)). apply bpow_le. lia. }
    assert (B2 : hh <= / 4 * pow2 1022) by (unfold hh; change (/ 4) with (pow2 (-2)); rewrite <- bpow_plus; apply bpow_le; lia).
    lra. }
  destruct (dadd_ok acc pr R1 P2 (no_overflow _ BP)) as [S1 S2]. assert (E5 := rnd_error (val acc + val pr)). rewrite <- S1 in E5. fold uu hh in E5.
  split; [|now repeat split]. split; [exact S2|]. rewrite EX. split.
  + unfold errAt. rewrite GS, S_INR. cbn [Rpow_def.pow]. replace ((1 + uu) * (1 + uu) ^ p) with ((1 + uu) ^ p * (1 + uu)) by ring.
    rewrite (Rmult_plus_distr_l M). apply (step_real uu hh ((1 + uu) ^ p) (val acc) _ (val pr) _ (val (dadd acc pr)) (M * gain (firstn p k)) (M * Rabs (val v)) (INR p)); auto.
    * apply uu_pos.
    * apply hh_pos.
    * apply pow_ge.
    * apply pos_INR.
  + rewrite GS, Rmult_plus_distr_l. apply Rle_trans with (1 := Rabs_triang _ _). lra.
Qed.

Lemma along_rel fuel n k l o axis M shape xs zs : Forall2 isMultiple k l -> Forall2 isMultiple xs zs -> PixelsWithin M xs -> 0 <= M ->
  (Z.of_nat (length k) < 2 ^ 26)%Z -> M * gain k <= pow2 1022 ->
  orel False (fun (a : raster double) b => rshape a = rshape b /\ Forall2 (fun (x : double) z => fin x = true /\ Rabs (val x - IZR z * qq) <= axisError k M /\ Rabs (IZR z * qq) <= M * gain k) (rdata a) (rdata b))
    (correlateAlongD fuel n (mkDkernel k o) axis (mkRaster shape xs)) (correlateAlong fuel n (mkLkernel l o) axis (mkRaster shape zs)).
Proof.
  intros HK HX HM M0 HL HG.
  assert (L := forall2_len _ _ _ HK).
  assert (G : orel False (fun a b => rshape a = rshape b /\ Forall2 (near k M (length k)) (rdata a) (rdata b))
    (correlateAlongD fuel n (mkDkernel k o) axis (mkRaster shape xs)) (correlateAlong fuel n (mkLkernel l o) axis (mkRaster shape zs))).
  { apply (along_simD k l (fun x y => isMultiple x y /\ Rabs (val x) <= M)); auto.
    - apply near_zero.
    - intros p q a b Hpq. apply near_mono; [auto|lia].
    - intros p acc acc0 v w x y Hv Hw [X1 X2] HN.
      assert (IV : isMultiple v w).
      { clear - HK Hv Hw. revert p Hv Hw. induction HK as [|v0 w0 k l [F V] H IH]; intros [|p]; try discriminate; cbn; [intros [= ->] [= ->]; now split|apply IH]. }
      now apply near_step.
    - cbn [rdata]. clear - HX HM. unfold PixelsWithin in HM. revert HM. induction HX as [|x z xs zs H' H IH]; intros HM; constructor; inversion HM as [|? ? [_ HM1] HM2]; subst; auto. }
  destruct (correlateAlongD _ _ _ _ _) as [[a|e|]|]; cbn [orel] in *; auto.
  destruct G as (b & E & ES & HF). exists b. split; [exact E|]. split; [exact ES|].
  apply (forall2_weaken (near k M (length k))); auto. intros x z (F1 & F2 & F3). split; [exact F1|]. split; [apply Rle_trans with (1 := F2); now apply errAt_final|].
  rewrite firstn_all in F3. exact F3.
Qed.

(** The exact correlation of multiples. *)
Lemma realAt_multiple xs zs c : Forall2 (fun x z => real x = IZR z * c) xs zs -> forall i, realAt xs i = IZR (padded zs i) * c.
Proof.
  intros H i. pose proof (forall2_get _ _ _ i H) as G. unfold realAt, padded. destruct (zget xs i) as [x|e|]; cbn [rrel] in G.
  - destruct G as (z & -> & G). exact G.
  - rewrite G. lra.
  - destruct G as [->|[]]. lra.
Qed.
Lemma totalR_map {A} (f g : A -> R) l : (forall j, f j = g j) -> totalR (map f l) = totalR (map g l).
Proof. intros H. unfold totalR. induction l; cbn [map fold_right]; [reflexivity|]. now rewrite H, IHl. Qed.
Lemma totalR_scale {A} (f : A -> Z) c l : totalR (map (fun j => IZR (f j) * c) l) = IZR (total (map f l)) * c.
Proof. unfold totalR, total. induction l; cbn [map fold_right]; [lra|]. rewrite plus_IZR. lra. Qed.

Lemma realAxis_multiple shape k l o a xs zs c d p : Forall2 (fun x z => real x = IZR z * c) k l -> Forall2 (fun x z => real x = IZR z * d) xs zs ->
  realAxis shape k o a (realPixel shape xs) p = IZR (axisCorrelation shape l o a (pixel shape zs) p) * (c * d).
Proof.
  intros HK HX. unfold realAxis, axisCorrelation. destruct (inside shape p); [|lra]. unfold realCorrelation, correlation.
  rewrite <- totalR_scale, (forall2_len _ _ _ HK). apply totalR_map. intros j. rewrite (realAt_multiple _ _ c HK), mult_IZR.
  unfold realPixel, pixel. destruct (inside shape _); [|lra]. rewrite (realAt_multiple _ _ d HX). ring.
Qed.

Lemma axisError_nonneg k M : 0 <= M -> 0 <= axisError k M.
Proof.
  intros H. unfold axisError. assert (G := gain_nonneg k). apply Rplus_le_le_0_compat; repeat apply Rmult_le_pos; auto; try apply bpow_ge_0; apply IZR_le; lia.
Qed.

Lemma along_error shape xs k o a M : Positive shape -> FitsD shape (k, o, a) -> Z.of_nat (length xs) = Spec.prod shape -> PixelsWithin M xs -> 0 <= M -> M * gain k <= pow2 1022 ->
  exists out enough, Z.of_nat (length out) = Spec.prod shape /\ PixelsWithin (M * gain k + axisError k M) out /\
    (forall p, Rabs (realPixel shape out p - realAxis shape k o a (realPixel shape xs) p) <= axisError k M) /\
    forall fuel, (enough <= fuel)%nat ->
      correlateAlongD fuel (Z.of_nat (length shape)) (mkDkernel k o) (Z.of_nat a) (mkRaster shape xs) = Some (Ok (mkRaster shape out)).
Proof.
  intros HP (F1 & F2 & F3 & F4 & F5 & F6) HL HM M0 HG. destruct (multiples k F6) as [l HK]. destruct (multiples xs) as [zs HX].
  { eapply Forall_impl; [|exact HM]. intros x [H _]. exact H. }
  pose proof (forall2_len _ _ _ HK) as LK. pose proof (forall2_len _ _ _ HX) as LX. rewrite LX in HL. rewrite LK in F2, F3.
  destruct (along_spec shape zs l o a F1 HP HL F2 F3 F4) as (ints & L1 & P1 & e1 & E1).
  pose proof (along_rel e1 (Z.of_nat (length shape)) k l o (Z.of_nat a) M shape xs zs HK HX HM M0 F5 HG) as G. rewrite (E1 e1 (le_n _)) in G.
  destruct (orel_false _ _ _ _ G eq_refl) as (b & EB & EB1 & EB2). cbn [rdata rshape] in *. destruct b as [sh out]. cbn [rdata rshape] in *. subst sh.
  exists out, e1. split; [transitivity (Z.of_nat (length ints)); [f_equal; exact (forall2_len _ _ _ EB2)|exact L1]|]. split; [|split].
  - clear - EB2. unfold PixelsWithin. induction EB2 as [|x z xs zs (A & B & C) H IH]; constructor; auto. split; [exact A|]. unfold real.
    replace (val x) with ((val x - IZR z * qq) + IZR z * qq) by ring. apply Rle_trans with (1 := Rabs_triang _ _). lra.
  - intros p. rewrite (realAxis_multiple shape k l o a xs zs (pow2 (-1074)) (pow2 (-1074)) p).
    2: apply (forall2_weaken isMultiple); auto; now intros x z [_ E].
    2: apply (forall2_weaken isMultiple); auto; now intros x z [_ E].
    rewrite <- P1. fold qq. unfold realPixel, pixel. destruct (inside shape p).
    + unfold realAt, padded. pose proof (forall2_get _ _ _ (rank shape p) EB2) as W. destruct (zget out _) as [x|e|]; cbn [rrel] in W.
      * destruct W as (z & -> & _ & W & _). exact W.
      * rewrite W, Rmult_0_l, Rminus_0_r, Rabs_R0. now apply axisError_nonneg.
      * destruct W as [->|[]]. rewrite Rmult_0_l, Rminus_0_r, Rabs_R0. now apply axisError_nonneg.
    + rewrite Rmult_0_l, Rminus_0_r, Rabs_R0. now apply axisError_nonneg.
  - intros fuel Hf. destruct (correlateAlongD_more (Z.of_nat (length shape)) (mkDkernel k o) (Z.of_nat a) (mkRaster shape xs) e1 fuel Hf) as [E|E]; [congruence|]. now rewrite <- E.
Qed.

(** A correlation amplifies errors by its gain. *)
Lemma map_realAt k : map (realAt k) (zrange 0 (Z.of_nat (length k) - 1)) = map real k.
Proof.
  unfold zrange. replace (Z.to_nat (Z.of_nat (length k) - 1 - 0 + 1)) with (length k) by lia. rewrite map_map.
  induction k as [|v k IH] using rev_ind; [reflexivity|]. rewrite app_length. cbn [length]. rewrite Nat.add_1_r, seq_S, map_app, map_app. f_equal.
  - rewrite <- IH. apply map_ext_in. intros j Hj. apply in_seq in Hj. unfold realAt, zget. destruct (0 + Z.of_nat j <? 0)%Z; [reflexivity|].
    rewrite nth_error_app1 by lia. reflexivity.
  - cbn [map]. f_equal. unfold realAt, zget. assert ((0 + Z.of_nat (0 + length k) <? 0)%Z = false) as -> by lia.
    replace (Z.to_nat (0 + Z.of_nat (0 + length k))) with (length k) by lia. rewrite nth_error_app2, Nat.sub_diag by lia. reflexivity.
Qed.
Lemma totalR_lipschitz {A} (f X Y : A -> R) E l : (forall j, Rabs (X j - Y j) <= E) ->
  Rabs (totalR (map (fun j => f j * X j) l) - totalR (map (fun j => f j * Y j) l)) <= totalR (map (fun j => Rabs (f j)) l) * E.
Proof.
  intros H. unfold totalR. induction l as [|j l IH]; cbn [map fold_right]; [rewrite Rminus_0_r, Rabs_R0; lra|].
  set (a := fold_right _ _ _) in *. set (b := fold_right _ _ (map (fun j => f j * Y j) l)) in *.
  replace (f j * X j + a - (f j * Y j + b)) with (f j * (X j - Y j) + (a - b)) by ring. apply Rle_trans with (1 := Rabs_triang _ _). rewrite Rabs_mult, Rmult_plus_distr_r.
  apply Rplus_le_compat; auto. apply Rmult_le_compat_l; [apply Rabs_pos|apply H].
Qed.
Lemma realAxis_lipschitz shape k o a X Y E p : 0 <= E -> (forall q, Rabs (X q - Y q) <= E) -> Rabs (realAxis shape k o a X p - realAxis shape k o a Y p) <= gain k * E.
Proof.
  intros E0 H. unfold realAxis. destruct (inside shape p); [|rewrite Rminus_0_r, Rabs_R0; apply Rmult_le_pos; [apply gain_nonneg|auto]].
  unfold realCorrelation. apply Rle_trans with (1 := totalR_lipschitz (realAt k) (fun j => X (replace p a (nth a p 0 - o + j)%Z)) (fun j => Y (replace p a (nth a p 0 - o + j)%Z)) E _ (fun j => H _)).
  rewrite <- (map_map (realAt k) Rabs), map_realAt, map_map. apply Rle_refl.
Qed.

Theorem seq_error shape ks : Positive shape -> Forall (FitsD shape) ks -> forall xs M X E, Z.of_nat (length xs) = Spec.prod shape -> PixelsWithin M xs -> 0 <= M ->
  Moderate ks M -> 0 <= E -> (forall p, Rabs (realPixel shape xs p - X p) <= E) ->
  exists out enough, Z.of_nat (length out) = Spec.prod shape /\ Forall Finite out /\
    (forall p, Rabs (realPixel shape out p - realAxes shape ks X p) <= axesError ks M E) /\
    forall fuel, (enough <= fuel)%nat ->
      correlateSeqD fuel (Z.of_nat (length shape)) (kernelsOf ks) (mkRaster shape xs) =
        Some (Ok (mkRaster shape out)).
Proof.
  intros HP. induction ks as [|[[k o] a] ks IH]; intros HF xs M X E HL HM M0 HS E0 HX.
  - exists xs, 0%nat. split; [exact HL|]. split; [|split; [exact HX|reflexivity]]. eapply Forall_impl; [|exact HM]. intros x [H _]. exact H.
  - inversion HF as [|? ? HF1 HF']; subst. cbn [Moderate] in HS. destruct HS as [S1 S2].
    destruct (along_error shape xs k o a M HP HF1 HL HM M0 S1) as (mid & e1 & L1 & M1 & P1 & E1).
    assert (A0 := axisError_nonneg k M M0). assert (G0 := gain_nonneg k). assert (MG : 0 <= M * gain k) by now apply Rmult_le_pos.
    destruct (IH HF' mid (M * gain k + axisError k M) (realAxis shape k o a X) (gain k * E + axisError k M) L1 M1) as (out & e2 & L2 & F2 & P2 & E2); auto; try lra.
    + assert (0 <= gain k * E) by now apply Rmult_le_pos. lra.
    + intros p. replace (realPixel shape mid p - realAxis shape k o a X p) with
        ((realAxis shape k o a (realPixel shape xs) p - realAxis shape k o a X p) + (realPixel shape mid p - realAxis shape k o a (realPixel shape xs) p)) by ring.
      apply Rle_trans with (1 := Rabs_triang _ _). apply Rplus_le_compat; auto. now apply realAxis_lipschitz.
    + exists out, (Nat.max e1 e2). split; [exact L2|]. split; [exact F2|]. split; [exact P2|]. intros fuel Hf. cbn [kernelsOf map fst snd correlateSeqD]. rewrite E1 by lia. cbn [obind]. apply E2. lia.
Qed.

(** ** Two images *)

Section Pair.
Context (k : list double) (RX : double -> double -> Prop) (R : nat -> double -> double -> Prop).
Hypothesis Hzero : R 0 (dofZ 0) (dofZ 0).
Hypothesis Hmono : forall n m a b, (n <= m <= length k)%nat -> R n a b -> R m a b.
Hypothesis Hstep : forall n acc acc' v x y, nth_error k n = Some v -> RX x y -> R n acc acc' -> R (S n) (dadd acc (dmul v x)) (dadd acc' (dmul v y)).

Lemma inner_pair mem mem' stride : Forall2 RX mem mem' -> forall n m a b acc acc', (m <= length k)%nat -> (a < 0 \/ Z.of_nat m <= a)%Z -> R m acc acc' ->
  rrel False (R (length k)) (innerLoopD n k mem a b stride acc) (innerLoopD n k mem' a b stride acc').
Proof.
  intros HM. induction n as [|n IH]; intros m a b acc acc' Hm Ha HR; cbn [innerLoopD].
  - exists acc'. split; [reflexivity|]. apply (Hmono m); auto.
  - destruct (zget k a) as [v|x|] eqn:Ev; cbn [bind rrel]; auto. assert (Ra := zget_range _ _ _ Ev).
    apply (rrel_bind False RX); [apply (rrel_weaken _ RX); auto; now apply forall2_get|]. intros x y Hxy. apply zget_ok in Ev. destruct Ev as [_ Ev].
    apply (IH (S (Z.to_nat a))); [lia|lia|]. eapply Hstep; eauto. apply (Hmono m); auto; lia.
Qed.
Lemma product_pair mem mem' first last b stride : Forall2 RX mem mem' ->
  rrel False (R (length k)) (innerProductD k mem first last b stride) (innerProductD k mem' first last b stride).
Proof. intros H. unfold innerProductD. destruct (last <? first)%Z; [now left|]. apply (inner_pair _ _ _ H _ 0%nat); auto; lia. Qed.

Definition crelP (s s' : dcstate) : Prop := dci s = dci s' /\ dcin s = dcin s' /\ dcout s = dcout s' /\ Forall2 (R (length k)) (dcmem s) (dcmem s').

Lemma loop_pair cond value value' st istride ostride : (forall i it, rrel False (R (length k)) (value i it) (value' i it)) ->
  forall fuel s s', crelP s s' -> orel False crelP (corrLoopD fuel cond value st istride ostride s) (corrLoopD fuel cond value' st istride ostride s').
Proof.
  intros HV. induction fuel as [|fuel IH]; intros s s' (E1 & E2 & E3 & HM); cbn [corrLoopD]; [reflexivity|].
  rewrite <- E1, <- E2, <- E3. destruct (cond (dci s)).
  - pose proof (HV (dci s) (dcin s)) as V. destruct (value (dci s) (dcin s)) as [v|x|]; cbn [rrel] in V.
    + destruct V as (v' & -> & V). pose proof (forall2_set _ _ _ (dcout s) v v' HM V) as Z. destruct (zset (dcmem s) (dcout s) v) as [m|x|]; cbn [rrel] in Z.
      * destruct Z as (m' & -> & Z). apply IH. repeat split; cbn [dci dcin dcout dcmem]; auto.
      * now rewrite Z.
      * destruct Z as [->|[]]. now left.
    + now rewrite V.
    + destruct V as [->|[]]. now left.
  - cbn [orel]. exists s'. repeat split; auto.
Qed.

Lemma along_pair fuel n o axis shape xs ys : Forall2 RX xs ys ->
  orel False (fun a b : raster double => rshape a = rshape b /\ Forall2 (R (length k)) (rdata a) (rdata b))
    (correlateAlongD fuel n (mkDkernel k o) axis (mkRaster shape xs)) (correlateAlongD fuel n (mkDkernel k o) axis (mkRaster shape ys)).
Proof.
  intros HD. unfold correlateAlongD. cbn [rshape rdata].
  apply orel_same. intros len. apply orel_same. intros domain. apply orel_same. intros ps.
  apply (orel_bind False (Forall2 (R (length k)))); [|intros out out' HO; cbn; eexists; split; [reflexivity|now split]].
  assert (G : forall out out', Forall2 (R (length k)) out out' -> orel False (Forall2 (R (length k)))
    (eachRow (fun out p => obind (lift (rindex n shape p)) (fun a => correlateD fuel (mkDkernel k o) xs (dsMake a len sdefault (shapeStride shape (Z.to_nat axis))) out (dsMake a len sdefault (shapeStride shape (Z.to_nat axis))))) ps out)
    (eachRow (fun out p => obind (lift (rindex n shape p)) (fun a => correlateD fuel (mkDkernel k o) ys (dsMake a len sdefault (shapeStride shape (Z.to_nat axis))) out (dsMake a len sdefault (shapeStride shape (Z.to_nat axis))))) ps out')).
  { induction ps as [|p ps IH]; intros out out' HO; cbn [eachRow]; [cbn [orel]; eauto|].
    apply (orel_bind False (Forall2 (R (length k)))); auto. apply orel_same. intros a.
    unfold correlateD. cbn [dkvalues dkorigin].
    apply (orel_bind False crelP); [apply loop_pair; [intros; now apply product_pair|repeat split; auto]|]. intros s1 s1' H1.
    apply (orel_bind False crelP); [apply loop_pair; [intros; now apply product_pair|auto]|]. intros s2 s2' H2.
    apply (orel_bind False crelP); [apply loop_pair; [intros; now apply product_pair|auto]|]. intros s3 s3' (_ & _ & _ & H3).
    cbn [orel]. eauto. }
  apply G. clear G. induction (Z.to_nat (shapeSize shape)) as [|m IH]; cbn [repeat]; constructor; auto. apply (Hmono 0); auto; lia.
Qed.
End Pair.

Theorem along_monotone shape xs ys k o a M out out' fuel : PixelsWithin M xs -> PixelsWithin M ys -> 0 <= M -> Forall Finite k -> Forall (fun v => 0 <= real v) k ->
  (Z.of_nat (length k) < 2 ^ 26)%Z -> M * gain k <= pow2 1022 -> Forall2 below xs ys ->
  correlateAlongD fuel (Z.of_nat (length shape)) (mkDkernel k o) a (mkRaster shape xs) = Some (Ok out) ->
  correlateAlongD fuel (Z.of_nat (length shape)) (mkDkernel k o) a (mkRaster shape ys) = Some (Ok out') ->
  rshape out = rshape out' /\ Forall2 below (rdata out) (rdata out').
Proof.
  intros HX HY M0 FK PK HL HG HB E E'.
  pose proof (along_pair k (fun x y => Finite x /\ Rabs (real x) <= M /\ Finite y /\ Rabs (real y) <= M /\ below x y)
    (fun n x y => (exists z, near k M n x z) /\ (exists z, near k M n y z) /\ below x y)) as G.
  assert (G' : orel False (fun a b : raster double => rshape a = rshape b /\ Forall2 (fun x y => (exists z, near k M (length k) x z) /\ (exists z, near k M (length k) y z) /\ below x y) (rdata a) (rdata b))
    (correlateAlongD fuel (Z.of_nat (length shape)) (mkDkernel k o) a (mkRaster shape xs)) (correlateAlongD fuel (Z.of_nat (length shape)) (mkDkernel k o) a (mkRaster shape ys))).
  { apply G; clear G.
    - split; [exists 0%Z; apply near_zero|]. split; [exists 0%Z; apply near_zero|apply Rle_refl].
    - intros n m x y Hnm ([z Z1] & [w Z2] & B). split; [exists z; apply (near_mono k M n); auto; lia|]. split; [exists w; apply (near_mono k M n); auto; lia|exact B].
    - intros n acc acc' v x y Hv (FX & BX & FY & BY & XY) ([z Z1] & [w Z2] & B).
      assert (IV : In v k) by (eapply nth_error_In; eauto). rewrite Forall_forall in FK, PK. destruct (multiple v (FK v IV)) as [vz MV]. destruct (multiple x FX) as [xz MX]. destruct (multiple y FY) as [yz MY].
      destruct (near_step k M n acc z v vz x xz M0 HL HG Hv MV MX BX Z1) as (N1 & _ & P1 & S1).
      destruct (near_step k M n acc' w v vz y yz M0 HL HG Hv MV MY BY Z2) as (N2 & _ & P2 & S2).
      split; [eexists; exact N1|]. split; [eexists; exact N2|]. unfold below, real. rewrite S1, S2. apply round_le; [apply valid64|apply valid_rnd_N|].
      apply Rplus_le_compat; [exact B|]. rewrite P1, P2. apply round_le; [apply valid64|apply valid_rnd_N|]. apply Rmult_le_compat_l; [apply (PK v IV)|exact XY].
    - clear - HX HY HB. unfold PixelsWithin in *. revert HX HY. induction HB as [|x y xs ys H HB IH]; intros HX HY; constructor.
      + inversion HX; inversion HY; subst. intuition.
      + inversion HX; inversion HY; subst. auto. }
  rewrite E, E' in G'. cbn [orel] in G'. destruct G' as (b & Eb & ES & HF). injection Eb as <-. split; [exact ES|].
  apply (forall2_weaken (fun x y => (exists z, near k M (length k) x z) /\ (exists z, near k M (length k) y z) /\ below x y)); auto. now intros x y (_ & _ & H).
Qed.

(** ** Witnesses *)

Lemma integral_ofZ zs : Forall (fun z => (Z.abs z <= 2 ^ 53)%Z) zs -> Integral (map dofZ zs) zs.
Proof. induction 1 as [|z zs H _ IH]; cbn [map]; constructor; auto. destruct (dofZ_small z H) as [V F]. now split. Qed.

Lemma oget {A} (r : option (res (raster A))) : match r with Some (Ok _) => true | _ => false end = true -> r = Some (Ok (match r with Some (Ok v) => v | _ => mkRaster [] [] end)).
Proof. destruct r as [[a|e|]|]; congruence. Qed.

Theorem mirror_witness : exists out out' v w,
  correlateAlongD 20 1 (mkDkernel (map dofZ [1; 1; 1]%Z) 1) 0 (mkRaster [3%Z] (map dofZ [2 ^ 53; 1; 1]%Z)) = Some (Ok out) /\
  correlateAlongD 20 1 (mkDkernel (map dofZ [1; 1; 1]%Z) 1) 0 (mkRaster [3%Z] (map dofZ [1; 1; 2 ^ 53]%Z)) = Some (Ok out') /\
  zget (rdata out) 1 = Ok v /\ zget (rdata out') 1 = Ok w /\ Finite v /\ Finite w /\ real v = IZR (2 ^ 53) /\ real w = IZR (2 ^ 53 + 2) /\
  realAxis [3%Z] (map dofZ [1; 1; 1]%Z) 1 0 (realPixel [3%Z] (map dofZ [2 ^ 53; 1; 1]%Z)) [1%Z] = IZR (2 ^ 53 + 2).
Proof.
  eexists. eexists. eexists. eexists. split; [apply oget; vm_compute; reflexivity|]. split; [apply oget; vm_compute; reflexivity|].
  split; [apply ok_get with (d := dofZ 0); vm_compute; reflexivity|]. split; [apply ok_get with (d := dofZ 0); vm_compute; reflexivity|].
  split; [vm_compute; reflexivity|]. split; [vm_compute; reflexivity|].
  split; [|split].
  - unfold real. erewrite ofsf by (vm_compute; reflexivity). vm_compute. lra.
  - unfold real. erewrite ofsf by (vm_compute; reflexivity). vm_compute. lra.
  - rewrite (realAxis_multiple [3%Z] _ [1; 1; 1]%Z 1 0 _ [2 ^ 53; 1; 1]%Z 1 1 [1%Z]).
    + rewrite Rmult_1_l, Rmult_1_r. f_equal.
    + apply (forall2_weaken (fun x z => Finite x /\ real x = IZR z)); [intros x z [_ H]; lra|]. apply integral_ofZ. repeat constructor; lia.
    + apply (forall2_weaken (fun x z => Finite x /\ real x = IZR z)); [intros x z [_ H]; lra|]. apply integral_ofZ. repeat constructor; lia.
Qed.

(** The same pair of line kernels along the axes in both orders. *)
Theorem order_witness : let k := mkDkernel (map dofZ [1; 1]%Z) 0 in let r := mkRaster [2; 2]%Z (map dofZ [2 ^ 53; 1; - 2 ^ 53; 0]%Z) in
  exists out out' v w,
  correlateSeqD 20 2 [(k, 0%Z); (k, 1%Z)] r = Some (Ok out) /\ correlateSeqD 20 2 [(k, 1%Z); (k, 0%Z)] r = Some (Ok out') /\
  zget (rdata out) 0 = Ok v /\ zget (rdata out') 0 = Ok w /\ Finite v /\ Finite w /\ real v = 0 /\ real w = 1.
Proof.
  cbv zeta. eexists. eexists. eexists. eexists. split; [apply oget; vm_compute; reflexivity|]. split; [apply oget; vm_compute; reflexivity|].
  split; [apply ok_get with (d := dofZ 0); vm_compute; reflexivity|]. split; [apply ok_get with (d := dofZ 0); vm_compute; reflexivity|].
  split; [vm_compute; reflexivity|]. split; [vm_compute; reflexivity|].
  split; unfold real; (erewrite ofsf by (vm_compute; reflexivity)); vm_compute; lra.
Qed.

Lemma dmax_real : Finite dmax /\ real dmax = maxDouble.
Proof. split; [vm_compute; reflexivity|]. unfold real. erewrite ofsf by (vm_compute; reflexivity). unfold maxDouble, SF2R, F2R. cbn [Fnum Fexp cond_Zopp]. reflexivity. Qed.

Theorem overflow_witness : exists out v,
  correlateAlongD 20 1 (mkDkernel (map dofZ [1; 1; -1]%Z) 1) 0 (mkRaster [3%Z] [dmax; dmax; dmax]) = Some (Ok out) /\
  zget (rdata out) 1 = Ok v /\ ~ Finite v /\ realAxis [3%Z] (map dofZ [1; 1; -1]%Z) 1 0 (realPixel [3%Z] [dmax; dmax; dmax]) [1%Z] = maxDouble.
Proof.
  eexists. eexists. split; [apply oget; vm_compute; reflexivity|]. split; [apply ok_get with (d := dofZ 0); vm_compute; reflexivity|].
  split; [vm_compute; discriminate|]. destruct dmax_real as [F V].
  rewrite (realAxis_multiple [3%Z] _ [1; 1; -1]%Z 1 0 _ [1; 1; 1]%Z 1 maxDouble [1%Z]).
  - replace (axisCorrelation _ _ _ _ _ _) with 1%Z by (vm_compute; reflexivity). lra.
  - apply (forall2_weaken (fun x z => Finite x /\ real x = IZR z)); [intros x z [_ H]; lra|]. apply integral_ofZ. repeat constructor; lia.
  - repeat constructor; rewrite V; lra.
Qed.

(** A null value of the kernel on an infinite pixel. *)
Theorem infinite_witness : exists out v,
  correlateAlongD 20 1 (mkDkernel (map dofZ [1; 0; -1]%Z) 1) 0 (mkRaster [3%Z] [dofZ 3; dinf; dofZ 1]) = Some (Ok out) /\
  zget (rdata out) 1 = Ok v /\ is_nan v = true.
Proof.
  eexists. eexists. split; [apply oget; vm_compute; reflexivity|]. split; [apply ok_get with (d := dofZ 0); vm_compute; reflexivity|]. vm_compute. reflexivity.
Qed.

(** ** Hypotheses are met *)

Lemma real_ofZ z : (Z.abs z <= 2 ^ 53)%Z -> Finite (dofZ z) /\ real (dofZ z) = IZR z.
Proof. intros H. destruct (dofZ_small z H) as [V F]. now split. Qed.
Lemma gain_ofZ l : Forall (fun z => (Z.abs z <= 2 ^ 53)%Z) l -> gain (map dofZ l) = IZR (sumAbs l).
Proof.
  unfold gain, totalR, sumAbs, total. induction 1 as [|z l H _ IH]; cbn [map fold_right]; [reflexivity|]. rewrite IH, plus_IZR, abs_IZR. now rewrite (proj2 (real_ofZ z H)).
Qed.
Lemma finite_ofZ l : Forall (fun z => (Z.abs z <= 2 ^ 53)%Z) l -> Forall Finite (map dofZ l).
Proof. induction 1 as [|z l H _ IH]; cbn [map]; constructor; auto. apply real_ofZ; auto. Qed.
Lemma within_ofZ l M : Forall (fun z => (Z.abs z <= M)%Z) l -> (M <= 2 ^ 53)%Z -> PixelsWithin (IZR M) (map dofZ l).
Proof.
  intros H HM. unfold PixelsWithin. induction H as [|z l H _ IH]; cbn [map]; constructor; auto. destruct (real_ofZ z ltac:(lia)) as [F V]. split; [exact F|]. rewrite V, <- abs_IZR. now apply IZR_le.
Qed.

Theorem along_met : FitsD [3; 2]%Z (map dofZ [1; 2; 1]%Z, 1%Z, 0%nat) /\ PixelsWithin 32 (map dofZ [1; 2; 4; 8; 16; 32]%Z) /\
  32 * gain (map dofZ [1; 2; 1]%Z) <= pow2 1022.
Proof.
  split; [|split].
  - split; [cbn; lia|]. split; [cbn; lia|]. split; [cbn; lia|]. split; [cbn; lia|]. split; [cbn; lia|]. apply finite_ofZ. repeat constructor; lia.
  - apply within_ofZ; [repeat constructor; lia|lia].
  - rewrite gain_ofZ by (repeat constructor; lia). replace (sumAbs [1; 2; 1]%Z) with 4%Z by reflexivity. apply Rle_trans with (pow2 7); [cbn; lra|apply bpow_le; lia].
Qed.

Theorem error_met : let ks := [(map dofZ [1; 2; 1]%Z, 1%Z, 0%nat); (map dofZ [1; 1]%Z, 0%Z, 1%nat)] in let xs := map dofZ [1; 2; 4; 8; 16; 32]%Z in
  Forall (FitsD [3; 2]%Z) ks /\ PixelsWithin 32 xs /\ Moderate ks 32.
Proof.
  cbv zeta. destruct along_met as (A & B & C). split; [|split; [exact B|]].
  - constructor; [exact A|]. constructor; [|constructor]. split; [cbn; lia|]. split; [cbn; lia|]. split; [cbn; lia|]. split; [cbn; lia|]. split; [cbn; lia|]. apply finite_ofZ. repeat constructor; lia.
  - cbn [Moderate]. split; [exact C|]. split; [|exact I]. unfold axisError. rewrite !gain_ofZ by (repeat constructor; lia). 
    replace (sumAbs [1; 2; 1]%Z) with 4%Z by reflexivity. replace (sumAbs [1; 1]%Z) with 2%Z by reflexivity. cbn [map length].
    replace (Z.of_nat 3 + 2)%Z with 5%Z by reflexivity. replace (Z.of_nat 3) with 3%Z by reflexivity.
    assert (pow2 (-53) <= 1) by (change 1 with (pow2 0); apply bpow_le; lia). assert (pow2 (-1073) <= 1) by (change 1 with (pow2 0); apply bpow_le; lia).
    apply Rle_trans with (pow2 12); [|apply bpow_le; lia]. change (pow2 12) with 4096. lra.
Qed.

Theorem integers_met : let ls := [([1; 0; -1], 1, 0%nat); ([1; 2; 1], 1, 1%nat)]%Z in let zs := [1; 2; 4; 1; 2; 4; 1; 2; 255]%Z in
  Forall2 IntegralKernel (map (fun loa => (map dofZ (fst (fst loa)), snd (fst loa), snd loa)) ls) ls /\ Forall (Fits [3; 3]%Z) ls /\ Integral (map dofZ zs) zs /\
  (forall z, In z zs -> (Z.abs z <= 255)%Z) /\ Small ls 255.
Proof.
  cbv zeta. split; [|split; [|split; [|split]]].
  - repeat constructor; cbn [fst snd]; apply real_ofZ; lia.
  - repeat constructor; cbn; lia.
  - apply integral_ofZ. repeat constructor; lia.
  - cbn. intros z H. repeat destruct H as [<-|H]; try lia.
  - cbn. lia.
Qed.

Theorem monotone_met : exists out out',
  correlateAlongD 20 1 (mkDkernel (map dofZ [1; 2; 1]%Z) 1) 0 (mkRaster [3%Z] (map dofZ [1; 2; 3]%Z)) = Some (Ok out) /\
  correlateAlongD 20 1 (mkDkernel (map dofZ [1; 2; 1]%Z) 1) 0 (mkRaster [3%Z] (map dofZ [1; 2; 4]%Z)) = Some (Ok out') /\
  Forall (fun v => 0 <= real v) (map dofZ [1; 2; 1]%Z) /\ Forall2 below (map dofZ [1; 2; 3]%Z) (map dofZ [1; 2; 4]%Z).
Proof.
  eexists. eexists. split; [apply oget; vm_compute; reflexivity|]. split; [apply oget; vm_compute; reflexivity|].
  cbn [map]. unfold below. split; repeat constructor; rewrite ?(proj2 (real_ofZ 1 ltac:(lia))), ?(proj2 (real_ofZ 2 ltac:(lia))), ?(proj2 (real_ofZ 3 ltac:(lia))), ?(proj2 (real_ofZ 4 ltac:(lia))); lra.
Qed.
