(** ND kernels of integers on doubles which are whole numbers. *)
From Coq Require Import Reals Lra Lia.
From Flocq Require Import Core IEEE754.BinarySingleNaN.
From Verif Require Import Res Lemmas VecModel BoxModel RasterModel SamplingModel WidthModel FloatModel TypedMedianModel MixedModel TypedKernelModel
  Spec RasterSpec KernelSpec WidthSpec MixedSpec FloatSpec FloatKernelSpec TypedKernelSpec IndexProofs AccessProofs SamplingProofs WidthProofs KernelProofs MixedProofs FloatProofs TypedMedianFloatProofs TypedKernelProofs TypedKernelTypesProofs.
Open Scope Z_scope.

Lemma trunc_int t x z : Wf t -> isInt x z -> InType t z -> dtruncTo t x = Ok z.
Proof. intros W (F & V) H. apply (dtruncTo_spec t x z W). split; [exact F|]. split; [|exact H]. unfold real. now rewrite V, Ztrunc_IZR. Qed.

Lemma abs_in t z : isigned t = true -> Z.abs z <= itmax t -> InType t z.
Proof. intros S. unfold InType, itmin, itmax. rewrite S. lia. Qed.

Lemma step_bound K M acc k y n : Z.abs k <= K -> Z.abs y <= M -> 0 <= K -> 0 <= M -> Z.abs acc <= n * (K * M) -> Z.abs (acc + k * y) <= (n + 1) * (K * M).
Proof.
  intros Hk Hy HK HM HB. assert (P : Z.abs (k * y) <= K * M) by (rewrite Z.abs_mul; apply Z.mul_le_mono_nonneg; lia).
  assert (T := Z.abs_triangle acc (k * y)). rewrite Z.mul_add_distr_r. lia.
Qed.

Lemma sum_bound K M (l : list (Z * Z)) : 0 <= K -> 0 <= M -> Forall (fun kx => Z.abs (fst kx) <= K /\ Z.abs (snd kx) <= M) l ->
  Z.abs (total (map (fun kx => fst kx * snd kx) l)) <= Z.of_nat (length l) * (K * M).
Proof.
  intros HK HM. induction 1 as [|(k, y) l (Hk & Hy) _ IH]; cbn [map length]; [unfold total; cbn [fold_right]; lia|]. rewrite total_cons. cbn [fst snd] in *.
  rewrite Z.add_comm. replace (Z.of_nat (S (length l))) with (Z.of_nat (length l) + 1) by lia. now apply step_bound.
Qed.

Lemma weighted_truncates t K M m : Wf t -> isigned t = true -> 0 <= K -> 0 <= M -> K <= 2 ^ 53 -> m * (K * M) <= itmax t -> m * (K * M) <= 2 ^ 53 ->
  forall values xs ys, Forall2 isInt xs ys -> Forall (fun kx => Z.abs (fst kx) <= K /\ Z.abs (snd kx) <= M) (combine values ys) ->
  forall n acc, 0 <= n -> n + Z.of_nat (length (combine values ys)) <= m -> Z.abs acc <= n * (K * M) ->
  weighted (intDoubleStep t) acc (combine values xs) = Ok (acc + intSum values ys).
Proof.
  intros W S HK HM HK53 HT H53. assert (P0 : 0 <= K * M) by (apply Z.mul_nonneg_nonneg; lia).
  induction values as [|k values IH]; intros xs ys HX HB n acc Hn Hl HA.
  { unfold intSum, total. cbn [combine weighted map fold_right]. now rewrite Z.add_0_r. }
  destruct HX as [|x y xs ys Hx HX]; [unfold intSum, total; cbn [combine weighted map fold_right]; now rewrite Z.add_0_r|].
  cbn [combine weighted length] in *. apply Forall_cons_iff in HB as ((Hk & Hy) & HB). cbn [fst snd] in Hk, Hy.
  assert (B := step_bound K M acc k y n Hk Hy HK HM HA). assert (P : Z.abs (k * y) <= K * M) by (rewrite Z.abs_mul; apply Z.mul_le_mono_nonneg; lia).
  assert (B1 : (n + 1) * (K * M) <= m * (K * M)) by (apply Z.mul_le_mono_nonneg_r; lia).
  assert (B2 : 1 * (K * M) <= m * (K * M)) by (apply Z.mul_le_mono_nonneg_r; lia).
  assert (B3 : n * (K * M) <= m * (K * M)) by (apply Z.mul_le_mono_nonneg_r; lia).
  assert (E : intDoubleStep t acc k x = Ok (acc + k * y)).
  { unfold intDoubleStep. apply trunc_int; auto.
    - apply int_add; [apply int_ofZ; lia| |lia]. apply int_mul; [apply int_ofZ; lia|exact Hx|lia].
    - apply abs_in; auto. lia. }
  rewrite E. cbn [bind]. rewrite (IH xs ys HX HB (n + 1) (acc + k * y)); try lia. f_equal. unfold intSum. cbn [combine map]. rewrite total_cons. cbn [fst snd]. lia.
Qed.

Lemma converted_ints t xs ys : Wf t -> Forall2 isInt xs ys -> Forall (InType t) ys -> converted (dtruncTo t) xs = Ok ys.
Proof.
  intros W. induction 1 as [|x y xs ys Hx _ IH]; intros HI; cbn [converted]; [reflexivity|]. apply Forall_cons_iff in HI as (Iy & HI).
  rewrite (trunc_int t x y W Hx Iy). cbn [bind]. now rewrite (IH HI).
Qed.

Theorem int_double_kernel t n shape f b values data ext image out K M : Wf t -> isigned t = true -> n = Z.of_nat (length shape) -> Applies shape f b values data ext image -> WF out -> rshape out = shape ->
  0 <= K <= 2 ^ 53 -> 0 <= M <= itmax t -> windowSize f b * (K * M) <= itmax t -> windowSize f b * (K * M) <= 2 ^ 53 -> Forall (fun k => InType t k /\ Z.abs k <= K) values ->
  Forall (fun x => exists y, Finite x /\ real x = IZR y /\ Z.abs y <= M) data ->
  (forall q, length q = length shape -> exists y, Finite (image q) /\ real (image q) = IZR y /\ Z.abs y <= M) ->
  exists out' enough, (forall fuel, (enough <= fuel)%nat -> intDoubleCorrelateTo t fuel n values (mkBox f b) (mkRaster shape data) ext out = Some (Ok out')) /\
    WF out' /\ rshape out' = shape /\
    forall p xs, InDomain shape p -> PixelsRead shape f b data image p xs ->
      exists ys v, Integral xs ys /\ zget (rdata out') (rank shape p) = Ok v /\ Finite v /\ real v = IZR (intSum values ys).
Proof.
  intros W Sg Hn HA Hwf Hshape HK HM HT H53 HV HD HI. unfold intDoubleCorrelateTo.
  assert (Key : forall p xs, PixelsRead shape f b data image p xs -> exists ys, Integral xs ys /\ Z.abs (intSum values ys) <= 2 ^ 53 /\
    innerResult 0 (intDoubleStep t) (fun s => Ok (dofZ s)) values xs = Ok (dofZ (intSum values ys)) /\
    borderResult 0 (innerStep t t) (dtruncTo t) (fun s => Ok (dofZ s)) values xs = Ok (dofZ (intSum values ys))).
  { intros p xs HR. destruct (read_elements shape f b values data ext image p xs HA HR) as (L & HX).
    assert (Hys : exists ys, Forall2 isInt xs ys /\ Forall (fun y => Z.abs y <= M) ys).
    { clear L HR. rewrite Forall_forall in HD. induction HX as [|x xs Hx _ IH]; [exists []; auto|]. destruct IH as (ys & H1 & H2).
      assert (Hy : exists y, isInt x y /\ Z.abs y <= M).
      { destruct Hx as [I|(q & Lq & ->)]; [destruct (HD x I) as (y & F & R & B)|destruct (HI q Lq) as (y & F & R & B)]; exists y; (split; [split; [exact F|exact R]|exact B]). }
      destruct Hy as (y & Iy & By). exists (y :: ys). auto. }
    destruct Hys as (ys & HX1 & HB). exists ys. split; [exact HX1|].
    assert (Ly : length ys = length values) by (rewrite <- L; symmetry; now apply BoxIterProofs.Forall2_len in HX1).
    assert (HC : Forall (fun kx => (InType t (fst kx) /\ Z.abs (fst kx) <= K) /\ (InType t (snd kx) /\ Z.abs (snd kx) <= M)) (combine values ys)).
    { apply Forall_forall. intros (k, y) I. assert (Ik := in_combine_l _ _ _ _ I). assert (Iy := in_combine_r _ _ _ _ I). cbn [fst snd]. rewrite Forall_forall in HV, HB.
      split; [now apply HV|]. assert (B := HB y Iy). split; [|exact B]. apply abs_in; auto. lia. }
    assert (HC2 : Forall (fun kx => Z.abs (fst kx) <= K /\ Z.abs (snd kx) <= M) (combine values ys)).
    { eapply Forall_impl; [|exact HC]. intros kx ((_ & A) & (_ & B)). auto. }
    assert (Lc : Z.of_nat (length (combine values ys)) = windowSize f b) by (destruct HA as (_ & _ & _ & _ & _ & Hv & _); rewrite combine_length; lia).
    assert (SB := sum_bound K M (combine values ys) (proj1 HK) (proj1 HM) HC2). rewrite Lc in SB. fold (intSum values ys) in SB. split; [lia|]. split.
    - unfold innerResult. rewrite (weighted_truncates t K M (windowSize f b) W Sg (proj1 HK) (proj1 HM) (proj2 HK) HT H53 values xs ys HX1 HC2 0 0); try lia. reflexivity.
    - unfold borderResult. rewrite (converted_ints t xs ys W HX1); [|eapply Forall_impl; [|exact HB]; intros y B; apply abs_in; [auto|cbn beta in B; lia]]. cbn [bind].
      assert (NU := weighted_defined t K M (windowSize f b) (combine values ys) W (proj1 HK) (proj1 HM) (or_intror (or_introl (conj Sg HT))) HC 0 0 ltac:(lia) ltac:(lia) (proj1 (wrapped_zero t W)) ltac:(lia)).
      assert (SW := weighted_wraps t (combine values ys) W 0 0 (wrapped_zero t W)). destruct (weighted (innerStep t t) 0 (combine values ys)) as [a| |]; [|destruct SW|congruence].
      cbn [bind]. do 2 f_equal. apply (in_type_wrapped t (intSum values ys) a W); [apply abs_in; auto; lia|exact SW]. }
  destruct (typed_spec 0 (intDoubleStep t) (innerStep t t) (dtruncTo t) (fun s => Ok (dofZ s)) (fun a k x => dtruncTo_nothrow t _) (innerStep_nothrow t t) (dtruncTo_nothrow t) (fun _ _ => ltac:(discriminate))
    n shape f b values data ext image out Hn HA Hwf Hshape) as (r & e & E & H).
  destruct H as [(-> & p & Hp & xs & HR & G)|(out' & -> & W' & S' & G)].
  - exfalso. destruct (Key p xs HR) as (ys & _ & _ & E1 & E2). destruct G as [(_ & G)|(_ & G)]; [rewrite E1 in G|rewrite E2 in G]; discriminate.
  - exists out', e. split; [exact E|]. split; [auto|]. split; [auto|]. intros p xs Hp HR. destruct (Key p xs HR) as (ys & HX & HB & E1 & E2).
    destruct (G p Hp) as (v & Gv & Ev). exists ys, v. split; [exact HX|]. split; [exact Ev|].
    destruct (typed_unique 0 (intDoubleStep t) (innerStep t t) (dtruncTo t) (fun s => Ok (dofZ s)) shape f b values data ext image p HA) as (_ & U).
    assert (EQ : v = dofZ (intSum values ys)).
    { destruct (typed_gets 0 (intDoubleStep t) (innerStep t t) (dtruncTo t) (fun s => Ok (dofZ s)) _ _ _ _ _ _ _ _ _ HA HR) as [G'|G']; [rewrite E1 in G'|rewrite E2 in G'];
        specialize (U _ _ Gv G'); congruence. }
    subst v. exact (int_ofZ _ HB).
Qed.

Theorem int_double_met : let data := map dofZ [1; 2; 4; 8; 16; 32] in
  Applies [3; 2] [-1; 0] [1; 0] [1; 2; 1] data (fun q => Ok (dofZ 3)) (fun _ => dofZ 3) /\ windowSize [-1; 0] [1; 0] * (2 * 32) <= itmax int32 /\
  windowSize [-1; 0] [1; 0] * (2 * 32) <= 2 ^ 53 /\ Forall (fun k => InType int32 k /\ Z.abs k <= 2) [1; 2; 1] /\
  Forall (fun x => exists y, Finite x /\ real x = IZR y /\ Z.abs y <= 32) data /\ (exists y, Finite (dofZ 3) /\ real (dofZ 3) = IZR y /\ Z.abs y <= 32).
Proof.
  cbv zeta. split; [now apply (applies_met _ _ (fun _ => dofZ 3))|]. split; [vm_compute; discriminate|]. split; [vm_compute; discriminate|].
  split; [repeat constructor; vm_compute; discriminate|].
  assert (A : forall z, Z.abs z <= 32 -> exists y, Finite (dofZ z) /\ real (dofZ z) = IZR y /\ Z.abs y <= 32).
  { intros z B. exists z. destruct (int_ofZ z ltac:(lia)) as (F & V). auto. }
  split; [|apply A; lia]. cbn [map]. apply Forall_forall. intros x [<-|[<-|[<-|[<-|[<-|[<-|[]]]]]]]; apply A; lia.
Qed.
