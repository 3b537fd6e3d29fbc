(** ND kernels: integers, doubles, and both. *)
From Coq Require Import Reals Lra.
From Flocq Require Import Core IEEE754.BinarySingleNaN.
From Verif Require Import Res Lemmas VecModel BoxModel RasterModel SamplingModel LineKernelModel SeparableModel WidthModel FloatModel TypedMedianModel MixedModel TypedKernelModel
  Spec RasterSpec KernelSpec WidthSpec MixedSpec FloatSpec FloatKernelSpec TypedKernelSpec IndexProofs AccessProofs SamplingProofs WidthProofs KernelProofs MixedProofs FloatProofs QuantileProofs FloatKernelProofs TypedMedianProofs TypedKernelProofs.
Open Scope Z_scope.

Lemma converted_Ok {X} (l : list X) : converted (@Ok X) l = Ok l.
Proof. induction l as [|x l IH]; cbn [converted bind]; [reflexivity|]. rewrite IH. reflexivity. Qed.
Lemma bind_Ok_r {X} (r : res X) : (s <- r ;; Ok s) = r.
Proof. destruct r; reflexivity. Qed.

Lemma innerStep_nothrow t u acc k x : NoThrow (innerStep t u acc k x).
Proof.
  intros e. unfold innerStep, arith. cbv zeta. destruct (isigned _); [|discriminate]. destruct (fits _ _); cbn [bind]; [|discriminate]. destruct (fits _ _); discriminate.
Qed.
Lemma dtruncTo_nothrow t x : NoThrow (dtruncTo t x).
Proof. intros e. unfold dtruncTo. destruct x; try discriminate. cbv zeta. destruct (fits _ _); discriminate. Qed.

(** Integers *)
Lemma total_cons a l : total (a :: l) = a + total l.
Proof. reflexivity. Qed.

Lemma weighted_wraps t l : Wf t -> forall acc acc0, Wrapped t acc0 acc ->
  match weighted (innerStep t t) acc l with Ok a => Wrapped t (acc0 + total (map (fun kx => fst kx * snd kx) l)) a | Throw _ => False | UB => True end.
Proof.
  intros W. induction l as [|(k, x) l IH]; intros acc acc0 H; cbn [weighted map].
  - unfold total. cbn [fold_right]. now rewrite Z.add_0_r.
  - assert (S := step_wraps t t acc acc0 k x x W (proj2 H) ltac:(exists 0; lia)). destruct (innerStep t t acc k x) as [a| |]; cbn [bind]; auto.
    specialize (IH a (acc0 + k * x) S). rewrite total_cons. cbn [fst snd]. now rewrite Z.add_assoc.
Qed.

Lemma weighted_defined t K M m l : Wf t -> 0 <= K -> 0 <= M -> NoOverflow t t m K M ->
  Forall (fun kx => (InType t (fst kx) /\ Z.abs (fst kx) <= K) /\ (InType t (snd kx) /\ Z.abs (snd kx) <= M)) l ->
  forall n acc, 0 <= n -> n + Z.of_nat (length l) <= m -> InType t acc -> (isigned t = true -> m * (K * M) <= itmax t -> Z.abs acc <= n * (K * M)) ->
  weighted (innerStep t t) acc l <> UB.
Proof.
  intros W HK HM HN. induction 1 as [|(k, x) l ((Ik & Bk) & (Ix & Bx)) _ IH]; intros n acc Hn Hl HI HB; cbn [weighted]; [discriminate|]. cbn [fst snd length] in *.
  destruct (step_defined t t acc k x n m K M) as (a & E & B); auto; try lia. rewrite E. cbn [bind]. apply (IH (n + 1) a); auto; try lia.
  assert (S := step_wraps t t acc acc k x x W ltac:(exists 0; lia) ltac:(exists 0; lia)). rewrite E in S. apply S.
Qed.

Theorem int_kernel t n shape f b values data ext image out : Wf t -> n = Z.of_nat (length shape) -> Applies shape f b values data ext image -> WF out -> rshape out = shape ->
  exists r enough, (forall fuel, (enough <= fuel)%nat -> intCorrelateTo t fuel n values (mkBox f b) (mkRaster shape data) ext out = Some r) /\
    (r = UB \/ exists out', r = Ok out' /\ WF out' /\ rshape out' = shape /\
       forall p xs, InDomain shape p -> PixelsRead shape f b data image p xs -> exists v, zget (rdata out') (rank shape p) = Ok v /\ Wrapped t (intSum values xs) v) /\
    (forall K M, 0 <= K -> 0 <= M -> NoOverflow t t (windowSize f b) K M -> Forall (fun k => InType t k /\ Z.abs k <= K) values ->
       Forall (fun x => InType t x /\ Z.abs x <= M) data -> (forall q, length q = length shape -> InType t (image q) /\ Z.abs (image q) <= M) -> r <> UB).
Proof.
  intros W Hn HA Hwf Hshape. unfold intCorrelateTo.
  destruct (typed_uniform 0 (innerStep t t) (innerStep t t) (@Ok Z) (@Ok Z) (innerStep_nothrow t t) (innerStep_nothrow t t) (fun _ _ => ltac:(discriminate)) (fun _ _ => ltac:(discriminate))
    (fun xs => weighted (innerStep t t) 0 (combine values xs)) n shape f b values data ext image out) as (r & e & E & H); auto.
  { intros xs. unfold innerResult. apply bind_Ok_r. }
  { intros xs. unfold borderResult. rewrite converted_Ok. cbn [bind]. apply bind_Ok_r. }
  exists r, e. split; [exact E|]. split.
  - destruct H as [(-> & _)|(out' & -> & W' & S' & G)]; [now left|right]. exists out'. split; [reflexivity|]. split; [auto|]. split; [auto|].
    intros p xs Hp HR. destruct (G p xs Hp HR) as (v & Ev & Gv). exists v. split; [auto|].
    assert (S := weighted_wraps t (combine values xs) W 0 0 (wrapped_zero t W)). rewrite Ev in S. exact S.
  - intros K M HK HM HN HV HD HI C. destruct H as [(-> & p & xs & Hp & HR & EU)|(out' & -> & _)]; [|discriminate].
    destruct (read_elements shape f b values data ext image p xs HA HR) as (L & HX).
    refine (weighted_defined t K M (windowSize f b) (combine values xs) W HK HM HN _ 0 0 _ _ _ _ EU); try lia.
    + apply Forall_forall. intros (k, x) Hkx. assert (Hk := in_combine_l _ _ _ _ Hkx). assert (Hx := in_combine_r _ _ _ _ Hkx). cbn [fst snd].
      rewrite Forall_forall in HV, HD, HX. split; [now apply HV|]. destruct (HX x Hx) as [I|(q & Lq & ->)]; [now apply HD|now apply HI].
    + destruct HA as (_ & _ & _ & _ & _ & Hv & _). rewrite combine_length. lia.
    + apply (wrapped_zero t W).
Qed.

(** Doubles *)
Lemma weighted_double values xs M : Forall Finite values -> PixelsWithin M xs -> length xs = length values -> (0 <= M)%R -> (Z.of_nat (length values) < 2 ^ 26)%Z ->
  (M * gain values <= bpow radix2 1022)%R ->
  exists v, weighted doubleStep (dofZ 0) (combine values xs) = Ok v /\ Finite v /\ (Rabs (real v - realSum values xs) <= axisError values M)%R.
Proof.
  intros HV HX HL M0 HN HG. destruct (multiples values HV) as (ks & Hks).
  assert (Hys : exists ys, Forall2 isMultiple xs ys) by (apply multiples; clear - HX; induction HX as [|x xs (H & _) _ IH]; constructor; auto).
  destruct Hys as (ys & Hys).
  assert (G : forall done todo xs' ys' acc acc0 kt, values = done ++ todo -> length xs' = length todo -> Forall2 isMultiple todo kt -> Forall2 isMultiple xs' ys' -> PixelsWithin M xs' ->
    near values M (length done) acc acc0 ->
    exists v, weighted doubleStep acc (combine todo xs') = Ok v /\ near values M (length values) v (acc0 + total (map (fun kx => fst kx * snd kx) (combine kt ys')))%Z).
  { intros done todo. revert done. induction todo as [|k todo IH]; intros done xs' ys' acc acc0 kt Ev Hl Hk Hy Hw Hnear.
    - cbn [combine weighted]. inversion Hk; subst kt. cbn [combine map]. unfold total. cbn [fold_right]. rewrite Z.add_0_r. exists acc. split; [reflexivity|].
      rewrite app_nil_r in Ev. now subst done.
    - destruct xs' as [|x xs']; [discriminate|]. inversion Hk as [|? k0 ? kt' K1 K2]; subst. inversion Hy as [|? y ? ys2 Y1 Y2]; subst. inversion Hw as [|? ? (X1 & X2) X3]; subst.
      destruct (near_step (done ++ k :: todo) M (length done) acc acc0 k k0 x y) as (S & _); auto.
      { rewrite nth_error_app2 by lia. now rewrite Nat.sub_diag. }
      cbn [combine weighted]. unfold doubleStep at 1. cbn [bind].
      destruct (IH (done ++ [k]) xs' ys2 (dadd acc (dmul k x)) (acc0 + k0 * y)%Z kt') as (v & Hv & Nv); auto.
      { now rewrite <- app_assoc. }
      { rewrite app_length. cbn [length]. now rewrite Nat.add_1_r. }
      exists v. split; [exact Hv|]. cbn [combine map]. rewrite total_cons. cbn [fst snd]. now rewrite Z.add_assoc. }
  destruct (G [] values xs ys (dofZ 0) 0%Z ks eq_refl HL Hks Hys HX (near_zero values M)) as (v & Ev & (N1 & N2 & N3)).
  exists v. split; [exact Ev|]. split; [exact N1|].
  assert (E : realSum values xs = (IZR (0 + total (map (fun kx => (fst kx * snd kx)%Z) (combine ks ys))) * qq)%R).
  { rewrite Z.add_0_l. unfold realSum. clear - Hks Hys HL. revert xs ys Hys HL. induction Hks as [|k k0 values ks (K1 & K2) _ IH]; intros xs ys Hys HL.
    - cbn. lra.
    - destruct xs as [|x xs]; [discriminate|]. inversion Hys as [|? y ? ys' (Y1 & Y2) Y3]; subst. cbn [combine map]. rewrite total_cons. unfold totalR in *. cbn [fold_right fst snd].
      rewrite (IH xs ys') by (auto; cbn in HL; lia). rewrite plus_IZR, mult_IZR. unfold real. rewrite K2, Y2. unfold qq. ring. }
  rewrite E. apply Rle_trans with (1 := N2). now apply errAt_final.
Qed.

Theorem double_kernel n shape f b values data ext image out M : n = Z.of_nat (length shape) -> Applies shape f b values data ext image -> WF out -> rshape out = shape ->
  (0 <= M)%R -> Forall Finite values -> PixelsWithin M data -> (forall q, length q = length shape -> Finite (image q) /\ (Rabs (real (image q)) <= M)%R) ->
  windowSize f b < 2 ^ 26 -> (M * gain values <= bpow radix2 1022)%R ->
  exists out' enough, (forall fuel, (enough <= fuel)%nat -> doubleCorrelateTo fuel n values (mkBox f b) (mkRaster shape data) ext out = Some (Ok out')) /\
    WF out' /\ rshape out' = shape /\
    forall p xs, InDomain shape p -> PixelsRead shape f b data image p xs ->
      exists v, zget (rdata out') (rank shape p) = Ok v /\ Finite v /\ (Rabs (real v - realSum values xs) <= axisError values M)%R.
Proof.
  intros Hn HA Hwf Hshape M0 HV HD HI HN HG. assert (Hv : Z.of_nat (length values) = windowSize f b) by (destruct HA as (_ & _ & _ & _ & _ & Hv & _); exact Hv).
  assert (D : forall p xs, PixelsRead shape f b data image p xs ->
    exists v, weighted doubleStep (dofZ 0) (combine values xs) = Ok v /\ Finite v /\ (Rabs (real v - realSum values xs) <= axisError values M)%R).
  { intros p xs HR. destruct (read_elements shape f b values data ext image p xs HA HR) as (L & HX). apply weighted_double; auto; [|lia].
    apply Forall_forall. intros x Hx. rewrite Forall_forall in HX. unfold PixelsWithin in HD. rewrite Forall_forall in HD. destruct (HX x Hx) as [I|(q & Lq & ->)]; [now apply HD|now apply HI]. }
  unfold doubleCorrelateTo.
  destruct (typed_uniform (dofZ 0) doubleStep doubleStep (@Ok double) (@Ok double) (fun _ _ _ _ => ltac:(discriminate)) (fun _ _ _ _ => ltac:(discriminate)) (fun _ _ => ltac:(discriminate)) (fun _ _ => ltac:(discriminate))
    (fun xs => weighted doubleStep (dofZ 0) (combine values xs)) n shape f b values data ext image out) as (r & e & E & H); auto.
  { intros xs. unfold innerResult. apply bind_Ok_r. }
  { intros xs. unfold borderResult. rewrite converted_Ok. cbn [bind]. apply bind_Ok_r. }
  destruct H as [(_ & p & xs & _ & HR & EU)|(out' & -> & W' & S' & G)].
  - destruct (D p xs HR) as (v & Ev & _). congruence.
  - exists out', e. split; [exact E|]. split; [auto|]. split; [auto|]. intros p xs Hp HR. destruct (G p xs Hp HR) as (v & Ev & Gv). destruct (D p xs HR) as (w & Ew & Fw). exists v.
    split; [auto|]. assert (v = w) by congruence. now subst w.
Qed.

(** Doubles and integers *)
Lemma converted_map {X V} (g : X -> V) (l : list X) : converted (fun x => Ok (g x)) l = Ok (map g l).
Proof. induction l as [|x l IH]; cbn [converted bind map]; [reflexivity|]. rewrite IH. reflexivity. Qed.

Lemma weighted_map {V X Y} (step : V -> V -> Y -> res V) (g : X -> Y) values xs : forall acc,
  weighted (fun a k x => step a k (g x)) acc (combine values xs) = weighted step acc (combine values (map g xs)).
Proof. revert xs. induction values as [|k values IH]; intros [|x xs] acc; cbn [combine map weighted]; auto. destruct (step acc k (g x)); cbn [bind]; auto. Qed.

Theorem double_int_kernel t n shape f b values data ext image out : n = Z.of_nat (length shape) -> Applies shape f b values data ext image -> WF out -> rshape out = shape ->
  exists r enough, (forall fuel, (enough <= fuel)%nat -> doubleIntCorrelateTo t fuel n values (mkBox f b) (mkRaster shape data) ext out = Some r) /\
    ((r = UB /\ exists p xs, InDomain shape p /\ PixelsRead shape f b data image p xs /\
        (s <- weighted doubleStep (dofZ 0) (combine values (map dofZ xs)) ;; dtruncTo t s) = UB) \/
     exists out', r = Ok out' /\ WF out' /\ rshape out' = shape /\
       forall p xs, InDomain shape p -> PixelsRead shape f b data image p xs ->
         exists s v, weighted doubleStep (dofZ 0) (combine values (map dofZ xs)) = Ok s /\ dtruncTo t s = Ok v /\ zget (rdata out') (rank shape p) = Ok v).
Proof.
  intros Hn HA Hwf Hshape. unfold doubleIntCorrelateTo.
  destruct (typed_uniform (dofZ 0) (fun acc k x => doubleStep acc k (dofZ x)) doubleStep (fun x => Ok (dofZ x)) (dtruncTo t)
    (fun _ _ _ _ => ltac:(discriminate)) (fun _ _ _ _ => ltac:(discriminate)) (fun _ _ => ltac:(discriminate)) (dtruncTo_nothrow t)
    (fun xs => s <- weighted doubleStep (dofZ 0) (combine values (map dofZ xs)) ;; dtruncTo t s) n shape f b values data ext image out) as (r & e & E & H); auto.
  { intros xs. unfold innerResult. now rewrite (weighted_map doubleStep dofZ). }
  { intros xs. unfold borderResult. rewrite converted_map. reflexivity. }
  exists r, e. split; [exact E|]. destruct H as [H|(out' & -> & W' & S' & G)]; [now left|right]. exists out'. split; [reflexivity|]. split; [auto|]. split; [auto|].
  intros p xs Hp HR. destruct (G p xs Hp HR) as (v & Ev & Gv). destruct (weighted doubleStep (dofZ 0) _) as [s| |]; cbn [bind] in Ev; try discriminate. exists s, v. auto.
Qed.

(** Kernel of integers on doubles: truncation at each step, or of the pixels *)
Theorem mixed_witness : exists out v w,
  intDoubleCorrelateTo (mkItype true 32) 20 1 [0; 2; 0] (mkBox [-1] [1]) (mkRaster [3] (repeat (dlit 3 (-1)) 3)) (fun _ => Ok (dlit 3 (-1))) (mkRaster [3] (repeat (dofZ 0) 3)) = Some (Ok out) /\
  zget (rdata out) 1 = Ok v /\ zget (rdata out) 0 = Ok w /\ Finite v /\ Finite w /\ real v = 3%R /\ real w = 2%R /\ real (dlit 3 (-1)) = (3 / 2)%R.
Proof.
  eexists. eexists. eexists. split; [apply oget; vm_compute; reflexivity|].
  split; [apply ok_get with (d := dofZ 0); vm_compute; reflexivity|]. split; [apply ok_get with (d := dofZ 0); vm_compute; reflexivity|].
  split; [vm_compute; reflexivity|]. split; [vm_compute; reflexivity|].
  split; [|split]; unfold real; (erewrite ofsf by (vm_compute; reflexivity)); vm_compute; lra.
Qed.

Theorem mixed_refuted : ~ (forall t shape f b values c out' fuel p q v w,
  Applies shape f b values (repeat c (Z.to_nat (prod shape))) (fun _ => Ok c) (fun _ => c) -> Finite c ->
  intDoubleCorrelateTo t fuel (Z.of_nat (length shape)) values (mkBox f b) (mkRaster shape (repeat c (Z.to_nat (prod shape)))) (fun _ => Ok c)
    (mkRaster shape (repeat (dofZ 0) (Z.to_nat (prod shape)))) = Some (Ok out') ->
  InDomain shape p -> InDomain shape q -> zget (rdata out') (rank shape p) = Ok v -> zget (rdata out') (rank shape q) = Ok w -> real v = real w).
Proof.
  intros H. destruct mixed_witness as (out & v & w & E & E1 & E2 & _ & _ & R1 & R2 & _).
  assert (C : real v = real w); [|lra].
  apply (H (mkItype true 32) [3] [-1] [1] [0; 2; 0] (dlit 3 (-1)) out 20%nat [1] [0] v w); auto.
  - split; [discriminate|]. split; [repeat constructor|]. split; [reflexivity|]. split; [reflexivity|]. split; [rc|]. split; [reflexivity|]. split; [|reflexivity].
    exists [1]. split; [reflexivity|]. split; cbn [combine map fst snd]; rc.
  - vm_compute. reflexivity.
  - rc.
  - rc.
Qed.

(** Non-vacuity *)
Theorem applies_met {X V} (values : list V) (data : list X) image : length values = 3%nat -> length data = 6%nat -> Applies [3; 2] [-1; 0] [1; 0] values data (fun q => Ok (image q)) image.
Proof.
  intros Hv Hd. split; [discriminate|]. split; [repeat constructor|]. split; [rewrite Hd; reflexivity|]. split; [reflexivity|]. split; [rc|]. split; [rewrite Hv; reflexivity|]. split; [|reflexivity].
  exists [1; 0]. split; [reflexivity|]. split; cbn [combine map fst snd]; rc.
Qed.

Theorem double_kernel_met : let values := map dofZ [1; 2; 1] in let data := map dofZ [1; 2; 4; 8; 16; 32] in
  Applies [3; 2] [-1; 0] [1; 0] values data (fun q => Ok (dofZ 3)) (fun _ => dofZ 3) /\ Forall Finite values /\ PixelsWithin 32 data /\
  (Finite (dofZ 3) /\ (Rabs (real (dofZ 3)) <= 32)%R) /\ windowSize [-1; 0] [1; 0] < 2 ^ 26 /\ (32 * gain values <= bpow radix2 1022)%R.
Proof.
  cbv zeta. split; [now apply (applies_met _ _ (fun _ => dofZ 3))|]. split; [apply finite_ofZ; repeat constructor; lia|]. split.
  { apply (within_ofZ _ 32); [repeat constructor; lia|lia]. }
  split. { destruct (real_ofZ 3 ltac:(lia)) as (F & V). split; [exact F|]. rewrite V, Rabs_right; lra. }
  split; [vm_compute; reflexivity|]. rewrite gain_ofZ by (repeat constructor; lia). apply Rle_trans with (bpow radix2 10); [|apply bpow_le; lia].
  change (bpow radix2 10) with (IZR 1024). change (sumAbs [1; 2; 1]) with 4. lra.
Qed.
