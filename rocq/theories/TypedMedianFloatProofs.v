(** Proofs about the median filter of integers and doubles. *)
From Coq Require Import QArith Reals Lra Permutation.
From Flocq Require Import Core Relative IEEE754.BinarySingleNaN.
From Verif Require Import Res Lemmas VecModel BoxModel RasterModel DistModel WidthModel WidthSpec WidthProofs FloatModel FloatSpec FloatProofs QuantileModel NanModel NanSpec NanProofs
  MathProofs TypedMedianModel Spec BoxSpec RasterSpec KernelSpec ContainerSpec MedianSpec TypedMedianSpec DistProofs TypedMedianProofs.

Local Existing Instance hprec.
Local Existing Instance hmax.
Local Existing Instance valid64.
Open Scope Z_scope.

Lemma trunc_finite s m e B : Ztrunc (real (B754_finite s m e B)) = (let a := if 0 <=? e then Zpos m * 2 ^ e else Zpos m / 2 ^ (- e) in if s then - a else a).
Proof.
  unfold real. cbn [B2R]. assert (P : Ztrunc (F2R (Float radix2 (Zpos m) e)) = if 0 <=? e then Zpos m * 2 ^ e else Zpos m / 2 ^ (- e)).
  { unfold F2R. cbn [Fnum Fexp]. destruct (Z.leb_spec 0 e) as [L|L].
    - rewrite <- (IZR_Zpower radix2) by exact L. rewrite <- mult_IZR, Ztrunc_IZR. reflexivity.
    - rewrite Ztrunc_floor by (apply Rmult_le_pos; [apply IZR_le; lia|apply bpow_ge_0]).
      rewrite <- (Z.opp_involutive e) at 1. rewrite bpow_opp, <- (IZR_Zpower radix2) by lia.
      change (IZR (Z.pos m) * / IZR (radix2 ^ (- e)))%R with (IZR (Zpos m) / IZR (2 ^ (- e)))%R.
      apply Zfloor_div. assert (0 < 2 ^ (- e)) by (apply Z.pow_pos_nonneg; lia). lia. }
  destruct s; cbn [SpecFloat.cond_Zopp]; [|exact P]. cbv zeta. rewrite <- P, <- Ztrunc_opp, <- F2R_Zopp. reflexivity.
Qed.

Lemma dtruncTo_spec u x z : Wf u -> dtruncTo u x = Ok z <-> Finite x /\ z = Ztrunc (real x) /\ InType u z.
Proof.
  intros W. unfold Finite. destruct x as [s|s| |s m e B]; try (split; [discriminate|intros [H _]; discriminate]).
  - cbn [dtruncTo]. unfold real. cbn [B2R]. rewrite Ztrunc_IZR. split; [intros E; injection E as <-|intros (_ & -> & _); reflexivity].
    split; [reflexivity|]. split; [reflexivity|]. destruct (half u W) as [E P]. unfold InType, itmin, itmax. destruct (isigned u); lia.
  - rewrite trunc_finite. unfold dtruncTo. cbv zeta. set (w := if s then _ else _). unfold fits, InType. destruct (_ && _)%bool eqn:C; split.
    + intros E. injection E as <-. repeat split; lia.
    + intros (_ & -> & _). reflexivity.
    + discriminate.
    + intros (_ & -> & H). lia.
Qed.

(** Conversion from integers to double: rounded, and the order is kept. *)
Lemma dofZ_rounded z : Z.abs z <= 2 ^ 64 -> Finite (dofZ z) /\ real (dofZ z) = nearestDouble (IZR z).
Proof.
  intros H. assert (C := binary_normalize_correct 53 1024 hprec hmax mode_NE z 0 false). cbv zeta in C. cbn [round_mode] in C.
  replace (F2R (Float radix2 z 0)) with (IZR z) in C by (unfold F2R; cbn; ring).
  rewrite Rlt_bool_true in C.
  - destruct C as (C1 & C2 & _). split; [exact C2|]. unfold nearestDouble. exact C1.
  - apply Rle_lt_trans with (bpow radix2 64); [|apply bpow_lt; lia].
    apply abs_round_le_generic; [apply valid64|apply valid_rnd_N|apply generic_format_bpow; vm_compute; discriminate|].
    rewrite <- abs_IZR. change (bpow radix2 64) with (IZR (2 ^ 64)). apply IZR_le. exact H.
Qed.

Lemma dofZ_keeps l : Forall (fun z => Z.abs z <= 2 ^ 64) l -> KeepsOrder Z.ltb dltb dofZ l.
Proof.
  intros F x y Ix Iy L. rewrite Forall_forall in F. apply dltb_false. apply Z.ltb_ge in L.
  destruct (dofZ_rounded x (F x Ix)) as [Fx Vx], (dofZ_rounded y (F y Iy)) as [Fy Vy].
  assert (G : (real (dofZ y) <= real (dofZ x))%R).
  { rewrite Vx, Vy. apply round_le; [apply valid64|apply valid_rnd_N|]. apply IZR_le. lia. }
  clear - Fx Fy G. unfold Finite in *. revert Fx Fy G. generalize (dofZ x) (dofZ y). intros a b Fa Fb G.
  destruct a, b; try discriminate; cbn [lessThan]; lra.
Qed.

Lemma convert_keeps u l : Wf u -> Forall (InType u) l -> KeepsOrder Z.ltb Z.ltb (convert u) l.
Proof. intros W F x y Ix Iy L. rewrite Forall_forall in F. rewrite !convert_id by auto. exact L. Qed.

(** Odd windows *)
Lemma int_throw (u : itype) : NoThrow (fun x => Ok (convert u x)). Proof. intros x e. discriminate. Qed.

Lemma filter_integers t u n f b X region out ext : Runnable f b region X ext out -> windowSize f b mod 2 = 1 ->
  exists enough, forall fuel, (enough <= fuel)%nat ->
  (exists r, intFilter t u fuel n (mkBox f b) region ext out r) /\
  forall r, intFilter t u fuel n (mkBox f b) region ext out r ->
    exists out', r = Ok out' /\ WF out' /\ rshape out' = rshape out /\
      (forall p, InBox region p -> exists x, MiddleValue Z.ltb (neighbors f b X p) x /\ rget n out' p = Ok (convert u x)) /\
      (forall p, InDomain (rshape out) p -> ~ InBox region p -> rget n out' p = rget n out p).
Proof.
  intros R M. destruct (typed_odd_to Z.ltb (fun _ => true) (fun x => Ok (convert u x)) (fun x y => h <- halfInt t x y ;; dtruncTo u h) 0 n f b X region out ext R M) as (e & H).
  - apply order_partitions, Zltb_swo.
  - apply int_throw.
  - intros. apply halfTrunc_throw.
  - reflexivity.
  - discriminate.
  - exists e. intros fuel Hf. destruct (H fuel Hf) as (Ex & G). split; [exact Ex|]. intros r Hr. destruct (G r Hr) as (out' & E & W & S' & P & Q).
    exists out'. split; [exact E|]. split; [exact W|]. split; [exact S'|]. split; [|exact Q]. intros p Ip. destruct (P p Ip) as (x & v & Mx & Ec & Er). exists x. split; [exact Mx|]. congruence.
Qed.

Lemma filter_integers_doubles t n f b X region out ext : Runnable f b region X ext out -> windowSize f b mod 2 = 1 ->
  exists enough, forall fuel, (enough <= fuel)%nat ->
  (exists r, intDoubleFilter t fuel n (mkBox f b) region ext out r) /\
  forall r, intDoubleFilter t fuel n (mkBox f b) region ext out r ->
    exists out', r = Ok out' /\ WF out' /\ rshape out' = rshape out /\
      (forall p, InBox region p -> exists x, MiddleValue Z.ltb (neighbors f b X p) x /\ rget n out' p = Ok (dofZ x)) /\
      (forall p, InDomain (rshape out) p -> ~ InBox region p -> rget n out' p = rget n out p).
Proof.
  intros R M. destruct (typed_odd_to Z.ltb (fun _ => true) (fun x => Ok (dofZ x)) (halfInt t) 0 n f b X region out ext R M) as (e & H).
  - apply order_partitions, Zltb_swo.
  - intros x e. discriminate.
  - intros. apply halfInt_throw.
  - reflexivity.
  - discriminate.
  - exists e. intros fuel Hf. destruct (H fuel Hf) as (Ex & G). split; [exact Ex|]. intros r Hr. destruct (G r Hr) as (out' & E & W & S' & P & Q).
    exists out'. split; [exact E|]. split; [exact W|]. split; [exact S'|]. split; [|exact Q]. intros p Ip. destruct (P p Ip) as (x & v & Mx & Ec & Er). exists x. split; [exact Mx|]. congruence.
Qed.

Lemma numbers_ordered l : ~ In nan l -> comparable l = true.
Proof. intros H. apply comparable_spec, weak_order. left. exact H. Qed.

Lemma filter_doubles n f b X region out ext : Runnable f b region X ext out -> windowSize f b mod 2 = 1 ->
  (forall p, InBox region p -> ~ In nan (neighbors f b X p)) ->
  exists enough, forall fuel, (enough <= fuel)%nat ->
  (exists r, doubleFilter fuel n (mkBox f b) region ext out r) /\
  forall r, doubleFilter fuel n (mkBox f b) region ext out r ->
    exists out', r = Ok out' /\ WF out' /\ rshape out' = rshape out /\
      (forall p, InBox region p -> exists x, MiddleValue dltb (neighbors f b X p) x /\ rget n out' p = Ok x) /\
      (forall p, InDomain (rshape out) p -> ~ InBox region p -> rget n out' p = rget n out p).
Proof.
  intros R M N. destruct (typed_odd_to dltb comparable (@Ok double) (fun x y => Ok (halfDouble x y)) (dofZ 0) n f b X region out ext R M) as (e & H).
  - exact double_partitions.
  - intros x e. discriminate.
  - discriminate.
  - intros p Ip. apply numbers_ordered, N, Ip.
  - discriminate.
  - exists e. intros fuel Hf. destruct (H fuel Hf) as (Ex & G). split; [exact Ex|]. intros r Hr. destruct (G r Hr) as (out' & E & W & S' & P & Q).
    exists out'. split; [exact E|]. split; [exact W|]. split; [exact S'|]. split; [|exact Q]. intros p Ip. destruct (P p Ip) as (x & v & Mx & Ec & Er). exists x. split; [exact Mx|]. congruence.
Qed.

Lemma filter_doubles_integers u n f b X region out ext : Wf u -> Runnable f b region X ext out -> windowSize f b mod 2 = 1 ->
  (forall p x, InBox region p -> In x (neighbors f b X p) -> Finite x /\ InType u (Ztrunc (real x))) ->
  exists enough, forall fuel, (enough <= fuel)%nat ->
  (exists r, doubleIntFilter u fuel n (mkBox f b) region ext out r) /\
  forall r, doubleIntFilter u fuel n (mkBox f b) region ext out r ->
    exists out', r = Ok out' /\ WF out' /\ rshape out' = rshape out /\
      (forall p, InBox region p -> exists x, MiddleValue dltb (neighbors f b X p) x /\ rget n out' p = Ok (Ztrunc (real x))) /\
      (forall p, InDomain (rshape out) p -> ~ InBox region p -> rget n out' p = rget n out p).
Proof.
  intros W R M N. destruct (typed_odd_to dltb comparable (dtruncTo u) (fun x y => dtruncTo u (halfDouble x y)) (dofZ 0) n f b X region out ext R M) as (e & H).
  - exact double_partitions.
  - intros x e. apply dtruncTo_throw.
  - intros. apply dtruncTo_throw.
  - intros p Ip. apply numbers_ordered. intros I. destruct (N p nan Ip I) as [F _]. discriminate.
  - intros p x Ip Ix. destruct (N p x Ip Ix) as [F I]. rewrite (proj2 (dtruncTo_spec u x (Ztrunc (real x)) W)) by auto. discriminate.
  - exists e. intros fuel Hf. destruct (H fuel Hf) as (Ex & G). split; [exact Ex|]. intros r Hr. destruct (G r Hr) as (out' & E & W' & S' & P & Q).
    exists out'. split; [exact E|]. split; [exact W'|]. split; [exact S'|]. split; [|exact Q]. intros p Ip. destruct (P p Ip) as (x & v & Mx & Ec & Er). exists x. split; [exact Mx|].
    apply (dtruncTo_spec u x v W) in Ec as (_ & -> & _). exact Er.
Qed.

(** NaN *)
Lemma filter_nan n f b X region out ext p x y : Runnable f b region X ext out -> InBox region p -> In nan (neighbors f b X p) ->
  In x (neighbors f b X p) -> In y (neighbors f b X p) -> lessThan x y ->
  exists enough, forall fuel, (enough <= fuel)%nat ->
  (exists r, doubleFilter fuel n (mkBox f b) region ext out r) /\ forall r, doubleFilter fuel n (mkBox f b) region ext out r -> r = UB.
Proof.
  intros R Ip In' Ix Iy L. apply (typed_unordered_to dltb comparable (@Ok double) (fun x y => Ok (halfDouble x y)) (dofZ 0) n f b X region out ext R).
  - exact double_partitions.
  - intros z e. discriminate.
  - discriminate.
  - exists p. split; [exact Ip|]. destruct (comparable (neighbors f b X p)) eqn:E; [exfalso|reflexivity]. apply comparable_spec, weak_order in E as [E|E]; [exact (E In')|exact (E x y Ix Iy L)].
Qed.

(** The exact model of MedianModel is the one of rationals, without conversion. *)
Lemma agree_ok l l' v : MedianModel.filterMedian l l' (Ok v) <-> typedMedian TypesModel.qltb (fun _ => true) (@Ok Q) (fun x y => Ok ((x + y) * (1 # 2))%Q) l l' (Ok v).
Proof.
  split; intros H.
  - inversion H as [l1 n E N El Er|l1 l2 n E B N1 N2 El Er|l1 n E B N El Er|E El Er]; subst; try discriminate.
    + rewrite Er. exact (typed_odd TypesModel.qltb (fun _ => true) (@Ok Q) (fun x y => Ok ((x + y) * (1 # 2))%Q) l l' v eq_refl E N Er).
    + destruct (zget l' n) as [x| |] eqn:Ex; try discriminate. destruct (zget l' (n + 1)) as [y| |] eqn:Ey; try discriminate. cbn [bind] in Er.
      injection Er as <-. exact (typed_even TypesModel.qltb (fun _ => true) (@Ok Q) (fun x y => Ok ((x + y) * (1 # 2))%Q) l l1 l' x y eq_refl E B N1 N2 Ex Ey).
    + exfalso. destruct (zget l' n) as [x| |] eqn:Ex; try discriminate. destruct (zget l' (n + 1)) as [y| |] eqn:Ey; try discriminate.
      assert (R := zget_range _ _ _ Ey). rewrite <- (Permutation_length (proj1 N)) in R. lia.
  - inversion H as [O El Er|l1 x n O M N E El Er|l1 l2 x y n O M B N1 N2 Ex Ey El Er|O M B El Er]; subst; try discriminate.
    + rewrite <- E. now apply (MedianModel.median_odd l l').
    + match goal with |- MedianModel.filterMedian _ _ ?r => replace r with (x <- zget l' n ;; y <- zget l' (n + 1) ;; Ok ((x + y) * (1 # 2))%Q) end; [now apply (MedianModel.median_even l l1 l')|].
      rewrite Ex, Ey. reflexivity.
Qed.

Lemma agree_ub l : l <> [] -> (exists l', MedianModel.filterMedian l l' UB) <-> exists l', typedMedian TypesModel.qltb (fun _ => true) (@Ok Q) (fun x y => Ok ((x + y) * (1 # 2))%Q) l l' UB.
Proof.
  intros Hl. assert (Hlen : 0 < Z.of_nat (length l)) by (destruct l; [congruence|cbn [length]; lia]).
  split; intros [l' H].
  - inversion H as [l1 n E N El Er|l1 l2 n E B N1 N2 El Er|l1 n E B N El Er|E El Er]; subst; try contradiction.
    + exfalso. destruct (zget_in_range l' n) as [x Ex]; [rewrite <- (Permutation_length (proj1 N)); subst n; lia|]. congruence.
    + exfalso. assert (L1 := Permutation_length (proj1 N1)). assert (L2 := Permutation_length (proj1 N2)).
      destruct (zget_in_range l' n) as [x Ex]; [subst n; lia|]. destruct (zget_in_range l' (n + 1)) as [y Ey]; [subst n; lia|]. rewrite Ex, Ey in Er. discriminate.
    + exists l. try rewrite Er. apply typed_short; [reflexivity|exact E|subst n; lia].
  - inversion H as [O El Er|l1 x n O M N E El Er|l1 l2 x y n O M B N1 N2 Ex Ey El Er|O M B El Er]; subst; try discriminate.
    exists (isort TypesModel.qltb l'). replace UB with (x <- zget (isort TypesModel.qltb l') (Z.of_nat (length l') / 2) ;; y <- zget (isort TypesModel.qltb l') (Z.of_nat (length l') / 2 + 1) ;; Ok ((x + y) * (1 # 2))%Q).
    + apply MedianModel.median_two; [exact M|lia|]. split; [apply isort_perm|]. apply (SortedBy_Part TypesModel.qltb qltb_swo), (isort_sorted TypesModel.qltb qltb_swo).
    + rewrite (Permutation_length (isort_perm TypesModel.qltb l')) in *. destruct (zget_in_range (isort TypesModel.qltb l') (Z.of_nat (length (isort TypesModel.qltb l')) / 2)) as [x Ex]; [lia|].
      rewrite Ex. cbn [bind]. rewrite zget_out by lia. reflexivity.
Qed.

Lemma agree_loop fuel n window ext ps : boxSize window <> 0 -> forall buffer out r, buffer <> [] ->
  MedianModel.filterLoop fuel n window ext ps buffer out r <-> typedLoop TypesModel.qltb (fun _ => true) (@Ok Q) (fun x y => Ok ((x + y) * (1 # 2))%Q) fuel n window ext ps buffer out r.
Proof.
  intros _. assert (Ne : forall (xs buffer : list Q), buffer <> [] -> (length xs <= length buffer)%nat -> xs ++ skipn (length xs) buffer <> []).
  { intros xs buffer Hb L E. apply app_eq_nil in E as [E1 E2]. subst xs. cbn [length skipn] in E2. contradiction. }
  assert (Keep : forall (l l' : list Q) v, l <> [] -> MedianModel.filterMedian l l' (Ok v) -> l' <> []).
  { intros l l' v Hl Hm ->. apply Hl. inversion Hm as [l1 k E N El Er|l1 l2 k E B N1 N2 El Er|l1 k E B N El Er|E El Er]; subst; auto.
    - apply Permutation_nil, Permutation_sym, N.
    - apply Permutation_nil, Permutation_sym. eapply Permutation_trans; [apply N1|apply N2].
    - apply Permutation_nil, Permutation_sym, N. }
  induction ps as [|p ps IH]; intros buffer out r Hb; split; intros H.
  - inversion H; subst. constructor.
  - inversion H; subst. constructor.
  - inversion H as [|? ? ? ? qs xs l' v out1 r' F1 F2 F3 F4 F5 F6|? ? ? ? ? F1 F2|? ? ? ? ? ? F1 F2 F3|? ? ? ? ? ? l' F1 F2 F3 F4|? ? ? ? ? ? l' v F1 F2 F3 F4 F5]; subst.
    + refine (typed_step _ _ _ _ _ _ _ _ p ps buffer out qs xs l' v out1 _ F1 F2 F3 (proj1 (agree_ok _ _ _) F4) F5 _). apply IH; [|exact F6]. eapply Keep; [|exact F4]. now apply Ne.
    + eapply typed_read; eauto.
    + eapply typed_over; eauto.
    + assert (Q := proj1 (agree_ub _ (Ne xs buffer Hb F3)) (ex_intro _ l' F4)). destruct Q as [l2 Q]. eapply typed_median; eauto.
    + exact (typed_write _ _ _ _ _ _ _ _ p ps buffer out qs xs l' v F1 F2 F3 (proj1 (agree_ok _ _ _) F4) F5).
  - inversion H as [|? ? ? ? qs xs l' v out1 r' F1 F2 F3 F4 F5 F6|? ? ? ? ? F1 F2|? ? ? ? ? ? F1 F2 F3|? ? ? ? ? ? l' F1 F2 F3 F4|? ? ? ? ? ? l' v F1 F2 F3 F4 F5]; subst.
    + apply agree_ok in F4. eapply MedianModel.filter_step; eauto. apply IH; [|exact F6]. eapply Keep; [|exact F4]. now apply Ne.
    + eapply MedianModel.filter_read; eauto.
    + eapply MedianModel.filter_over; eauto.
    + assert (Q := proj2 (agree_ub _ (Ne xs buffer Hb F3)) (ex_intro _ l' F4)). destruct Q as [l2 Q]. eapply MedianModel.filter_median; eauto.
    + exact (MedianModel.filter_write _ _ _ _ p ps buffer out qs xs l' v F1 F2 F3 (proj2 (agree_ok _ _ _) F4) F5).
Qed.

Lemma filter_agrees fuel n window region ext out r : 0 < boxSize window ->
  typedApplyTo TypesModel.qltb (fun _ => true) (@Ok Q) (fun x y => Ok ((x + y) * (1 # 2))%Q) 0%Q fuel n window region ext out r <->
  MedianModel.filterApplyTo fuel n window region ext out r.
Proof.
  intros Hs. assert (Hb : repeat 0%Q (Z.to_nat (boxSize window)) <> []).
  { intros E. assert (L := repeat_length 0%Q (Z.to_nat (boxSize window))). rewrite E in L. cbn in L. lia. }
  split; intros H; inversion H as [ps r0 E1 E2]; subst; econstructor; eauto; apply agree_loop; auto; lia.
Qed.

(** Constant images *)
Lemma repeat_comparable (c : double) k : comparable (repeat c k) = true.
Proof.
  apply comparable_spec, weak_order. right. intros x y Ix Iy. rewrite (repeat_spec _ _ _ Ix), (repeat_spec _ _ _ Iy). apply lessThan_irrefl.
Qed.

Lemma constant_integers t u n f b c region out ext : Runnable f b region (fun _ => c) ext out ->
  exists enough, forall fuel, (enough <= fuel)%nat ->
  (exists r, intFilter t u fuel n (mkBox f b) region ext out r) /\
  forall r, intFilter t u fuel n (mkBox f b) region ext out r ->
    match constantResult (fun x => Ok (convert u x)) (fun x y => h <- halfInt t x y ;; dtruncTo u h) (windowSize f b) c with
    | Ok v => exists out', r = Ok out' /\ Filled n region out' v
    | _ => r = UB
    end.
Proof.
  intros R. apply (typed_constant_to Z.ltb (fun _ => true) (fun x => Ok (convert u x)) (fun x y => h <- halfInt t x y ;; dtruncTo u h) 0 n f b c region out ext R).
  - apply order_partitions, Zltb_swo.
  - apply int_throw.
  - intros. apply halfTrunc_throw.
  - reflexivity.
Qed.

Lemma constant_doubles n f b c region out ext : Runnable f b region (fun _ => c) ext out ->
  exists enough, forall fuel, (enough <= fuel)%nat ->
  (exists r, doubleFilter fuel n (mkBox f b) region ext out r) /\
  forall r, doubleFilter fuel n (mkBox f b) region ext out r ->
    match constantResult (@Ok double) (fun x y => Ok (halfDouble x y)) (windowSize f b) c with
    | Ok v => exists out', r = Ok out' /\ Filled n region out' v
    | _ => r = UB
    end.
Proof.
  intros R. apply (typed_constant_to dltb comparable (@Ok double) (fun x y => Ok (halfDouble x y)) (dofZ 0) n f b c region out ext R).
  - exact double_partitions.
  - intros x e. discriminate.
  - discriminate.
  - apply repeat_comparable.
Qed.

(** The sign of zero *)
Lemma one_pixel {A B} (lt : A -> A -> bool) ordered (conv : A -> res B) middle zero l l' v old : (length l = 3 \/ length l = 4)%nat -> typedMedian lt ordered conv middle l l' (Ok v) ->
  typedApplyTo lt ordered conv middle zero 10 1 (mkBox [0] [Z.of_nat (length l) - 1]) (mkBox [0] [0]) (rget 1 (rowOf l)) (rowOf [old]) (Ok (rowOf [v])).
Proof.
  intros L H. apply (typed_apply _ _ _ _ _ _ _ _ _ _ _ [[0]]); [reflexivity|].
  destruct L as [L|L].
  - destruct l as [|a [|b [|c [|d l]]]]; try discriminate. eapply (typed_step _ _ _ _ 10 1 _ _ [0] [] _ _ _ [a; b; c]); [reflexivity|reflexivity|vm_compute; repeat constructor|exact H|reflexivity|]. constructor.
  - destruct l as [|a [|b [|c [|d [|e l]]]]]; try discriminate. eapply (typed_step _ _ _ _ 10 1 _ _ [0] [] _ _ _ [a; b; c; d]); [reflexivity|reflexivity|vm_compute; repeat constructor|exact H|reflexivity|]. constructor.
Qed.

Lemma nth_sorted {A} (lt : A -> A -> bool) l l' n : Permutation l l' -> (forall x y, In x (firstn (Z.to_nat n + 1) l') -> In y (skipn (Z.to_nat n) l') -> lt y x = false) -> 0 <= n -> NthElement lt l n l'.
Proof.
  intros P H Hn. split; [exact P|]. intros i j x y Hi Hj Hx Hy. apply H.
  - apply zget_ok in Hx as [_ Hx]. apply (nth_error_In _ (Z.to_nat i)). rewrite <- Hx. clear - Hi. revert l' n Hi. intros l' n Hi.
    assert (Z.to_nat i < Z.to_nat n + 1)%nat as L by lia. revert L. generalize (Z.to_nat i) (Z.to_nat n + 1)%nat. intros a. revert l'. induction a as [|a IH]; intros [|z l] [|m] L; cbn [firstn nth_error]; try (exfalso; lia); try reflexivity. apply IH. lia.
  - apply zget_ok in Hy as [By Hy]. apply (nth_error_In _ (Z.to_nat j - Z.to_nat n)). rewrite <- Hy. assert (Z.to_nat n <= Z.to_nat j)%nat as L by lia. clear - L. revert l' L. generalize (Z.to_nat j) (Z.to_nat n). intros a b. revert a.
    induction b as [|b IH]; intros a l L; [cbn [skipn]; now replace (a - 0)%nat with a by lia|]. destruct a as [|a]; [lia|]. destruct l as [|z l]; [destruct (S a - S b)%nat; reflexivity|]. cbn [skipn nth_error Nat.sub]. apply IH. lia.
Qed.

Lemma zero_sign : exists l, ~ In nan l /\ length l = 3%nat /\
  doubleFilter 10 1 (mkBox [0] [2]) (mkBox [0] [0]) (rget 1 (rowOf l)) (rowOf [pzero]) (Ok (rowOf [pzero])) /\
  doubleFilter 10 1 (mkBox [0] [2]) (mkBox [0] [0]) (rget 1 (rowOf l)) (rowOf [pzero]) (Ok (rowOf [nzero])) /\ pzero <> nzero.
Proof.
  set (one := dofZ 1). exists [pzero; nzero; one]. assert (C : comparable [pzero; nzero; one] = true) by (vm_compute; reflexivity). split; [|split; [reflexivity|split; [|split]]].
  - intros [H|[H|[H|[]]]]; [discriminate|discriminate|]. assert (E : is_nan one = true) by (rewrite H; reflexivity). vm_compute in E. discriminate.
  - apply (one_pixel dltb comparable (@Ok double) _ (dofZ 0) [pzero; nzero; one] [nzero; pzero; one]); [left; reflexivity|].
    apply (typed_odd dltb comparable (@Ok double) _ [pzero; nzero; one] [nzero; pzero; one] pzero C); [reflexivity| |reflexivity].
    apply nth_sorted; [apply perm_swap| |cbn; lia]. change (Z.to_nat (Z.of_nat (length [pzero; nzero; one]) / 2)) with 1%nat. cbn [firstn skipn Nat.add].
    intros x y [<-|[<-|[]]] [<-|[<-|[]]]; vm_compute; reflexivity.
  - apply (one_pixel dltb comparable (@Ok double) _ (dofZ 0) [pzero; nzero; one] [pzero; nzero; one]); [left; reflexivity|].
    apply (typed_odd dltb comparable (@Ok double) _ [pzero; nzero; one] [pzero; nzero; one] nzero C); [reflexivity| |reflexivity].
    apply nth_sorted; [apply Permutation_refl| |cbn; lia]. change (Z.to_nat (Z.of_nat (length [pzero; nzero; one]) / 2)) with 1%nat. cbn [firstn skipn Nat.add].
    intros x y [<-|[<-|[]]] [<-|[<-|[]]]; vm_compute; reflexivity.
  - discriminate.
Qed.

Lemma even_undetermined : exists v w, v <> w /\
  intFilter int32 int32 10 1 (mkBox [0] [3]) (mkBox [0] [0]) (rget 1 (rowOf [10; 20; 30; 40])) (rowOf [0]) (Ok (rowOf [v])) /\
  intFilter int32 int32 10 1 (mkBox [0] [3]) (mkBox [0] [0]) (rget 1 (rowOf [10; 20; 30; 40])) (rowOf [0]) (Ok (rowOf [w])).
Proof.
  exists 35, 25. split; [lia|]. assert (P : Permutation [10; 20; 30; 40] [30; 20; 10; 40]).
  { apply Permutation_trans with [20; 10; 30; 40]; [apply perm_swap|]. apply Permutation_trans with [20; 30; 10; 40]; [apply perm_skip, perm_swap|apply perm_swap]. }
  split.
  - assert (T := typed_even Z.ltb (fun _ => true) (fun x => Ok (convert int32 x)) (fun x y => h <- halfInt int32 x y ;; dtruncTo int32 h) [10; 20; 30; 40] [10; 20; 30; 40] [10; 20; 30; 40] 30 40 eq_refl eq_refl ltac:(cbn; lia)).
    replace (h <- halfInt int32 30 40 ;; dtruncTo int32 h) with (@Ok Z 35) in T by (vm_compute; reflexivity).
    refine (one_pixel Z.ltb (fun _ => true) (fun x => Ok (convert int32 x)) _ 0 [10; 20; 30; 40] [10; 20; 30; 40] 35 0 (or_intror eq_refl) (T _ _ eq_refl eq_refl));
      (apply nth_sorted; [apply Permutation_refl| |cbn; lia]); intros x y Hx Hy; vm_compute in Hx, Hy; intuition (subst; reflexivity).
  - assert (T := typed_even Z.ltb (fun _ => true) (fun x => Ok (convert int32 x)) (fun x y => h <- halfInt int32 x y ;; dtruncTo int32 h) [10; 20; 30; 40] [10; 20; 30; 40] [30; 20; 10; 40] 10 40 eq_refl eq_refl ltac:(cbn; lia)).
    replace (h <- halfInt int32 10 40 ;; dtruncTo int32 h) with (@Ok Z 25) in T by (vm_compute; reflexivity).
    refine (one_pixel Z.ltb (fun _ => true) (fun x => Ok (convert int32 x)) _ 0 [10; 20; 30; 40] [30; 20; 10; 40] 25 0 (or_intror eq_refl) (T _ _ eq_refl eq_refl));
      (apply nth_sorted; [first [exact P|apply Permutation_refl]| |cbn; lia]); intros x y Hx Hy; vm_compute in Hx, Hy; intuition (subst; reflexivity).
Qed.

Lemma narrow_constant n f b region (out : raster Z) ext : Runnable f b region (fun _ => 300) ext out -> windowSize f b mod 2 = 1 ->
  exists enough, forall fuel, (enough <= fuel)%nat -> (exists r, intFilter int32 u8 fuel n (mkBox f b) region ext out r) /\
  forall r, intFilter int32 u8 fuel n (mkBox f b) region ext out r -> exists out', r = Ok out' /\ Filled n region out' 44.
Proof.
  intros R M. destruct (constant_integers int32 u8 n f b 300 region out ext R) as (e & H). exists e. intros fuel Hf. destruct (H fuel Hf) as (Ex & G). split; [exact Ex|].
  intros r Hr. assert (Q := G r Hr). unfold constantResult in Q. rewrite (proj2 (Z.eqb_eq _ _) M) in Q. exact Q.
Qed.

Lemma even_constant_unsigned n f b region (out : raster Z) ext : Runnable f b region (fun _ => 3000000000) ext out -> windowSize f b mod 2 = 0 -> 2 < windowSize f b ->
  exists enough, forall fuel, (enough <= fuel)%nat -> (exists r, intFilter u32 u32 fuel n (mkBox f b) region ext out r) /\
  forall r, intFilter u32 u32 fuel n (mkBox f b) region ext out r -> exists out', r = Ok out' /\ Filled n region out' 852516352.
Proof.
  intros R M L. destruct (constant_integers u32 u32 n f b 3000000000 region out ext R) as (e & H). exists e. intros fuel Hf. destruct (H fuel Hf) as (Ex & G). split; [exact Ex|].
  intros r Hr. assert (Q := G r Hr). unfold constantResult in Q. rewrite (proj2 (Z.eqb_neq _ 1)) in Q by lia. rewrite (proj2 (Z.leb_gt _ _)) in Q by lia.
  replace (h <- halfInt u32 3000000000 3000000000 ;; dtruncTo u32 h) with (@Ok Z 852516352) in Q by (vm_compute; reflexivity). exact Q.
Qed.

Lemma even_constant_signed n f b region (out : raster Z) ext : Runnable f b region (fun _ => 2000000000) ext out -> windowSize f b mod 2 = 0 ->
  exists enough, forall fuel, (enough <= fuel)%nat -> (exists r, intFilter int32 int32 fuel n (mkBox f b) region ext out r) /\
  forall r, intFilter int32 int32 fuel n (mkBox f b) region ext out r -> r = UB.
Proof.
  intros R M. destruct (constant_integers int32 int32 n f b 2000000000 region out ext R) as (e & H). exists e. intros fuel Hf. destruct (H fuel Hf) as (Ex & G). split; [exact Ex|].
  intros r Hr. assert (Q := G r Hr). unfold constantResult in Q. rewrite (proj2 (Z.eqb_neq _ 1)) in Q by lia. destruct (_ <=? 2); [exact Q|].
  replace (h <- halfInt int32 2000000000 2000000000 ;; dtruncTo int32 h) with (@UB Z) in Q by (vm_compute; reflexivity). exact Q.
Qed.

Lemma even_constant_double n f b region (out : raster double) ext c : Runnable f b region (fun _ => c) ext out -> c = greatestDouble -> windowSize f b mod 2 = 0 -> 2 < windowSize f b ->
  exists enough, forall fuel, (enough <= fuel)%nat -> (exists r, doubleFilter fuel n (mkBox f b) region ext out r) /\
  forall r, doubleFilter fuel n (mkBox f b) region ext out r -> exists out', r = Ok out' /\ Filled n region out' (B754_infinity false).
Proof.
  intros R Ec M L. destruct (constant_doubles n f b c region out ext R) as (e & H). exists e. intros fuel Hf. destruct (H fuel Hf) as (Ex & G). split; [exact Ex|].
  intros r Hr. assert (Q := G r Hr). unfold constantResult in Q. rewrite (proj2 (Z.eqb_neq _ 1)) in Q by lia. rewrite (proj2 (Z.leb_gt _ _)) in Q by lia.
  destruct Q as (out' & E & F). exists out'. split; [exact E|]. replace (B754_infinity false) with (halfDouble c c); [exact F|].
  rewrite Ec. apply B2SF_inj. vm_compute. reflexivity.
Qed.

Lemma middle_converted {A B} (lt : A -> A -> bool) (lt' : B -> B -> bool) g f b X p x : KeepsOrder lt lt' g (neighbors f b X p) ->
  MiddleValue lt (neighbors f b X p) x -> MiddleValue lt' (neighbors f b (fun q => g (X q)) p) (g x).
Proof.
  intros K M. assert (H := middle_convert lt lt' g _ x K M). unfold neighbors in *. rewrite map_map in H. exact H.
Qed.

Lemma middle_integer l x y : Z.of_nat (length l) mod 2 = 1 -> MiddleValue Z.ltb l x -> MiddleValue Z.ltb l y -> x = y.
Proof.
  intros M X Y. assert (T := order_transitive Z.ltb l Zltb_swo). assert (A := middle_unique Z.ltb l x y M T X Y). assert (B := middle_unique Z.ltb l y x M T Y X). lia.
Qed.

Lemma middle_double l x y : Z.of_nat (length l) mod 2 = 1 -> ~ In nan l -> MiddleValue dltb l x -> MiddleValue dltb l y -> sameNumber x y.
Proof.
  intros M N X Y. assert (T := double_transitive l (numbers_ordered l N)). assert (A := middle_unique dltb l x y M T X Y). assert (B := middle_unique dltb l y x M T Y X).
  assert (Nx : x <> nan) by (intros ->; exact (N (proj1 X))). assert (Ny : y <> nan) by (intros ->; exact (N (proj1 Y))). clear X Y T N M.
  apply dltb_false in A, B. destruct x as [s|s| |s m e Bd], y as [s'|s'| |s' m' e' Bd']; try (exfalso; now apply Nx); try (exfalso; now apply Ny);
    cbn [lessThan sameNumber] in *; try (destruct s; intuition congruence); try (destruct s'; intuition congruence); try (destruct s, s'; intuition congruence); lra.
Qed.

Lemma outcome_filter {A B} (lt : A -> A -> bool) ordered (conv : A -> res B) middle zero n f b X region out ext : Runnable f b region X ext out ->
  Partitions lt ordered -> NoThrow conv -> (forall x y e, middle x y <> Throw e) ->
  exists enough, forall fuel, (enough <= fuel)%nat ->
  (exists r, typedApplyTo lt ordered conv middle zero fuel n (mkBox f b) region ext out r) /\
  forall r, typedApplyTo lt ordered conv middle zero fuel n (mkBox f b) region ext out r ->
    (r = UB /\ exists p, InBox region p /\ Outcome lt ordered conv middle (neighbors f b X p) UB) \/
    exists out', r = Ok out' /\ WF out' /\ rshape out' = rshape out /\
      (forall p, InBox region p -> exists v, rget n out' p = Ok v /\ Outcome lt ordered conv middle (neighbors f b X p) (Ok v)) /\
      (forall p, InDomain (rshape out) p -> ~ InBox region p -> rget n out' p = rget n out p).
Proof.
  intros R Pa Nc Nm. destruct (typed_to lt ordered conv middle zero n f b X region out ext R) as (e & H). exists e. intros fuel Hf. destruct (H fuel Hf) as (Ex & G). split; [exact (Ex Pa Nc Nm)|exact G].
Qed.

Lemma row_runnable {A B} (c : A) (d : B) : Runnable [-1] [1] (mkBox [1] [3]) (fun _ => c) (rget 1 (rowOf (repeat c 5))) (rowOf (repeat d 5)).
Proof.
  split; [discriminate|]. split; [constructor; [lia|constructor]|]. split; [|split; [exists [1]; constructor; [lia|constructor]|split; [|split; [|reflexivity]]]].
  - intros p q Hp Hq. inversion Hp as [|? ? i ? ? ? Hi Hp']; subst. inversion Hp'; subst. inversion Hq as [|? ? j ? ? ? Hj Hq']; subst. inversion Hq'; subst.
    unfold neighbor. cbn [combine map fst snd]. unfold rget, rowOf. cbn [rshape rdata]. 
    assert (C : i + j = 0 \/ i + j = 1 \/ i + j = 2 \/ i + j = 3 \/ i + j = 4) by lia. destruct C as [->|[->|[->|[->| ->]]]]; reflexivity.
  - intros p Hp. inversion Hp as [|? ? i ? ? ? Hi Hp']; subst. inversion Hp'; subst. constructor; [cbn; lia|constructor].
  - split; [discriminate|]. split; [constructor; [cbn; lia|constructor]|reflexivity].
Qed.

Lemma row_runnable_even {A B} (c : A) (d : B) : Runnable [-1] [2] (mkBox [1] [2]) (fun _ => c) (rget 1 (rowOf (repeat c 5))) (rowOf (repeat d 5)).
Proof.
  split; [discriminate|]. split; [constructor; [lia|constructor]|]. split; [|split; [exists [1]; constructor; [lia|constructor]|split; [|split; [|reflexivity]]]].
  - intros p q Hp Hq. inversion Hp as [|? ? i ? ? ? Hi Hp']; subst. inversion Hp'; subst. inversion Hq as [|? ? j ? ? ? Hj Hq']; subst. inversion Hq'; subst.
    unfold neighbor. cbn [combine map fst snd]. unfold rget, rowOf. cbn [rshape rdata]. 
    assert (C : i + j = 0 \/ i + j = 1 \/ i + j = 2 \/ i + j = 3 \/ i + j = 4) by lia. destruct C as [->|[->|[->|[->| ->]]]]; reflexivity.
  - intros p Hp. inversion Hp as [|? ? i ? ? ? Hi Hp']; subst. inversion Hp'; subst. constructor; [cbn; lia|constructor].
  - split; [discriminate|]. split; [constructor; [cbn; lia|constructor]|reflexivity].
Qed.
