(** Proofs about filters of moved or modified images. *)
From Coq Require Import Permutation.
From Verif Require Import Res VecModel TypesModel BoxModel RasterModel SamplingModel DistModel LineKernelModel SeparableModel MedianModel
  Spec BoxSpec RasterSpec KernelSpec SeparableSpec DistSpec ContainerSpec MedianSpec EquivarianceSpec
  Lemmas ContainerProofs IndexProofs BoxIterProofs BoxGeomProofs DistProofs LineKernelProofs SeparableProofs ComposeProofs KernelProofs MedianProofs.

(** Order statistics of values which are greater are greater. *)
Lemma cnt_mono (c : Q) l l' : Forall2 Qle l l' -> (cnt (fun x => Qle_bool x c) l' <= cnt (fun x => Qle_bool x c) l)%nat.
Proof.
  unfold cnt. induction 1 as [|x y l l' H _ IH]; cbn [filter]; [lia|].
  destruct (Qle_bool y c) eqn:E.
  - assert (Qle_bool x c = true) as -> by (apply Qle_bool_iff; apply Qle_bool_iff in E; eapply Qle_trans; eauto). cbn [length]. lia.
  - destruct (Qle_bool x c); cbn [length]; lia.
Qed.

Lemma sorted_le l l' s s' n v w : Sorting qltb l s -> Sorting qltb l' s' -> Forall2 Qle l l' ->
  zget s n = Ok v -> zget s' n = Ok w -> (v <= w)%Q.
Proof.
  intros [P1 S1] [P2 S2] HL Hv Hw. destruct (Qlt_le_dec w v) as [C|C]; [exfalso|exact C].
  pose proof (zget_range _ _ _ Hv) as R. pose proof (zget_range _ _ _ Hw) as R'.
  set (p := fun x => Qle_bool x w).
  assert (H1 : (S (Z.to_nat n) <= cnt p s')%nat).
  { rewrite <- (firstn_skipn (S (Z.to_nat n)) s'). rewrite cnt_app. rewrite cnt_all; [rewrite firstn_length; lia|].
    apply Forall_forall. intros x Hx. apply In_firstn_get in Hx as (i & Hi & Hx). apply Qle_bool_iff.
    apply qltb_false. apply (S2 i n); auto; lia. }
  assert (H2 : (cnt p s <= Z.to_nat n)%nat).
  { rewrite <- (firstn_skipn (Z.to_nat n) s). rewrite cnt_app. rewrite (cnt_none p (skipn _ _)).
    - pose proof (cnt_le p (firstn (Z.to_nat n) s)) as L. rewrite firstn_length in L. lia.
    - apply Forall_forall. intros y Hy. apply In_skipn_get in Hy as (j & Hj & Hy). unfold p.
      assert (v <= y)%Q by (apply qltb_false; apply (S1 n j); auto; lia).
      destruct (Qle_bool y w) eqn:E; [|reflexivity]. apply Qle_bool_iff in E. exfalso. apply (Qlt_irrefl w).
      eapply Qlt_le_trans; [exact C|]. eapply Qle_trans; eauto. }
  rewrite <- (cnt_perm p _ _ P1) in H2. rewrite <- (cnt_perm p _ _ P2) in H1. pose proof (cnt_mono w l l' HL). unfold p in *. lia.
Qed.

Lemma median_le s s' l l' v w : Sorting qltb l s -> Sorting qltb l' s' -> Forall2 Qle l l' -> Median s v -> Median s' w -> (v <= w)%Q.
Proof.
  intros H1 H2 HL (x & y & Hx & Hy & Ev) (x' & y' & Hx' & Hy' & Ew).
  assert (E : length s = length s').
  { rewrite <- (Permutation_length (proj1 H1)), <- (Permutation_length (proj1 H2)). eapply Forall2_len; eauto. }
  rewrite <- E in Hx', Hy'. assert (X := sorted_le _ _ _ _ _ _ _ H1 H2 HL Hx Hx'). assert (Y := sorted_le _ _ _ _ _ _ _ H1 H2 HL Hy Hy').
  rewrite Ev, Ew. unfold Qdiv. apply Qmult_le_compat_r; [|discriminate]. now apply Qplus_le_compat.
Qed.

Lemma window_le f b X Y p p' v w : WindowMedian f b X p v -> WindowMedian f b Y p' w ->
  (forall q, InBox (mkBox f b) q -> (X (neighbor p q) <= Y (neighbor p' q))%Q) -> (v <= w)%Q.
Proof.
  intros (s & Hs & M) (s' & Hs' & M') H. refine (median_le s s' _ _ v w Hs Hs' _ M M').
  assert (G : forall l, (forall q, In q l -> InBox (mkBox f b) q) -> Forall2 Qle (map (fun q => X (neighbor p q)) l) (map (fun q => Y (neighbor p' q)) l)).
  { induction l as [|q l IH]; intros HI; cbn [map]; constructor; [apply H, HI; now left|apply IH; intros; apply HI; now right]. }
  apply G. intros q Hq. now apply In_positions.
Qed.

(** Medians of increasing functions of the values. *)
Lemma sorting_map g l s : (forall x y, (x <= y)%Q -> (g x <= g y)%Q) -> Sorting qltb l s -> Sorting qltb (map g l) (map g s).
Proof.
  intros Hg [P S1]. split; [now apply Permutation_map|]. intros i j x y Hi Hij Hx Hy.
  rewrite zget_map in Hx, Hy. destruct (zget s i) as [x0| |] eqn:E1; try discriminate. destruct (zget s j) as [y0| |] eqn:E2; try discriminate.
  injection Hx as <-. injection Hy as <-. apply qltb_false, Hg, qltb_false. apply (S1 i j); auto.
Qed.

Lemma window_map f b X Y g p v w : (forall x y, (x <= y)%Q -> (g x <= g y)%Q) -> windowSize f b mod 2 = 1 -> Forall2 Z.le f b ->
  WindowMedian f b X p v -> WindowMedian f b Y p w ->
  (forall q, InBox (mkBox f b) q -> (Y (neighbor p q) == g (X (neighbor p q)))%Q) -> (w == g v)%Q.
Proof.
  intros Hg Ho Hfb (s & Hs & x & y & Hx & Hy & Ev) HW H.
  assert (Hp : forall a c, (a == c)%Q -> (g a == g c)%Q).
  { intros a c E. apply Qle_antisym; apply Hg; rewrite E; apply Qle_refl. }
  assert (L : Z.of_nat (length s) = windowSize f b).
  { rewrite <- (Permutation_length (proj1 Hs)), map_length. apply (positions_count f b Hfb). }
  rewrite L in Hx, Hy. replace ((windowSize f b - 1) / 2) with (windowSize f b / 2) in Hx by lia.
  rewrite Hx in Hy. injection Hy as <-.
  assert (M : Median (map g s) (g x)).
  { exists (g x), (g x). rewrite map_length, L. replace ((windowSize f b - 1) / 2) with (windowSize f b / 2) by lia.
    rewrite zget_map, Hx. cbn [bind]. split; [reflexivity|]. split; [reflexivity|]. field. }
  assert (MG : WindowMedian f b (fun q => g (X q)) p (g x)).
  { exists (map g s). split; [|exact M]. rewrite <- (map_map (fun q => X (neighbor p q)) g). now apply sorting_map. }
  assert (Q1 : (w == g x)%Q).
  { apply Qle_antisym.
    - eapply window_le; [exact HW|exact MG|]. intros q Hq. rewrite H by exact Hq. apply Qle_refl.
    - eapply window_le; [exact MG|exact HW|]. intros q Hq. rewrite H by exact Hq. apply Qle_refl. }
  rewrite Q1. apply Hp. rewrite Ev. field.
Qed.

Lemma filterable_run n f b region X ext out : Filterable f b region X ext out ->
  exists enough, forall fuel, (enough <= fuel)%nat -> forall r, filterApplyTo fuel n (mkBox f b) region ext out r ->
    exists out', r = Ok out' /\ forall p, InBox region p -> exists v, rget n out' p = Ok v /\ WindowMedian f b X p v.
Proof.
  intros (H1 & H2 & H3 & H4 & H5 & H6 & H7 & H8).
  destruct (filter_to n f b X H1 H2 H3 region out ext H4 H5 H6 H7 H8) as (enough & H). exists enough. intros fuel Hf r Hr.
  destruct (H fuel Hf) as [_ G]. destruct (G r Hr) as (out' & -> & _ & _ & P & _). eauto.
Qed.

Lemma filter_order n f b t r1 r2 X1 X2 e1 e2 o1 o2 : Filterable f b r1 X1 e1 o1 -> Filterable f b r2 X2 e2 o2 ->
  (forall p q, InBox r1 p -> InBox r2 (neighbor p t) -> InBox (mkBox f b) q -> (X1 (neighbor p q) <= X2 (neighbor (neighbor p t) q))%Q) ->
  exists enough, forall fuel, (enough <= fuel)%nat -> forall a1 a2,
  filterApplyTo fuel n (mkBox f b) r1 e1 o1 a1 -> filterApplyTo fuel n (mkBox f b) r2 e2 o2 a2 ->
  exists out1 out2, a1 = Ok out1 /\ a2 = Ok out2 /\ forall p, InBox r1 p -> InBox r2 (neighbor p t) ->
    exists v1 v2, rget n out1 p = Ok v1 /\ rget n out2 (neighbor p t) = Ok v2 /\ (v1 <= v2)%Q.
Proof.
  intros F1 F2 H. destruct (filterable_run n _ _ _ _ _ _ F1) as (n1 & G1). destruct (filterable_run n _ _ _ _ _ _ F2) as (n2 & G2).
  exists (Nat.max n1 n2). intros fuel Hf a1 a2 R1 R2. destruct (G1 fuel ltac:(lia) _ R1) as (out1 & -> & P1).
  destruct (G2 fuel ltac:(lia) _ R2) as (out2 & -> & P2). exists out1, out2. split; [reflexivity|]. split; [reflexivity|].
  intros p Hp Hp'. destruct (P1 p Hp) as (v1 & E1 & M1). destruct (P2 _ Hp') as (v2 & E2 & M2). exists v1, v2. split; [exact E1|]. split; [exact E2|].
  eapply window_le; eauto.
Qed.

Lemma filter_translation n f b t r1 r2 X1 X2 e1 e2 o1 o2 : Filterable f b r1 X1 e1 o1 -> Filterable f b r2 X2 e2 o2 ->
  (forall p q, InBox r1 p -> InBox r2 (neighbor p t) -> InBox (mkBox f b) q -> (X1 (neighbor p q) == X2 (neighbor (neighbor p t) q))%Q) ->
  exists enough, forall fuel, (enough <= fuel)%nat -> forall a1 a2,
  filterApplyTo fuel n (mkBox f b) r1 e1 o1 a1 -> filterApplyTo fuel n (mkBox f b) r2 e2 o2 a2 ->
  exists out1 out2, a1 = Ok out1 /\ a2 = Ok out2 /\ forall p, InBox r1 p -> InBox r2 (neighbor p t) ->
    exists v1 v2, rget n out1 p = Ok v1 /\ rget n out2 (neighbor p t) = Ok v2 /\ (v1 == v2)%Q.
Proof.
  intros F1 F2 H. destruct (filterable_run n _ _ _ _ _ _ F1) as (n1 & G1). destruct (filterable_run n _ _ _ _ _ _ F2) as (n2 & G2).
  exists (Nat.max n1 n2). intros fuel Hf a1 a2 R1 R2. destruct (G1 fuel ltac:(lia) _ R1) as (out1 & -> & P1).
  destruct (G2 fuel ltac:(lia) _ R2) as (out2 & -> & P2). exists out1, out2. split; [reflexivity|]. split; [reflexivity|].
  intros p Hp Hp'. destruct (P1 p Hp) as (v1 & E1 & M1). destruct (P2 _ Hp') as (v2 & E2 & M2). exists v1, v2. split; [exact E1|]. split; [exact E2|].
  apply Qle_antisym; eapply window_le; eauto; intros q Hq; rewrite H by auto; apply Qle_refl.
Qed.

Lemma filter_map n f b g region X1 X2 e1 e2 o1 o2 : Filterable f b region X1 e1 o1 -> Filterable f b region X2 e2 o2 ->
  (forall x y, (x <= y)%Q -> (g x <= g y)%Q) ->
  (forall p q, InBox region p -> InBox (mkBox f b) q -> (X2 (neighbor p q) == g (X1 (neighbor p q)))%Q) ->
  exists enough, forall fuel, (enough <= fuel)%nat -> forall a1 a2,
  filterApplyTo fuel n (mkBox f b) region e1 o1 a1 -> filterApplyTo fuel n (mkBox f b) region e2 o2 a2 ->
  exists out1 out2, a1 = Ok out1 /\ a2 = Ok out2 /\ forall p, InBox region p ->
    exists v1 v2, rget n out1 p = Ok v1 /\ rget n out2 p = Ok v2 /\ (v2 == g v1)%Q.
Proof.
  intros F1 F2 Hg H. destruct (filterable_run n _ _ _ _ _ _ F1) as (n1 & G1). destruct (filterable_run n _ _ _ _ _ _ F2) as (n2 & G2).
  exists (Nat.max n1 n2). intros fuel Hf a1 a2 R1 R2. destruct (G1 fuel ltac:(lia) _ R1) as (out1 & -> & P1).
  destruct (G2 fuel ltac:(lia) _ R2) as (out2 & -> & P2). exists out1, out2. split; [reflexivity|]. split; [reflexivity|].
  intros p Hp. destruct (P1 p Hp) as (v1 & E1 & M1). destruct (P2 _ Hp) as (v2 & E2 & M2). exists v1, v2. split; [exact E1|]. split; [exact E2|].
  destruct F1 as (_ & Hfb & Ho & _). eapply window_map; eauto.
Qed.

Lemma filter_bounds n f b lo hi region X ext out : Filterable f b region X ext out ->
  (forall p q, InBox region p -> InBox (mkBox f b) q -> (lo <= X (neighbor p q) <= hi)%Q) ->
  exists enough, forall fuel, (enough <= fuel)%nat -> forall a, filterApplyTo fuel n (mkBox f b) region ext out a ->
  exists out', a = Ok out' /\ forall p, InBox region p -> exists v, rget n out' p = Ok v /\ (lo <= v <= hi)%Q.
Proof.
  intros F H. destruct (filterable_run n _ _ _ _ _ _ F) as (n1 & G1). exists n1. intros fuel Hf a R. destruct (G1 fuel Hf _ R) as (out' & -> & P).
  exists out'. split; [reflexivity|]. intros p Hp. destruct (P p Hp) as (v & E & M). exists v. split; [exact E|].
  destruct M as (s & Hs & x & y & Hx & Hy & Ev).
  assert (B : forall i z, zget s i = Ok z -> (lo <= z <= hi)%Q).
  { intros i z Hz. apply zget_ok in Hz as [_ Hz]. apply nth_error_In in Hz. apply (Permutation_in _ (Permutation_sym (proj1 Hs))) in Hz.
    apply in_map_iff in Hz as (q & <- & Hq). apply H; [exact Hp|]. now apply In_positions. }
  destruct (B _ _ Hx) as [X1 X2]. destruct (B _ _ Hy) as [Y1 Y2]. rewrite Ev.
  split.
  - apply (Qle_trans _ ((lo + lo) / 2)); [apply Qle_lteq; right; field|]. unfold Qdiv. apply Qmult_le_compat_r; [|discriminate]. now apply Qplus_le_compat.
  - apply (Qle_trans _ ((hi + hi) / 2)); [|apply Qle_lteq; right; field]. unfold Qdiv. apply Qmult_le_compat_r; [|discriminate]. now apply Qplus_le_compat.
Qed.

(** Separable kernels *)
Lemma applicable_run ks shape data : Applicable ks shape data -> exists out enough, Z.of_nat (length out) = prod shape /\
  (forall p, InDomain shape p -> pixel shape out p =
    windowCorrelation (productKernel ks) (fst (productWindow (length shape) ks)) (snd (productWindow (length shape) ks)) (pixel shape data) p) /\
  (forall p, pixel shape out p = axesCorrelation shape ks (pixel shape data) p) /\
  forall fuel, (enough <= fuel)%nat -> sapply fuel (Z.of_nat (length shape)) (separable ks) (mkRaster shape data) = Some (Ok (mkRaster shape out)).
Proof.
  intros (Hp & Hnd & Hf & Hl). destruct (apply_spec shape (separable ks) ks data Hp (separable_found ks Hnd) Hf Hl) as (out & enough & L & P & R).
  exists out, enough. split; [exact L|]. split; [|split; [exact P|exact R]]. intros p Hd. rewrite P. apply axes_product; auto.
  - eapply Forall_impl; [|exact Hf]. intros [[k o] a] (H & _). exact H.
  - apply pixel_supported.
Qed.

Lemma separable_translation ks t shape1 data1 shape2 data2 : Applicable ks shape1 data1 -> Applicable ks shape2 data2 -> length shape1 = length shape2 ->
  exists out1 out2 enough, (forall fuel, (enough <= fuel)%nat ->
    sapply fuel (Z.of_nat (length shape1)) (separable ks) (mkRaster shape1 data1) = Some (Ok (mkRaster shape1 out1)) /\
    sapply fuel (Z.of_nat (length shape2)) (separable ks) (mkRaster shape2 data2) = Some (Ok (mkRaster shape2 out2))) /\
  forall p, InDomain shape1 p -> InDomain shape2 (neighbor p t) ->
    (forall q, InWindow (length shape1) ks q -> pixel shape1 data1 (neighbor p q) = pixel shape2 data2 (neighbor (neighbor p t) q)) ->
    pixel shape1 out1 p = pixel shape2 out2 (neighbor p t).
Proof.
  intros A1 A2 E. destruct (applicable_run _ _ _ A1) as (out1 & n1 & _ & P1 & _ & R1). destruct (applicable_run _ _ _ A2) as (out2 & n2 & _ & P2 & _ & R2).
  exists out1, out2, (Nat.max n1 n2). split; [intros fuel Hf; split; [apply R1|apply R2]; lia|]. intros p Hp Hp' H. rewrite P1, P2 by auto.
  unfold windowCorrelation. rewrite <- E. apply total_ext. intros q Hq. apply In_positions in Hq. f_equal. apply H. exact Hq.
Qed.

Lemma total_le {A} (f g : A -> Z) l : (forall a, In a l -> f a <= g a) -> total (map f l) <= total (map g l).
Proof. induction l as [|a l IH]; intros H; cbn; [lia|]. assert (f a <= g a) by (apply H; now left). fold (total (map f l)) (total (map g l)). specialize (IH (fun x Hx => H x (or_intror Hx))). lia. Qed.

Lemma padded_nonneg l i : Forall (Z.le 0) l -> 0 <= padded l i.
Proof. intros H. unfold padded. destruct (zget l i) as [v| |] eqn:E; try lia. apply zget_ok in E as [_ E]. apply nth_error_In in E. rewrite Forall_forall in H. auto. Qed.

Lemma productKernel_nonneg ks q : Forall (fun koa : list Z * Z * nat => Forall (Z.le 0) (fst (fst koa))) ks -> 0 <= productKernel ks q.
Proof.
  unfold productKernel. induction 1 as [|koa ks H _ IH]; cbn [map fold_right]; [lia|]. apply Z.mul_nonneg_nonneg; [now apply padded_nonneg|exact IH].
Qed.

Lemma separable_order ks t shape1 data1 shape2 data2 : Applicable ks shape1 data1 -> Applicable ks shape2 data2 -> length shape1 = length shape2 ->
  Forall (fun koa => Forall (Z.le 0) (fst (fst koa))) ks ->
  exists out1 out2 enough, (forall fuel, (enough <= fuel)%nat ->
    sapply fuel (Z.of_nat (length shape1)) (separable ks) (mkRaster shape1 data1) = Some (Ok (mkRaster shape1 out1)) /\
    sapply fuel (Z.of_nat (length shape2)) (separable ks) (mkRaster shape2 data2) = Some (Ok (mkRaster shape2 out2))) /\
  forall p, InDomain shape1 p -> InDomain shape2 (neighbor p t) ->
    (forall q, InWindow (length shape1) ks q -> pixel shape1 data1 (neighbor p q) <= pixel shape2 data2 (neighbor (neighbor p t) q)) ->
    pixel shape1 out1 p <= pixel shape2 out2 (neighbor p t).
Proof.
  intros A1 A2 E Hk. destruct (applicable_run _ _ _ A1) as (out1 & n1 & _ & P1 & _ & R1). destruct (applicable_run _ _ _ A2) as (out2 & n2 & _ & P2 & _ & R2).
  exists out1, out2, (Nat.max n1 n2). split; [intros fuel Hf; split; [apply R1|apply R2]; lia|]. intros p Hp Hp' H. rewrite P1, P2 by auto.
  unfold windowCorrelation. rewrite <- E. apply total_le. intros q Hq. apply In_positions in Hq.
  apply Z.mul_le_mono_nonneg_l; [now apply productKernel_nonneg|]. apply H. exact Hq.
Qed.

(** Constant images *)
Lemma total_padded k : total (map (padded k) (zrange 0 (Z.of_nat (length k) - 1))) = total k.
Proof.
  f_equal. assert (G : forall pre, map (padded (pre ++ k)) (zrange (Z.of_nat (length pre)) (Z.of_nat (length pre) + Z.of_nat (length k) - 1)) = k).
  { induction k as [|x k IH]; intros pre.
    - unfold zrange. cbn [length]. replace (Z.to_nat (Z.of_nat (length pre) + Z.of_nat 0 - 1 - Z.of_nat (length pre) + 1)) with O by lia. reflexivity.
    - assert (E : zrange (Z.of_nat (length pre)) (Z.of_nat (length pre) + Z.of_nat (length (x :: k)) - 1) =
        Z.of_nat (length pre) :: zrange (Z.of_nat (length (pre ++ [x]))) (Z.of_nat (length (pre ++ [x])) + Z.of_nat (length k) - 1)).
      { rewrite app_length. cbn [length]. unfold zrange. replace (Z.to_nat (Z.of_nat (length pre) + Z.of_nat (S (length k)) - 1 - Z.of_nat (length pre) + 1)) with (S (length k)) by lia.
        replace (Z.to_nat (Z.of_nat (length pre + 1) + Z.of_nat (length k) - 1 - Z.of_nat (length pre + 1) + 1)) with (length k) by lia.
        cbn [seq map]. f_equal; [lia|]. rewrite <- seq_shift, map_map. apply map_ext. intros. lia. }
      rewrite E. cbn [map]. f_equal.
      + unfold padded, zget. destruct (Z.ltb_spec (Z.of_nat (length pre)) 0); [lia|]. rewrite Nat2Z.id, nth_error_app2, Nat.sub_diag by lia. reflexivity.
      + specialize (IH (pre ++ [x])). rewrite <- app_assoc in IH. exact IH. }
  exact (G []).
Qed.

Lemma Between_replace f b q a y x z : Between f b q -> x <= y <= z -> Between (replace f a x) (replace b a z) (replace q a y).
Proof.
  intros H Hy. revert a. induction H as [|f0 b0 q0 f b q H0 H IH]; intros [|a]; cbn [replace]; constructor; auto.
Qed.

Lemma axes_constant shape ks : NoDup (map snd ks) -> Forall (Fits shape) ks -> forall X c p, InDomain shape p ->
  (forall q, InWindow (length shape) ks q -> InDomain shape (neighbor p q)) -> (forall q, InWindow (length shape) ks q -> X (neighbor p q) = c) ->
  axesCorrelation shape ks X p = c * gain ks.
Proof.
  set (n := length shape). induction ks as [|[[k o] a] ks IH]; intros Hnd Hf X c p Hp Hin HX.
  - cbn [axesCorrelation]. unfold gain. cbn [map fold_right]. rewrite Z.mul_1_r. specialize (HX (repeat 0 n)).
    assert (E : forall m s, map (frontOf []) (seq s m) = repeat 0 m /\ map (backOf []) (seq s m) = repeat 0 m).
    { clear. induction m as [|m IHm]; intros s; cbn [seq map repeat]; [auto|]. destruct (IHm (S s)) as [-> ->]. auto. }
    unfold InWindow, productWindow in HX. cbn [fst snd] in HX. destruct (E n O) as [E1 E2]. rewrite E1, E2 in HX.
    assert (V : neighbor p (repeat 0 n) = p).
    { assert (L := InDomain_length _ _ Hp). fold n in L. rewrite L. unfold neighbor. clear. induction p as [|x p IHp]; auto. cbn. rewrite IHp. f_equal. lia. }
    rewrite V in HX. apply HX. clear. induction n; cbn [repeat]; constructor; auto; lia.
  - cbn in Hnd. inversion Hnd as [|? ? N1 N2]; subst. inversion Hf as [|? ? I1 I2]; subst. destruct I1 as (I1 & Io & _). fold n in I1.
    cbn [axesCorrelation]. unfold gain. cbn [map fold_right fst]. fold (gain ks). rewrite Z.mul_assoc.
    assert (Lp := InDomain_length _ _ Hp). fold n in Lp.
    assert (Sa : forall F : nat -> Z, nth_error (map F (seq 0 n)) a = Some (F a)).
    { intros F. rewrite nth_error_map. rewrite (nth_error_nth' (seq 0 n) O) by (rewrite seq_length; lia). rewrite seq_nth by lia. reflexivity. }
    destruct (frontOf_out ks a N1) as [F0 B0].
    assert (W : forall q, InWindow n ks q -> length q = n /\ nth_error q a = Some 0 /\ forall j, 0 <= j < Z.of_nat (length k) -> InWindow n ((k, o, a) :: ks) (replace q a (j - o))).
    { intros q Hq. assert (Lq := Between_length _ _ _ Hq). unfold productWindow in Lq. cbn [fst] in Lq. rewrite map_length, seq_length in Lq.
      assert (Qa := Between_nth _ _ _ Hq a). unfold productWindow in Qa. cbn [fst snd] in Qa. rewrite !(nth_error_nth _ _ _ (Sa _)), F0, B0 in Qa.
      split; [lia|]. split; [rewrite (nth_error_nth' q 0) by lia; f_equal; lia|]. intros j Hj. unfold InWindow, productWindow. cbn [fst snd].
      destruct (window_axis k o a ks n I1) as [-> ->]. apply Between_replace; [exact Hq|lia]. }
    apply IH; auto.
    + intros q Hq. destruct (W q Hq) as (_ & Q0 & G). specialize (G o Io). replace (o - o) with 0 in G by lia. rewrite replace_same in G by exact Q0. now apply Hin.
    + intros q Hq. destruct (W q Hq) as (Lq & Q0 & G). assert (In0 : InDomain shape (neighbor p q)).
      { specialize (G o Io). replace (o - o) with 0 in G by lia. rewrite replace_same in G by exact Q0. now apply Hin. }
      unfold axisCorrelation. apply inside_spec in In0. rewrite In0. unfold correlation.
      rewrite <- (total_padded k), total_scale. apply total_ext. intros j Hj.
      apply In_zrange in Hj. specialize (G j ltac:(lia)). specialize (HX _ G). unfold neighbor in HX |- *. rewrite vplus_replace in HX by lia.
      rewrite vplus_nth by lia. rewrite (nth_error_nth _ _ _ Q0).
      replace (nth a p 0 + 0 - o + j) with (nth a p 0 + (j - o)) by lia. rewrite HX. lia.
Qed.

Lemma separable_constant ks c shape data : Applicable ks shape data ->
  exists out enough, (forall fuel, (enough <= fuel)%nat ->
    sapply fuel (Z.of_nat (length shape)) (separable ks) (mkRaster shape data) = Some (Ok (mkRaster shape out))) /\
  forall p, InDomain shape p -> (forall q, InWindow (length shape) ks q -> InDomain shape (neighbor p q) /\ pixel shape data (neighbor p q) = c) ->
    pixel shape out p = c * gain ks.
Proof.
  intros A. destruct (applicable_run _ _ _ A) as (out & enough & _ & _ & P & R). exists out, enough. split; [exact R|].
  intros p Hp H. rewrite P. destruct A as (_ & Hnd & Hf & _). apply axes_constant; auto; intros q Hq; now apply H.
Qed.

(** Even windows *)
Lemma filter_even_witness : exists f b region (r out out1 out2 : raster Q) v1 v2, f <> [] /\ Forall2 Z.le f b /\ Nonempty region /\ WF r /\ WF out /\
  (forall p, InBox region p -> InDomain (rshape out) p) /\ (forall p q, InBox region p -> InBox (mkBox f b) q -> InDomain (rshape r) (neighbor p q)) /\
  filterApplyTo 10 1 (mkBox f b) region (rget 1 r) out (Ok out1) /\ filterApplyTo 10 1 (mkBox f b) region (rget 1 r) out (Ok out2) /\
  rget 1 out1 [0] = Ok v1 /\ rget 1 out2 [0] = Ok v2 /\ ~ (v1 == v2)%Q.
Proof.
  exists [0], [3], (mkBox [0] [0]), (mkRaster [4] [1; 2; 3; 4]%Q), (mkRaster [1] [0]%Q), (mkRaster [1] [(3 + 4) * (1 # 2)]%Q), (mkRaster [1] [(1 + 4) * (1 # 2)]%Q),
    ((3 + 4) * (1 # 2))%Q, ((1 + 4) * (1 # 2))%Q.
  assert (N : forall n, NthElement qltb [1; 2; 3; 4]%Q n [1; 2; 3; 4]%Q).
  { intros n; split; [apply Permutation_refl|apply (SortedBy_Part qltb qltb_swo); apply (is_sorted_spec qltb); reflexivity]. }
  assert (N2 : NthElement qltb [1; 2; 3; 4]%Q (2 + 1) [2; 3; 1; 4]%Q).
  { split.
    - apply (Permutation_trans (l' := [2; 1; 3; 4]%Q)); [apply perm_swap|]. constructor. apply perm_swap.
    - intros i j x y Hi Hij Hx Hy. pose proof (zget_range _ _ _ Hx). pose proof (zget_range _ _ _ Hy) as Hr. cbn [length] in *. assert (j = 3) as -> by lia.
      cbn in Hy. injection Hy as <-. apply zget_ok in Hx as [_ Hx]. apply nth_error_In in Hx. cbn in Hx.
      destruct Hx as [<-|[<-|[<-|[<-|[]]]]]; reflexivity. }
  split; [discriminate|]. split; [repeat constructor; lia|]. split; [exists [0]; repeat constructor; lia|]. split; [split; [discriminate|]; split; [repeat constructor; lia|reflexivity]|]. split; [split; [discriminate|]; split; [repeat constructor; lia|reflexivity]|].
  split; [|split; [|split; [|split]]].
  - intros p H. unfold InBox in H. cbn [bfront bback] in H. inversion H as [|? ? ? ? ? ? H1 H2]; subst. inversion H2; subst. repeat constructor; lia.
  - intros p q H K. unfold InBox in H, K. cbn [bfront bback] in H, K. inversion H as [|? ? x ? ? ? H1 H2]; subst. inversion H2; subst. inversion K as [|? ? y ? ? ? K1 K2]; subst. inversion K2; subst.
    cbn. repeat constructor; lia.
  - apply (filter_apply _ _ _ _ _ _ [[0]]); [reflexivity|].
    apply (filter_step _ _ _ _ [0] [] _ _ [[0]; [1]; [2]; [3]] [1; 2; 3; 4]%Q [1; 2; 3; 4]%Q ((3 + 4) * (1 # 2))%Q (mkRaster [1] [(3 + 4) * (1 # 2)]%Q)); [reflexivity|reflexivity|vm_compute; lia| |reflexivity|constructor].
    apply (median_even [1; 2; 3; 4]%Q [1; 2; 3; 4]%Q [1; 2; 3; 4]%Q); [reflexivity|reflexivity|apply N|apply N].
  - apply (filter_apply _ _ _ _ _ _ [[0]]); [reflexivity|].
    apply (filter_step _ _ _ _ [0] [] _ _ [[0]; [1]; [2]; [3]] [1; 2; 3; 4]%Q [2; 3; 1; 4]%Q ((1 + 4) * (1 # 2))%Q (mkRaster [1] [(1 + 4) * (1 # 2)]%Q)); [reflexivity|reflexivity|vm_compute; lia| |reflexivity|constructor].
    apply (median_even [1; 2; 3; 4]%Q [1; 2; 3; 4]%Q [2; 3; 1; 4]%Q); [reflexivity|reflexivity|apply N|exact N2].
  - split; [reflexivity|]. split; [reflexivity|]. discriminate.
Qed.

Lemma separable_border_witness : exists ks shape data c out p, Applicable ks shape data /\ gain ks = 1 /\
  (forall q, InDomain shape q -> pixel shape data q = c) /\ (forall fuel, (10 <= fuel)%nat -> sapply fuel 1 (separable ks) (mkRaster shape data) = Some (Ok (mkRaster shape out))) /\
  InDomain shape p /\ pixel shape out p <> c.
Proof.
  exists [([-1; 3; -1], 1, 0%nat)], [3], [5; 5; 5], 5, [10; 5; 10], [0].
  assert (A : Applicable [([-1; 3; -1], 1, 0%nat)] [3] [5; 5; 5]).
  { split; [repeat constructor; lia|]. split; [repeat constructor; cbn; tauto|]. split; [|reflexivity]. constructor; [|constructor]. repeat split; cbn; lia. }
  split; [exact A|]. split; [reflexivity|]. split; [|split; [|split]].
  - intros q H. inversion H as [|s0 x s1 q1 H1 H2]; subst. inversion H2; subst. assert (x = 0 \/ x = 1 \/ x = 2) as [->|[->| ->]] by lia; reflexivity.
  - intros fuel Hf. do 10 (destruct fuel as [|fuel]; [lia|]). reflexivity.
  - repeat constructor; lia.
  - vm_compute. discriminate.
Qed.
