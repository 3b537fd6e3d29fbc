(** C93: filters of moved or modified images. *)
From Verif Require Import Res VecModel TypesModel BoxModel RasterModel SamplingModel DistModel LineKernelModel SeparableModel MedianModel
  Spec BoxSpec RasterSpec KernelSpec SeparableSpec DistSpec MedianSpec EquivarianceSpec EquivarianceProofs.

(** Median filters, with an odd number of neighbors. The runs may be on different regions, outputs and images.
    Where the neighbors of [p + t] in the second image are those of [p] in the first one, the results are the same. *)
Theorem C93_median_translation : forall n f b t r1 r2 X1 X2 e1 e2 o1 o2, Filterable f b r1 X1 e1 o1 -> Filterable f b r2 X2 e2 o2 ->
  (forall p q, InBox r1 p -> InBox r2 (neighbor p t) -> InBox (mkBox f b) q -> (X1 (neighbor p q) == X2 (neighbor (neighbor p t) q))%Q) ->
  exists enough, forall fuel, (enough <= fuel)%nat -> forall a1 a2,
  filterApplyTo fuel n (mkBox f b) r1 e1 o1 a1 -> filterApplyTo fuel n (mkBox f b) r2 e2 o2 a2 ->
  exists out1 out2, a1 = Ok out1 /\ a2 = Ok out2 /\ forall p, InBox r1 p -> InBox r2 (neighbor p t) ->
    exists v1 v2, rget n out1 p = Ok v1 /\ rget n out2 (neighbor p t) = Ok v2 /\ (v1 == v2)%Q.
Proof. exact filter_translation. Qed.
Print Assumptions C93_median_translation.
Example C93_median_met :
  let r1 := mkRaster [5] [1; 7; 3; 4; 9]%Q in let r2 := mkRaster [6] [8; 1; 7; 3; 4; 9]%Q in
  let X1 q := match rget 1 r1 q with Ok v => v | _ => 0%Q end in let X2 q := match rget 1 r2 q with Ok v => v | _ => 0%Q end in
  Filterable [-1] [1] (mkBox [1] [3]) X1 (rget 1 r1) (mkRaster [5] [0; 0; 0; 0; 0]%Q) /\
  Filterable [-1] [1] (mkBox [1] [4]) X2 (rget 1 r2) (mkRaster [6] [0; 0; 0; 0; 0; 0]%Q) /\
  forall p q, InBox (mkBox [1] [3]) p -> InBox (mkBox [1] [4]) (neighbor p [1]) -> InBox (mkBox [-1] [1]) q ->
    (X1 (neighbor p q) == X2 (neighbor (neighbor p [1%Z]) q))%Q.
Proof.
  assert (C : forall f b (P : list Z -> Prop), (forall x, f <= x <= b -> P [x]) -> forall p, InBox (mkBox [f] [b]) p -> P p).
  { intros f b P H p Hp. unfold InBox in Hp. cbn [bfront bback] in Hp. inversion Hp as [|? ? x ? ? ? H1 H2]; subst. inversion H2; subst. now apply H. }
  cbv zeta. split; [|split].
  - split; [discriminate|]. split; [repeat constructor; lia|]. split; [reflexivity|]. split; [|split; [exists [1]; repeat constructor; lia|split; [|split; [split; [discriminate|]; split; [repeat constructor; lia|reflexivity]|reflexivity]]]].
    + intros p q Hp Hq. revert p Hp. apply C. intros x Hx. revert q Hq. apply C. intros y Hy.
      assert (E : x + y = 0 \/ x + y = 1 \/ x + y = 2 \/ x + y = 3 \/ x + y = 4) by lia. unfold neighbor. cbn [combine map fst snd].
      destruct E as [->|[->|[->|[->| ->]]]]; reflexivity.
    + apply C. intros x Hx. repeat constructor; cbn; lia.
  - split; [discriminate|]. split; [repeat constructor; lia|]. split; [reflexivity|]. split; [|split; [exists [1]; repeat constructor; lia|split; [|split; [split; [discriminate|]; split; [repeat constructor; lia|reflexivity]|reflexivity]]]].
    + intros p q Hp Hq. revert p Hp. apply C. intros x Hx. revert q Hq. apply C. intros y Hy.
      assert (E : x + y = 0 \/ x + y = 1 \/ x + y = 2 \/ x + y = 3 \/ x + y = 4 \/ x + y = 5) by lia. unfold neighbor. cbn [combine map fst snd].
      destruct E as [->|[->|[->|[->|[->| ->]]]]]; reflexivity.
    + apply C. intros x Hx. repeat constructor; cbn; lia.
  - intros p q Hp _ Hq. revert p Hp. apply C. intros x Hx. revert q Hq. apply C. intros y Hy. unfold neighbor. cbn [combine map fst snd].
    replace (x + 1 + y) with (x + y + 1) by lia. assert (E : x + y = 0 \/ x + y = 1 \/ x + y = 2 \/ x + y = 3 \/ x + y = 4) by lia.
    destruct E as [->|[->|[->|[->| ->]]]]; reflexivity.
Qed.

(** Where they are not less, neither is the result. *)
Theorem C93_median_order : forall n f b t r1 r2 X1 X2 e1 e2 o1 o2, Filterable f b r1 X1 e1 o1 -> Filterable f b r2 X2 e2 o2 ->
  (forall p q, InBox r1 p -> InBox r2 (neighbor p t) -> InBox (mkBox f b) q -> (X1 (neighbor p q) <= X2 (neighbor (neighbor p t) q))%Q) ->
  exists enough, forall fuel, (enough <= fuel)%nat -> forall a1 a2,
  filterApplyTo fuel n (mkBox f b) r1 e1 o1 a1 -> filterApplyTo fuel n (mkBox f b) r2 e2 o2 a2 ->
  exists out1 out2, a1 = Ok out1 /\ a2 = Ok out2 /\ forall p, InBox r1 p -> InBox r2 (neighbor p t) ->
    exists v1 v2, rget n out1 p = Ok v1 /\ rget n out2 (neighbor p t) = Ok v2 /\ (v1 <= v2)%Q.
Proof. exact filter_order. Qed.
Print Assumptions C93_median_order.

(** Changing the values by an increasing function before or after the filter is the same, rescaling for instance. *)
Theorem C93_median_map : forall n f b g region X1 X2 e1 e2 o1 o2, Filterable f b region X1 e1 o1 -> Filterable f b region X2 e2 o2 ->
  (forall x y, (x <= y)%Q -> (g x <= g y)%Q) ->
  (forall p q, InBox region p -> InBox (mkBox f b) q -> (X2 (neighbor p q) == g (X1 (neighbor p q)))%Q) ->
  exists enough, forall fuel, (enough <= fuel)%nat -> forall a1 a2,
  filterApplyTo fuel n (mkBox f b) region e1 o1 a1 -> filterApplyTo fuel n (mkBox f b) region e2 o2 a2 ->
  exists out1 out2, a1 = Ok out1 /\ a2 = Ok out2 /\ forall p, InBox region p ->
    exists v1 v2, rget n out1 p = Ok v1 /\ rget n out2 p = Ok v2 /\ (v2 == g v1)%Q.
Proof. exact filter_map. Qed.
Print Assumptions C93_median_map.
Example C93_median_map_met : forall x y : Q, (x <= y)%Q -> (2 * x + 3 <= 2 * y + 3)%Q.
Proof. intros x y H. apply Qplus_le_compat; [|apply Qle_refl]. rewrite (Qmult_comm 2 x), (Qmult_comm 2 y). apply Qmult_le_compat_r; [exact H|discriminate]. Qed.

(** The result is within the bounds of the values of the neighbors. *)
Theorem C93_median_bounds : forall n f b lo hi region X ext out, Filterable f b region X ext out ->
  (forall p q, InBox region p -> InBox (mkBox f b) q -> (lo <= X (neighbor p q) <= hi)%Q) ->
  exists enough, forall fuel, (enough <= fuel)%nat -> forall a, filterApplyTo fuel n (mkBox f b) region ext out a ->
  exists out', a = Ok out' /\ forall p, InBox region p -> exists v, rget n out' p = Ok v /\ (lo <= v <= hi)%Q.
Proof. exact filter_bounds. Qed.
Print Assumptions C93_median_bounds.

(** With an even number of neighbors, the result is not even determined by the image. *)
Theorem C93_median_even_refuted : exists f b region (r out out1 out2 : raster Q) v1 v2, f <> [] /\ Forall2 Z.le f b /\ Nonempty region /\ WF r /\ WF out /\
  (forall p, InBox region p -> InDomain (rshape out) p) /\ (forall p q, InBox region p -> InBox (mkBox f b) q -> InDomain (rshape r) (neighbor p q)) /\
  filterApplyTo 10 1 (mkBox f b) region (rget 1 r) out (Ok out1) /\ filterApplyTo 10 1 (mkBox f b) region (rget 1 r) out (Ok out2) /\
  rget 1 out1 [0] = Ok v1 /\ rget 1 out2 [0] = Ok v2 /\ ~ (v1 == v2)%Q.
Proof. exact filter_even_witness. Qed.
Print Assumptions C93_median_even_refuted.

(** Separable kernels of distinct axes: where the pixels in the window of [p + t] in the second image are those of [p] in the first one,
    zeros out of the domains included, the results are the same. *)
Theorem C93_separable_translation : forall ks t shape1 data1 shape2 data2, Applicable ks shape1 data1 -> Applicable ks shape2 data2 -> length shape1 = length shape2 ->
  exists out1 out2 enough, (forall fuel, (enough <= fuel)%nat ->
    sapply fuel (Z.of_nat (length shape1)) (separable ks) (mkRaster shape1 data1) = Some (Ok (mkRaster shape1 out1)) /\
    sapply fuel (Z.of_nat (length shape2)) (separable ks) (mkRaster shape2 data2) = Some (Ok (mkRaster shape2 out2))) /\
  forall p, InDomain shape1 p -> InDomain shape2 (neighbor p t) ->
    (forall q, InWindow (length shape1) ks q -> pixel shape1 data1 (neighbor p q) = pixel shape2 data2 (neighbor (neighbor p t) q)) ->
    pixel shape1 out1 p = pixel shape2 out2 (neighbor p t).
Proof. exact separable_translation. Qed.
Print Assumptions C93_separable_translation.
Example C93_separable_met :
  let ks := [([1; 2; 1], 1, 0%nat); ([1; 1], 0, 1%nat)] in
  Applicable ks [3; 2] [1; 2; 3; 4; 5; 6] /\ Applicable ks [4; 3] [0; 0; 0; 0; 0; 1; 2; 3; 0; 4; 5; 6] /\
  productWindow 2 ks = ([-1; 0], [1; 1]) /\
  forall q, InWindow 2 ks q -> pixel [3; 2] [1; 2; 3; 4; 5; 6] (neighbor [1; 0] q) =
    pixel [4; 3] [0; 0; 0; 0; 0; 1; 2; 3; 0; 4; 5; 6] (neighbor (neighbor [1; 0] [1; 1]) q).
Proof.
  cbv zeta. assert (A : forall shape data, nth 0 shape 0 < 2 ^ 61 -> nth 1 shape 0 < 2 ^ 61 -> Positive shape -> length shape = 2%nat -> 3 <= nth 0 shape 0 -> 2 <= nth 1 shape 0 -> Z.of_nat (length data) = prod shape ->
    Applicable [([1; 2; 1], 1, 0%nat); ([1; 1], 0, 1%nat)] shape data).
  { intros shape data B0 B1 Hp L H0 H1 Hd. split; [exact Hp|]. split; [repeat constructor; cbn; intuition discriminate|]. split; [|exact Hd].
    constructor; [|constructor; [|constructor]]; (split; [lia|]; split; [cbn; lia|]; split; cbn [length]; lia). }
  split; [apply A; try reflexivity; try (cbn; lia); repeat constructor; lia|]. split; [apply A; try reflexivity; try (cbn; lia); repeat constructor; lia|]. split; [reflexivity|].
  intros q Hq. unfold InWindow in Hq. cbn in Hq. inversion Hq as [|? ? x ? ? ? H1 H2]; subst. inversion H2 as [|? ? y ? ? ? H3 H4]; subst. inversion H4; subst.
  assert (X : x = -1 \/ x = 0 \/ x = 1) by lia. assert (Y : y = 0 \/ y = 1) by lia. destruct X as [->|[->| ->]], Y as [->| ->]; reflexivity.
Qed.

(** Kernels without negative value preserve the order of images. *)
Theorem C93_separable_order : forall ks t shape1 data1 shape2 data2, Applicable ks shape1 data1 -> Applicable ks shape2 data2 -> length shape1 = length shape2 ->
  Forall (fun koa => Forall (Z.le 0) (fst (fst koa))) ks ->
  exists out1 out2 enough, (forall fuel, (enough <= fuel)%nat ->
    sapply fuel (Z.of_nat (length shape1)) (separable ks) (mkRaster shape1 data1) = Some (Ok (mkRaster shape1 out1)) /\
    sapply fuel (Z.of_nat (length shape2)) (separable ks) (mkRaster shape2 data2) = Some (Ok (mkRaster shape2 out2))) /\
  forall p, InDomain shape1 p -> InDomain shape2 (neighbor p t) ->
    (forall q, InWindow (length shape1) ks q -> pixel shape1 data1 (neighbor p q) <= pixel shape2 data2 (neighbor (neighbor p t) q)) ->
    pixel shape1 out1 p <= pixel shape2 out2 (neighbor p t).
Proof. exact separable_order. Qed.
Print Assumptions C93_separable_order.

(** Where the image is constant over a window which is in the domain, the result is the constant times the product of the sums of the kernels. *)
Theorem C93_separable_constant : forall ks c shape data, Applicable ks shape data ->
  exists out enough, (forall fuel, (enough <= fuel)%nat ->
    sapply fuel (Z.of_nat (length shape)) (separable ks) (mkRaster shape data) = Some (Ok (mkRaster shape out))) /\
  forall p, InDomain shape p -> (forall q, InWindow (length shape) ks q -> InDomain shape (neighbor p q) /\ pixel shape data (neighbor p q) = c) ->
    pixel shape out p = c * gain ks.
Proof. exact separable_constant. Qed.
Print Assumptions C93_separable_constant.
Example C93_separable_constant_met : let ks := [([1; 2; 1], 1, 0%nat); ([1; 1], 0, 1%nat)] in
  gain ks = 8 /\ forall q, InWindow 2 ks q -> InDomain [3; 2] (neighbor [1; 0] q) /\ pixel [3; 2] [5; 5; 5; 5; 5; 5] (neighbor [1; 0] q) = 5.
Proof.
  cbv zeta. split; [reflexivity|].
  intros q Hq. unfold InWindow in Hq. cbn in Hq. inversion Hq as [|? ? x ? ? ? H1 H2]; subst. inversion H2 as [|? ? y ? ? ? H3 H4]; subst. inversion H4; subst.
  split; [unfold neighbor; cbn [combine map fst snd]; apply InDomain_cons; [lia|]; apply InDomain_cons; [lia|]; apply InDomain_nil|].
  assert (X : x = -1 \/ x = 0 \/ x = 1) by lia. assert (Y : y = 0 \/ y = 1) by lia. destruct X as [->|[->| ->]], Y as [->| ->]; reflexivity.
Qed.

(** At the border, a normalised kernel does not preserve the constant images. *)
Theorem C93_border_refuted : exists ks shape data c out p, Applicable ks shape data /\ gain ks = 1 /\
  (forall q, InDomain shape q -> pixel shape data q = c) /\ (forall fuel, (10 <= fuel)%nat -> sapply fuel 1 (separable ks) (mkRaster shape data) = Some (Ok (mkRaster shape out))) /\
  InDomain shape p /\ pixel shape out p <> c.
Proof. exact separable_border_witness. Qed.
Print Assumptions C93_border_refuted.
