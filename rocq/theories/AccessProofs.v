(** Access, membership, construction, equality. *)
From Verif Require Import Res VecModel BoxModel RasterModel ContainerModel Spec RasterSpec Lemmas IndexProofs.

(** at(Index) *)
Lemma atIndex_spec {A} (data : list A) i :
  Z.of_nat (length data) < 2 ^ 63 -> - 2 ^ 63 <= i < 2 ^ 63 ->
  let s := Z.of_nat (length data) in
  (0 <= i < s -> atIndex data i = Ok i) /\
  (- s <= i < 0 -> atIndex data i = Ok (s + i)) /\
  (i < - s \/ s <= i -> atIndex data i = Throw EOutOfBounds).
Proof.
  intros Hs Hi s. unfold atIndex. fold s.
  assert (H0 : 0 <= s) by lia.
  assert (H1 : s64 (u64 (- s)) = - s).
  { unfold s64, u64. rewrite Zmod_mod. destruct (Z.eq_dec s 0) as [->|Hne]; [reflexivity|].
    rewrite <- (Z.mod_unique (- s) (2 ^ 64) (-1) (2 ^ 64 - s)) by lia.
    replace (2 ^ 64 - s <? 2 ^ 63) with false by lia. lia. }
  assert (H2 : s64 (u64 (s - 1)) = s - 1).
  { unfold s64, u64. rewrite Zmod_mod. destruct (Z.eq_dec s 0) as [->|Hne]; [reflexivity|].
    rewrite Z.mod_small by lia. replace (s - 1 <? 2 ^ 63) with true by lia. lia. }
  rewrite H1, H2. unfold boundsCheck. repeat split; intros H.
  - replace ((i <? - s) || (s - 1 <? i)) with false by lia. cbn [bind]. replace (0 <=? i) with true by lia. auto.
  - replace ((i <? - s) || (s - 1 <? i)) with false by lia. cbn [bind]. replace (0 <=? i) with false by lia.
    f_equal. unfold u64. rewrite Zplus_mod_idemp_l. rewrite Z.mod_small; lia.
  - replace ((i <? - s) || (s - 1 <? i)) with true by lia. auto.
Qed.

Lemma cat_spec {A} (data : list A) i :
  Z.of_nat (length data) < 2 ^ 63 -> - 2 ^ 63 <= i < 2 ^ 63 ->
  let s := Z.of_nat (length data) in
  (0 <= i < s -> exists a, nth_error data (Z.to_nat i) = Some a /\ cat data i = Ok a) /\
  (- s <= i < 0 -> exists a, nth_error data (Z.to_nat (s + i)) = Some a /\ cat data i = Ok a) /\
  (i < - s \/ s <= i -> cat data i = Throw EOutOfBounds).
Proof.
  intros Hs Hi s. destruct (atIndex_spec data i Hs Hi) as (H1 & H2 & H3). fold s in H1, H2, H3.
  unfold cat. repeat split; intros H.
  - rewrite H1 by auto. cbn [bind]. destruct (zget_in_range data i H) as [a Ha]. exists a.
    split; auto. now apply zget_ok in Ha.
  - rewrite H2 by auto. cbn [bind]. destruct (zget_in_range data (s + i)) as [a Ha]; [lia|]. exists a.
    split; auto. now apply zget_ok in Ha.
  - rewrite H3 by auto. reflexivity.
Qed.

Lemma catSet_spec {A} (data : list A) i (a : A) :
  Z.of_nat (length data) < 2 ^ 63 -> - 2 ^ 63 <= i < 2 ^ 63 ->
  let s := Z.of_nat (length data) in
  (- s <= i < s -> exists data', catSet data i a = Ok data' /\ length data' = length data /\ cat data' i = Ok a /\
     forall j, 0 <= j < s -> j <> i -> j <> s + i -> zget data' j = zget data j) /\
  (i < - s \/ s <= i -> catSet data i a = Throw EOutOfBounds).
Proof.
  intros Hs Hi s. destruct (atIndex_spec data i Hs Hi) as (H1 & H2 & H3). fold s in H1, H2, H3.
  split; [|intros H; unfold catSet; now rewrite H3].
  intros H. assert (exists k, atIndex data i = Ok k /\ 0 <= k < s /\ (k = i \/ k = s + i)) as (k & Hk & Hr & Hki).
  { destruct (Z_lt_le_dec i 0); [exists (s + i); rewrite H2 by lia | exists i; rewrite H1 by lia]; repeat split; auto; lia. }
  unfold catSet. rewrite Hk. cbn [bind]. assert (Hz : zset data k a = Ok (replace data (Z.to_nat k) a)) by (apply zset_ok; auto).
  exists (replace data (Z.to_nat k) a). split; auto. split; [apply replace_length|]. split.
  - unfold cat. replace (atIndex (replace data (Z.to_nat k) a) i) with (Ok k)
      by (rewrite <- Hk; unfold atIndex; now rewrite replace_length).
    cbn [bind]. eapply zset_get_eq; eauto.
  - intros j Hj Hji Hjs. eapply zset_get_neq; eauto. lia.
Qed.

(** at(Position) *)
Lemma boundPos_ok shape pos :
  Forall2 (fun s p => - s <= p < s) shape pos ->
  boundPos shape pos = Ok (map2 (fun s p => if p <? 0 then p + s else p) shape pos) /\
  InDomain shape (map2 (fun s p => if p <? 0 then p + s else p) shape pos).
Proof.
  induction 1 as [|s p shape pos Hp H [IH1 IH2]]; [split; [reflexivity | constructor]|].
  cbn [boundPos map2]. unfold boundsCheck. replace ((p <? - s) || (s - 1 <? p)) with false by lia.
  cbn [bind]. rewrite IH1. cbn [bind]. split; auto. constructor; auto. destruct (p <? 0) eqn:E; lia.
Qed.

Lemma boundPos_throw shape pos :
  length shape = length pos -> ~ Forall2 (fun s p => - s <= p < s) shape pos -> boundPos shape pos = Throw EOutOfBounds.
Proof.
  revert pos; induction shape as [|s shape IH]; intros [|p pos] Hl H; cbn in Hl; try lia.
  - destruct H. constructor.
  - cbn [boundPos]. unfold boundsCheck. destruct ((p <? - s) || (s - 1 <? p)) eqn:E; auto. cbn [bind].
    rewrite IH; auto. intros H'. apply H. constructor; auto. lia.
Qed.

Lemma rget_domain {A} n (r : raster A) p :
  WF r -> InDomain (rshape r) p -> exists a, rget n r p = Ok a /\ zget (rdata r) (rank (rshape r) p) = Ok a.
Proof.
  intros (Hne & _ & Hl) Hd. unfold rget. rewrite rindex_rank by (auto using InDomain_length). cbn [bind].
  destruct (zget_in_range (rdata r) (rank (rshape r) p)) as [a Ha]; [|eauto].
  rewrite Hl. now apply rank_bounds.
Qed.

Lemma rset_domain {A} n (r : raster A) p a :
  WF r -> InDomain (rshape r) p ->
  exists r', rset n r p a = Ok r' /\ WF r' /\ rshape r' = rshape r /\ rget n r' p = Ok a /\
    forall q, InDomain (rshape r) q -> q <> p -> rget n r' q = rget n r q.
Proof.
  intros (Hne & Hnn & Hl) Hd. unfold rset. rewrite rindex_rank by (auto using InDomain_length). cbn [bind].
  assert (Hb := rank_bounds _ _ Hd).
  assert (Hz : zset (rdata r) (rank (rshape r) p) a = Ok (replace (rdata r) (Z.to_nat (rank (rshape r) p)) a))
    by (apply zset_ok; lia).
  rewrite Hz. cbn [bind]. eexists; split; [reflexivity|]. cbn [rshape rdata]. split; [|split; [reflexivity|split]].
  - repeat split; cbn [rshape rdata]; auto. now rewrite replace_length.
  - unfold rget. cbn [rshape rdata]. rewrite rindex_rank by (auto using InDomain_length). cbn [bind].
    eapply zset_get_eq; eauto.
  - intros q Hq Hpq. unfold rget. cbn [rshape rdata]. rewrite rindex_rank by (auto using InDomain_length). cbn [bind].
    eapply zset_get_neq; eauto. intros E. apply Hpq. symmetry. eapply rank_inj; eauto.
Qed.

Lemma rat_spec {A} n (r : raster A) pos :
  WF r -> length pos = length (rshape r) ->
  (Forall2 (fun s p => - s <= p < s) (rshape r) pos ->
     exists a q, q = map2 (fun s p => if p <? 0 then p + s else p) (rshape r) pos /\ InDomain (rshape r) q /\
       rget n r q = Ok a /\ rat n r pos = Ok a) /\
  (~ Forall2 (fun s p => - s <= p < s) (rshape r) pos -> rat n r pos = Throw EOutOfBounds).
Proof.
  intros Hwf Hl. unfold rat. split; intros H.
  - destruct (boundPos_ok _ _ H) as [-> Hd]. cbn [bind]. destruct (rget_domain n r _ Hwf Hd) as (a & Ha & _). eauto 10.
  - rewrite boundPos_throw by auto. reflexivity.
Qed.

Lemma ratSet_spec {A} n (r : raster A) pos a :
  WF r -> length pos = length (rshape r) ->
  (Forall2 (fun s p => - s <= p < s) (rshape r) pos ->
     exists r' q, q = map2 (fun s p => if p <? 0 then p + s else p) (rshape r) pos /\
       ratSet n r pos a = Ok r' /\ rshape r' = rshape r /\ rget n r' q = Ok a /\
       forall q', InDomain (rshape r) q' -> q' <> q -> rget n r' q' = rget n r q') /\
  (~ Forall2 (fun s p => - s <= p < s) (rshape r) pos -> ratSet n r pos a = Throw EOutOfBounds).
Proof.
  intros Hwf Hl. unfold ratSet. split; intros H.
  - destruct (boundPos_ok _ _ H) as [-> Hd]. cbn [bind].
    destruct (rset_domain n r _ a Hwf Hd) as (r' & E & _ & Hs & Hg & Ho). exists r'. eexists. repeat split; eauto.
  - rewrite boundPos_throw by auto. reflexivity.
Qed.

(** contains *)
Lemma containsLoop_spec shape pos :
  length pos = length shape ->
  exists c, containsLoop shape pos = Ok c /\ (c = true <-> InDomain shape pos).
Proof.
  revert pos; induction shape as [|s shape IH]; intros [|p pos] Hl; cbn in Hl; try lia.
  - exists true. repeat split; auto. constructor.
  - cbn [containsLoop]. destruct ((p <? 0) || (s <=? p)) eqn:E.
    + exists false. repeat split; auto; [discriminate|]. inversion 1; subst. lia.
    + destruct (IH pos) as (c & Hc & Hiff); [lia|]. exists c. split; auto. rewrite Hiff, InDomain_cons_iff. intuition lia.
Qed.

Lemma contains_spec {A} n (r : raster A) pos :
  WF r -> length pos = length (rshape r) ->
  exists c, contains r pos = Ok c /\
    (c = true <-> InDomain (rshape r) pos) /\
    (c = true -> exists i a, rindex n (rshape r) pos = Ok i /\ zget (rdata r) i = Ok a /\
       forall q, contains r q = Ok true -> length q = length (rshape r) -> rindex n (rshape r) q = Ok i -> q = pos).
Proof.
  intros Hwf Hl. destruct (containsLoop_spec (rshape r) pos Hl) as (c & Hc & Hiff).
  exists c. split; auto. split; auto. intros ->. assert (Hd : InDomain (rshape r) pos) by now apply Hiff.
  destruct (rget_domain n r pos Hwf Hd) as (a & _ & Ha). destruct Hwf as (Hne & _).
  exists (rank (rshape r) pos), a. rewrite rindex_rank by auto. repeat split; auto.
  intros q Hq Hlq Hi. destruct (containsLoop_spec (rshape r) q Hlq) as (c & Hc' & Hiff').
  unfold contains in Hq. rewrite Hq in Hc'. injection Hc' as <-. 
  rewrite rindex_rank in Hi by auto. injection Hi as Hi. eapply rank_inj; eauto. apply Hiff'; auto.
Qed.

(** Constructors *)
Lemma copy_n_full {A} (src dst : list A) : length src = length dst -> copy_n src (length src) dst = Ok src.
Proof.
  revert dst; induction src as [|x src IH]; intros [|y dst] Hl; cbn in Hl; try lia; auto.
  cbn [copy_n length]. rewrite IH by lia. reflexivity.
Qed.

Lemma rasterOfList_vector n shape values :
  n = Z.of_nat (length shape) -> shape <> [] ->
  (Z.of_nat (length values) = prod shape -> rasterOfList n HVector shape values = Ok (mkRaster shape values)) /\
  (Z.of_nat (length values) <> prod shape -> rasterOfList n HVector shape values = Throw ESize).
Proof.
  intros Hn Hne. unfold rasterOfList, holderInit, copyInto, movedFrom, sizeCheck.
  replace (Z.of_nat (length values) <? 0) with false by lia. cbn [bind].
  rewrite copy_n_full by (rewrite repeat_length; lia). cbn [bind].
  replace (n =? -1) with false by lia. rewrite shapeSize_prod by auto.
  split; intros H.
  - apply Z.eqb_eq in H. rewrite H. reflexivity.
  - apply Z.eqb_neq in H. rewrite H. reflexivity.
Qed.

Lemma rasterOfList_array n cap shape values :
  n = Z.of_nat (length shape) -> shape <> [] -> values <> [] ->
  (Z.of_nat (length values) = prod shape /\ length values = cap ->
     rasterOfList n (HArray cap) shape values = Ok (mkRaster shape values)) /\
  (~ (Z.of_nat (length values) = prod shape /\ length values = cap) ->
     exists e, rasterOfList n (HArray cap) shape values = Throw e).
Proof.
  intros Hn Hne Hv. unfold rasterOfList, holderInit, copyInto, movedFrom, sizeCheck.
  assert (Hv' : length values <> O) by (destruct values; [congruence | discriminate]).
  replace (Z.of_nat (length values) =? 0) with false by lia.
  replace (n =? -1) with false by lia. rewrite shapeSize_prod by auto.
  destruct (Z.of_nat (length values) =? Z.of_nat cap) eqn:Ec; cbn [negb andb bind].
  - assert (length values = cap) by lia. rewrite copy_n_full by (rewrite repeat_length; lia). cbn [bind].
    destruct (Z.of_nat (length values) =? prod shape) eqn:Es; split; intros H'; cbn [bind]; eauto; try lia.
  - split; intros H'; eauto. lia.
Qed.

Lemma rasterOfContainer_spec shape values :
  shape <> [] ->
  (Z.of_nat (length values) = prod shape -> rasterOfContainer shape values = Ok (mkRaster shape values)) /\
  (Z.of_nat (length values) <> prod shape -> rasterOfContainer shape values = Throw ESize).
Proof.
  intros Hne. unfold rasterOfContainer, sizeCheck. rewrite shapeSize_prod by auto. split; intros H.
  - apply Z.eqb_eq in H. rewrite H. reflexivity.
  - apply Z.eqb_neq in H. rewrite H. reflexivity.
Qed.

Lemma rasterOfShape_vector shape :
  shape <> [] -> Forall (fun s => 0 <= s) shape ->
  exists r, rasterOfShape HVector shape = Ok r /\ rshape r = shape /\ Z.of_nat (length (rdata r)) = prod shape /\
            Forall (fun a => a = 0) (rdata r).
Proof.
  intros Hne Hnn. assert (0 <= prod shape).
  { clear Hne. induction Hnn as [|s shape Hs Hnn IH]; [cbn; lia|]. rewrite prod_cons. nia. }
  unfold rasterOfShape, holderInit. rewrite shapeSize_prod by auto.
  replace (prod shape <? 0) with false by lia. cbn [bind]. eexists; split; [reflexivity|]. cbn [rshape rdata].
  rewrite repeat_length. repeat split; auto; [lia|]. apply Forall_forall. intros a Ha. now apply repeat_spec in Ha.
Qed.

(** Arrays accept their own size, and 0, for which they keep all of their elements. *)
Lemma rasterOfShape_array cap shape : shape <> [] ->
  (prod shape = Z.of_nat cap \/ prod shape = 0 -> rasterOfShape (HArray cap) shape = Ok (mkRaster shape (repeat 0 cap))) /\
  (prod shape <> Z.of_nat cap -> prod shape <> 0 -> exists e, rasterOfShape (HArray cap) shape = Throw e).
Proof.
  intros Hne. unfold rasterOfShape, holderInit. rewrite shapeSize_prod by auto. split; intros H.
  - replace (negb (prod shape =? Z.of_nat cap) && negb (prod shape =? 0)) with false by lia. reflexivity.
  - intros H0. replace (negb (prod shape =? Z.of_nat cap) && negb (prod shape =? 0)) with true by lia. cbn [bind]. eauto.
Qed.

(** run-time dimension: the shape is read after it was moved *)
Lemma rasterOfList_runtime shape values :
  (values <> [] -> rasterOfList (-1) HVector shape values = Throw ESize) /\
  (values = [] -> rasterOfList (-1) HVector shape values = Ok (mkRaster shape [])).
Proof.
  unfold rasterOfList, holderInit, copyInto, movedFrom, sizeCheck.
  replace (Z.of_nat (length values) <? 0) with false by lia. cbn [bind].
  rewrite copy_n_full by (rewrite repeat_length; lia). cbn [bind].
  change (shapeSize (if -1 =? -1 then [] else shape)) with 0. split; intros H.
  - replace (Z.of_nat (length values) =? 0) with false; [reflexivity|]. destruct values; [congruence | cbn [length]; lia].
  - subst. reflexivity.
Qed.

(** Equality *)
Lemma listEqb_spec {A} (eqb : A -> A -> bool) l r :
  (forall a b, eqb a b = true <-> a = b) -> (listEqb eqb l r = true <-> l = r).
Proof.
  intros H. revert r; induction l as [|a l IH]; intros [|b r]; cbn; try (split; congruence).
  rewrite andb_true_iff, H, IH. split; [intros [-> ->] | intros [= -> ->]]; auto.
Qed.

Lemma rasterEqb_eq {A} (eqb : A -> A -> bool) a b :
  (forall x y, eqb x y = true <-> x = y) -> (rasterEqb eqb a b = true <-> a = b).
Proof.
  intros H. unfold rasterEqb. destruct (veqb (rshape a) (rshape b)) eqn:E; cbn [negb].
  - apply veqb_spec in E. rewrite (listEqb_spec eqb) by auto. destruct a, b; cbn in *. split; [intros -> | intros [=]]; congruence.
  - split; [discriminate|]. intros ->. rewrite veqb_refl in E. discriminate.
Qed.

Lemma nonneg_positive shape : Forall (fun s => 0 <= s) shape -> prod shape <> 0 -> Positive shape.
Proof.
  induction 1 as [|s shape Hs H IH]; intros Hp; [constructor|]. rewrite prod_cons in Hp. constructor.
  - destruct (Z.eq_dec s 0) as [->|]; lia.
  - apply IH. intros E. rewrite E in Hp. lia.
Qed.

Lemma raster_ext {A} n (a b : raster A) :
  WF a -> WF b -> rshape a = rshape b ->
  (forall p, InDomain (rshape a) p -> rget n a p = rget n b p) -> a = b.
Proof.
  intros (Hne & Hnn & Hla) (_ & _ & Hlb) Hs H. destruct a as [sa da], b as [sb db]. cbn [rshape rdata] in *. subst sb. f_equal.
  apply zget_ext; [lia|]. intros i Hi. rewrite Hla in Hi.
  assert (Hp : Positive sa) by (apply nonneg_positive; auto; lia).
  assert (Hd := unrank_domain sa i Hp). specialize (H _ Hd). unfold rget in H. cbn [rshape rdata] in H.
  rewrite !rindex_rank in H by (auto using InDomain_length). cbn [bind] in H. now rewrite rank_unrank in H.
Qed.

Lemma equality_spec {A} (eqb : A -> A -> bool) n a b :
  (forall x y, eqb x y = true <-> x = y) -> WF a -> WF b ->
  (rasterEqb eqb a b = true <->
   rshape a = rshape b /\ forall p, InDomain (rshape a) p -> rget n a p = rget n b p).
Proof.
  intros He Ha Hb. rewrite (rasterEqb_eq eqb) by auto. split; [intros ->; auto|]. intros [Hs H]. eapply raster_ext; eauto.
Qed.

Lemma equality_equiv {A} (eqb : A -> A -> bool) (a b c : raster A) :
  (forall x y, eqb x y = true <-> x = y) ->
  rasterEqb eqb a a = true /\ rasterEqb eqb a b = rasterEqb eqb b a /\
  (rasterEqb eqb a b = true -> rasterEqb eqb b c = true -> rasterEqb eqb a c = true) /\
  (rshape a <> rshape b -> rasterEqb eqb a b = false).
Proof.
  intros He. repeat split.
  - now apply (rasterEqb_eq eqb).
  - apply eq_true_iff_eq. rewrite !(rasterEqb_eq eqb) by auto. split; auto.
  - rewrite !(rasterEqb_eq eqb) by auto. congruence.
  - intros H. unfold rasterEqb. now rewrite veqb_false by auto.
Qed.
