(** Slices and sections. *)
From Verif Require Import Res VecModel BoxModel RasterModel Spec BoxSpec RasterSpec Lemmas IndexProofs BoxIterProofs BoxGeomProofs AccessProofs.

Lemma rank_app s1 s2 p1 p2 :
  length s1 = length p1 -> rank (s1 ++ s2) (p1 ++ p2) = rank s1 p1 + prod s1 * rank s2 p2.
Proof.
  revert p1; induction s1 as [|s s1 IH]; intros [|p p1] Hl; cbn in Hl; try lia.
  - cbn [app]. change (rank [] []) with 0. change (prod []) with 1. lia.
  - cbn [app]. rewrite !rank_cons, prod_cons, IH by lia. lia.
Qed.

Lemma InDomain_app s1 s2 p1 p2 :
  length s1 = length p1 -> (InDomain (s1 ++ s2) (p1 ++ p2) <-> InDomain s1 p1 /\ InDomain s2 p2).
Proof.
  revert p1; induction s1 as [|s s1 IH]; intros [|p p1] Hl; cbn in Hl; try lia; cbn [app].
  - split; [intros; split; auto; constructor | tauto].
  - rewrite !InDomain_cons_iff, IH by lia. tauto.
Qed.

Lemma InDomain_app_inv s1 s2 p :
  InDomain (s1 ++ s2) p -> exists p1 p2, p = p1 ++ p2 /\ InDomain s1 p1 /\ InDomain s2 p2.
Proof.
  revert p; induction s1 as [|s s1 IH]; intros p H; cbn [app] in H.
  - exists [], p. repeat split; auto; constructor.
  - inversion H as [|? z ? p' Hz Hp']; subst. apply IH in Hp' as (p1 & p2 & -> & H1 & H2).
    exists (z :: p1), p2. repeat split; auto. now constructor.
Qed.

Lemma vadd_app a b c d : length a = length b -> vadd (a ++ c) (b ++ d) = vadd a b ++ vadd c d.
Proof.
  unfold vadd. revert b; induction a as [|x a IH]; intros [|y b] Hl; cbn in Hl; try lia; auto.
  cbn [app map2]. now rewrite IH by lia.
Qed.

Lemma vadd_zero_r u k : length u = k -> vadd u (repeat 0 k) = u.
Proof.
  intros <-. unfold vadd. induction u as [|x u IH]; auto. cbn [length repeat map2]. rewrite IH. f_equal. lia.
Qed.

Lemma vadd_zero_l u k : length u = k -> vadd (repeat 0 k) u = u.
Proof.
  intros <-. unfold vadd. induction u as [|x u IH]; auto. cbn [length repeat map2]. now rewrite IH.
Qed.

Lemma vadd_length u v : length u = length v -> length (vadd u v) = length u.
Proof. apply map2_length. Qed.

(** isContiguous *)
Lemma fullAxes_spec f1 b1 s1 f2 b2 s2 :
  length b1 = length f1 -> length s1 = length f1 ->
  exists c, fullAxes (length f1) (f1 ++ f2) (b1 ++ b2) (s1 ++ s2) = Ok c /\
    (c = true <-> f1 = repeat 0 (length f1) /\ b1 = vsubs s1 1).
Proof.
  revert b1 s1; induction f1 as [|x f1 IH]; intros [|y b1] [|s s1] Hb Hs; cbn in Hb, Hs; try lia.
  - exists true. repeat split; auto.
  - cbn [length fullAxes app]. destruct (negb (x =? 0) || negb (y =? s - 1)) eqn:E.
    + exists false. split; auto. split; [discriminate|]. cbn [repeat vsubs map]. intros [[=] [=]]. lia.
    + destruct (IH b1 s1) as (c & Hc & Hiff); try lia. exists c. split; auto. rewrite Hiff. cbn [repeat vsubs map].
      fold (vsubs s1 1). assert (x = 0) as -> by lia. assert (y = s - 1) as -> by lia.
      split; [intros [H1 H2]; split; congruence | intros [[= H1] [= H2]]; auto].
Qed.

Lemma flatAxes_spec f b :
  length f = length b -> exists c, flatAxes f b = Ok c /\ (c = true <-> f = b).
Proof.
  revert b; induction f as [|x f IH]; intros [|y b] Hl; cbn in Hl; try lia.
  - exists true. split; auto. tauto.
  - cbn [flatAxes]. destruct (negb (y =? x)) eqn:E.
    + exists false. split; auto. split; [discriminate|]. intros [=]. lia.
    + destruct (IH b) as (c & Hc & Hiff); [lia|]. exists c. split; auto. rewrite Hiff.
      assert (y = x) as -> by lia. split; [intros -> | intros [=]]; auto.
Qed.

Lemma Contiguous_split f1 x f2 b1 y b2 s1 s s2 :
  length b1 = length f1 -> length s1 = length f1 -> length b2 = length f2 -> length s2 = length f2 ->
  (Contiguous (Z.of_nat (length f1) + 1) (s1 ++ s :: s2) (f1 ++ x :: f2) (b1 ++ y :: b2) <->
   f1 = repeat 0 (length f1) /\ b1 = vsubs s1 1 /\ f2 = b2).
Proof.
  intros Hb1 Hs1 Hb2 Hs2. split.
  - intros H. split; [|split].
    + apply zget_ext; [now rewrite repeat_length|]. intros i Hi.
      destruct (zget_in_range f1 i Hi) as [u Hu]. destruct (zget_in_range b1 i) as [v Hv]; [lia|].
      destruct (zget_in_range s1 i) as [w Hw]; [lia|].
      destruct (H i u v w) as [[-> _] _]; rewrite ?zget_app_l by lia; auto; [lia|].
      rewrite Hu. symmetry. apply zget_ok. split; [lia|]. rewrite nth_error_repeat; auto. lia.
    + apply zget_ext; [now rewrite vsubs_length; lia|]. intros i Hi.
      destruct (zget_in_range f1 i) as [u Hu]; [lia|]. destruct (zget_in_range b1 i) as [v Hv]; [lia|].
      destruct (zget_in_range s1 i) as [w Hw]; [lia|].
      destruct (H i u v w) as [[_ ->] _]; rewrite ?zget_app_l by lia; auto; [lia|].
      rewrite Hv. unfold vsubs. rewrite zget_map, Hw. reflexivity.
    + apply zget_ext; [lia|]. intros i Hi.
      destruct (zget_in_range f2 i Hi) as [u Hu]. destruct (zget_in_range b2 i) as [v Hv]; [lia|].
      destruct (zget_in_range s2 i) as [w Hw]; [lia|].
      assert (G : forall (l1 l2 : list Z) a c, length l1 = length f1 -> zget l2 i = Ok c ->
                    zget (l1 ++ a :: l2) (i + Z.of_nat (length f1) + 1) = Ok c).
      { intros l1 l2 a c Hl Hc. rewrite zget_app_r by lia. rewrite zget_cons_S by lia. rewrite <- Hc. f_equal. lia. }
      destruct (H (i + Z.of_nat (length f1) + 1) u v w) as [_ Huv]; try (apply G; auto).
      rewrite Hu, Hv, Huv by lia. reflexivity.
  - intros (E1 & E2 & E3) i u v w Hu Hv Hw. split; intros Hi.
    + assert (0 <= i) by (apply zget_range in Hu; lia).
      rewrite zget_app_l in Hu, Hv, Hw by lia. split.
      * rewrite E1 in Hu. apply zget_ok in Hu as [_ Hu]. rewrite nth_error_repeat in Hu by lia. congruence.
      * rewrite E2 in Hv. unfold vsubs in Hv. rewrite zget_map, Hw in Hv. cbn [bind] in Hv. congruence.
    + rewrite zget_app_r, zget_cons_S in Hu, Hv by lia. rewrite Hb1, <- E3 in Hv. congruence.
Qed.

Lemma isContiguous_spec n m shape f b :
  1 <= m <= Z.of_nat (length shape) -> length f = length shape -> length b = length shape -> n = length shape ->
  exists c, isContiguous m shape (mkBox f b) = Ok c /\ (c = true <-> Contiguous m shape f b).
Proof.
  intros Hm Hf Hb Hn.
  destruct (split_len f (Z.to_nat (m - 1)) (length f - Z.to_nat m)) as (f1 & x & f2 & -> & Hf1 & Hf2); [lia|].
  destruct (split_len b (Z.to_nat (m - 1)) (length b - Z.to_nat m)) as (b1 & y & b2 & -> & Hb1 & Hb2); [lia|].
  destruct (split_len shape (Z.to_nat (m - 1)) (length shape - Z.to_nat m)) as (s1 & s & s2 & -> & Hs1 & Hs2); [lia|].
  clear n Hn. unfold isContiguous. cbn [bfront bback]. rewrite <- Hf1.
  destruct (fullAxes_spec f1 b1 s1 (x :: f2) (y :: b2) (s :: s2)) as (c & Hc & Hiff); try lia.
  rewrite Hc. cbn [bind].
  assert (HCs := Contiguous_split f1 x f2 b1 y b2 s1 s s2).
  replace (Z.of_nat (length f1) + 1) with m in HCs by lia.
  specialize (HCs ltac:(lia) ltac:(lia) ltac:(lia) ltac:(lia)). setoid_rewrite HCs. clear HCs.
  destruct c.
  - replace (m <? 0) with false by lia.
    assert (Sk : forall (l1 l2 : list Z) a, length l1 = Z.to_nat (m - 1) -> skipn (Z.to_nat m) (l1 ++ a :: l2) = l2).
    { intros l1 l2 a Hl. rewrite skipn_app, skipn_all2 by lia. replace (Z.to_nat m - length l1)%nat with 1%nat by lia. reflexivity. }
    rewrite !Sk by auto. destruct (flatAxes_spec f2 b2) as (c & Hc' & Hiff'); [lia|]. exists c. split; auto. rewrite Hiff'.
    destruct Hiff as [Hi _]. destruct (Hi eq_refl). tauto.
  - exists false. split; auto. split; [discriminate|]. intros (H1 & H2 & _). apply Hiff; auto.
Qed.

Lemma Between_flat f p : Between f f p <-> p = f.
Proof.
  split.
  - intros H. remember f as b eqn:E in H at 2. induction H; subst; auto. injection E as -> ->. f_equal; [lia | auto].
  - intros ->. induction f; constructor; auto. lia.
Qed.

Lemma Between_domain s p : Between (repeat 0 (length s)) (vsubs s 1) p <-> InDomain s p.
Proof.
  revert p; induction s as [|l s IH]; intros [|z p]; cbn; try (split; inversion 1; fail).
  - split; constructor.
  - rewrite Between_cons_iff, InDomain_cons_iff. unfold vsubs in IH. rewrite IH. intuition lia.
Qed.

Lemma map2_app {A B C} (g : A -> B -> C) a b c d : length a = length b -> map2 g (a ++ c) (b ++ d) = map2 g a b ++ map2 g c d.
Proof.
  revert b; induction a as [|x a IH]; intros [|y b] Hl; cbn in Hl; try lia; auto. cbn. now rewrite IH by lia.
Qed.

Lemma full_shape s1 : map2 (fun x y => y - x + 1) (repeat 0 (length s1)) (vsubs s1 1) = s1.
Proof. induction s1 as [|s s1 IH]; auto. cbn. unfold vsubs in IH. rewrite IH. f_equal. lia. Qed.

Lemma slice_spec n m m' shape f b :
  shape <> [] -> n = -1 \/ n = Z.of_nat (length shape) -> m' = -1 \/ m' = m ->
  1 <= m <= Z.of_nat (length shape) -> InDomain shape f -> InDomain shape b -> Nonempty (mkBox f b) ->
  (Contiguous m shape f b ->
   exists v, slice n m shape (mkBox f b) = Ok v /\ Z.of_nat (length (vshape v)) = m /\
     vshape v = firstn (Z.to_nat m) (boxShape (mkBox f b)) /\
     (forall p, InBox (mkBox f b) p <->
        exists q, InDomain (vshape v) q /\ p = vadd f (q ++ repeat 0 (length shape - Z.to_nat m))) /\
     (forall q, InDomain (vshape v) q -> exists i, rindex m' (vshape v) q = Ok i /\
        rindex n shape (vadd f (q ++ repeat 0 (length shape - Z.to_nat m))) = Ok (voffset v + i) /\
        0 <= voffset v + i < prod shape)) /\
  (~ Contiguous m shape f b -> slice n m shape (mkBox f b) = Throw EGeneric).
Proof.
  intros Hne Hn Hm' Hm Hdf Hdb Hbox. apply Nonempty_iff in Hbox. cbn [bfront bback] in Hbox.
  pose proof (InDomain_length _ _ Hdf) as Hlf. pose proof (InDomain_length _ _ Hdb) as Hlb.
  destruct (isContiguous_spec (length shape) m shape f b) as (c & Hc & Hiff); try lia.
  unfold slice. rewrite Hc. cbn [bind]. split; intros HC.
  2:{ destruct c; auto. destruct HC. now apply Hiff. }
  assert (c = true) as -> by now apply Hiff. clear Hc Hiff.
  destruct (split_len f (Z.to_nat (m - 1)) (length f - Z.to_nat m)) as (f1 & x & f2 & -> & Hf1 & Hf2); [lia|].
  destruct (split_len b (Z.to_nat (m - 1)) (length b - Z.to_nat m)) as (b1 & y & b2 & -> & Hb1 & Hb2); [lia|].
  destruct (split_len shape (Z.to_nat (m - 1)) (length shape - Z.to_nat m)) as (s1 & s & s2 & -> & Hs1 & Hs2); [lia|].
  replace m with (Z.of_nat (length f1) + 1) in HC by lia. apply Contiguous_split in HC; try lia.
  destruct HC as (E1 & E2 & E3). subst b2. replace (length f1) with (length s1) in E1 by lia.
  assert (Hsh : boxShape (mkBox (f1 ++ x :: f2) (b1 ++ y :: f2)) = s1 ++ (y - x + 1) :: map2 (fun x y => y - x + 1) f2 f2).
  { rewrite boxShape_map2, map2_app by lia. cbn [map2]. rewrite E1, E2, full_shape. reflexivity. }
  assert (Hfst : firstn (Z.to_nat m) (boxShape (mkBox (f1 ++ x :: f2) (b1 ++ y :: f2))) = s1 ++ [y - x + 1]).
  { rewrite Hsh. replace (Z.to_nat m) with (length s1 + 1)%nat by lia. rewrite firstn_app_2. reflexivity. }
  cbn [bfront]. rewrite rindex_rank by (auto; lia). cbn [bind]. eexists; split; [reflexivity|]. cbn [vshape voffset].
  rewrite Hfst. split; [rewrite app_length; cbn; lia|]. split; [reflexivity|].
  replace (length (s1 ++ s :: s2) - Z.to_nat m)%nat with (length f2) by lia.
  apply InDomain_app in Hdf as [Hdf1 Hdf2]; [|lia]. apply InDomain_app in Hdb as [Hdb1 Hdb2]; [|lia].
  apply InDomain_cons_iff in Hdf2 as [Hx Hdf2]. apply InDomain_cons_iff in Hdb2 as [Hy Hdb2].
  assert (Hadd : forall q1 z, length q1 = length s1 ->
            vadd (f1 ++ x :: f2) ((q1 ++ [z]) ++ repeat 0 (length f2)) = q1 ++ (x + z) :: f2).
  { intros q1 z Hq. rewrite <- app_assoc. rewrite vadd_app by lia. cbn [app].
    change (vadd (x :: f2) (z :: repeat 0 (length f2))) with (x + z :: vadd f2 (repeat 0 (length f2))).
    rewrite vadd_zero_r by auto. f_equal. rewrite E1. apply vadd_zero_l. auto. }
  split.
  - intros p. unfold InBox. cbn [bfront bback]. split.
    + intros Hp. apply Between_mid_inv in Hp as (p1 & z & p2 & -> & H1 & Hz & H2); [|lia].
      apply Between_flat in H2 as ->. rewrite E1, E2 in H1. apply Between_domain in H1.
      exists (p1 ++ [z - x]). split.
      * apply InDomain_app; [now apply InDomain_length in H1|]. split; auto. repeat constructor; lia.
      * rewrite Hadd by (symmetry; now apply InDomain_length). do 2 f_equal. lia.
    + intros (q & Hq & ->). apply InDomain_app_inv in Hq as (q1 & q2 & -> & Hq1 & Hq2).
      inversion Hq2 as [|? z ? q3 Hz Hq3]; subst q2. inversion Hq3; subst q3.
      rewrite Hadd by (symmetry; now apply InDomain_length).
      apply Between_mid; [|lia|now apply Between_flat]. rewrite E1, E2. now apply Between_domain.
  - intros q Hq. pose proof (InDomain_length _ _ Hq) as Hlq.
    apply InDomain_app_inv in Hq as (q1 & q2 & -> & Hq1 & Hq2).
    inversion Hq2 as [|? z ? q3 Hz Hq3]; subst q2. inversion Hq3; subst q3.
    pose proof (InDomain_length _ _ Hq1) as Hlq1.
    exists (rank (s1 ++ [y - x + 1]) (q1 ++ [z])). split; [apply rindex_rank; auto; destruct s1; discriminate|].
    rewrite Hadd by auto. assert (Hd : InDomain (s1 ++ s :: s2) (q1 ++ (x + z) :: f2)).
    { apply InDomain_app; auto. split; auto. constructor; auto. lia. }
    rewrite rindex_rank by (auto using InDomain_length).
    assert (Hr : rank (s1 ++ s :: s2) (q1 ++ (x + z) :: f2) =
                 rank (s1 ++ s :: s2) (f1 ++ x :: f2) + rank (s1 ++ [y - x + 1]) (q1 ++ [z])).
    { rewrite !rank_app by lia. rewrite !rank_cons. change (rank [] []) with 0.
      replace (rank s1 f1) with 0 by (rewrite E1; symmetry; apply rank_zero). lia. }
    split; [f_equal; exact Hr|]. rewrite <- Hr. now apply rank_bounds.
Qed.

(** Reading and writing through the view. *)
Lemma slice_access {A} n m m' (r : raster A) f b v q a :
  WF r -> n = -1 \/ n = Z.of_nat (length (rshape r)) -> m' = -1 \/ m' = m ->
  1 <= m <= Z.of_nat (length (rshape r)) -> InDomain (rshape r) f -> InDomain (rshape r) b -> Nonempty (mkBox f b) ->
  slice n m (rshape r) (mkBox f b) = Ok v -> InDomain (vshape v) q ->
  let p := vadd f (q ++ repeat 0 (length (rshape r) - Z.to_nat m)) in
  InBox (mkBox f b) p /\ InDomain (rshape r) p /\
  (exists a0, rget n r p = Ok a0 /\ viewGet m' (rdata r) v q = Ok a0) /\
  (exists r', rset n r p a = Ok r' /\ viewSet m' (rdata r) v q a = Ok (rdata r')).
Proof.
  intros Hwf Hn Hm' Hm Hdf Hdb Hbox Hsl Hq p. pose proof Hwf as (Hne & Hnn & Hl).
  destruct (slice_spec n m m' (rshape r) f b) as [HC HnC]; auto.
  destruct (isContiguous_spec (length (rshape r)) m (rshape r) f b) as (c & Hc & Hiff);
    auto using InDomain_length, eq_sym.
  destruct c; [|rewrite HnC in Hsl; [discriminate | intros H; apply Hiff in H; discriminate]].
  destruct HC as (v' & Hv & _ & _ & Hcov & Hpix); [now apply Hiff|].
  rewrite Hsl in Hv. injection Hv as <-. fold p in Hpix.
  assert (Hin : InBox (mkBox f b) p) by (apply Hcov; eauto).
  assert (Hd : InDomain (rshape r) p).
  { clear -Hin Hdf Hdb. unfold InBox in Hin. cbn [bfront bback] in Hin. revert Hdf Hdb. generalize (rshape r) as s.
    induction Hin as [|x y z f b p Hz H IH]; intros s Hf Hb; inversion Hf; subst; [constructor|].
    inversion Hb; subst. constructor; [lia | now apply IH]. }
  split; auto. split; auto.
  destruct (Hpix q Hq) as (i & Hi & Hpi & Hb'). fold p in Hpi. split.
  - destruct (rget_domain n r p Hwf Hd) as (a0 & Ha0 & _). exists a0. split; auto.
    unfold viewGet. rewrite Hi. cbn [bind]. unfold rget in Ha0. rewrite Hpi in Ha0. exact Ha0.
  - unfold rset, viewSet. rewrite Hpi, Hi. cbn [bind]. rewrite zset_ok by lia. cbn [bind].
    eexists; split; reflexivity.
Qed.

(** Sections *)
Lemma snoc_get {A} (l : list A) a : zget (l ++ [a]) (Z.of_nat (length (l ++ [a])) - 1) = Ok a.
Proof. rewrite zget_app_r by (rewrite app_length; cbn; lia). rewrite app_length. cbn [length]. replace (_ - _) with 0 by lia. reflexivity. Qed.

Lemma vsubs_app a b k : vsubs (a ++ b) k = vsubs a k ++ vsubs b k.
Proof. apply map_app. Qed.

Lemma vzero_snoc s1 (l : Z) n : n = Z.of_nat (length (s1 ++ [l])) -> vzero n = repeat 0 (length s1) ++ [0].
Proof.
  intros ->. unfold vzero, tplDim. rewrite app_length. cbn [length].
  replace (Z.to_nat (Z.abs (Z.of_nat (length s1 + 1)))) with (length s1 + 1)%nat by lia. now rewrite repeat_app.
Qed.

Lemma zset_snoc {A} (l : list A) a c k : Z.of_nat (length l) = k -> zset (l ++ [a]) k c = Ok (l ++ [c]).
Proof. intros <-. now rewrite zset_mid'. Qed.

Lemma section2_region n s1 l fr bk :
  n = Z.of_nat (length (s1 ++ [l])) ->
  section2 n (s1 ++ [l]) fr bk =
  slice n n (s1 ++ [l]) (mkBox (repeat 0 (length s1) ++ [fr]) (vsubs s1 1 ++ [bk])).
Proof.
  intros Hn. unfold section2. rewrite (vzero_snoc s1 l n Hn), vsubs_app. cbn [vsubs map].
  rewrite !zset_snoc by (rewrite ?repeat_length, ?vsubs_length, ?app_length; cbn [length]; lia). reflexivity.
Qed.

Lemma section1_region n s1 l i :
  n = Z.of_nat (length (s1 ++ [l])) ->
  section1 n (s1 ++ [l]) i =
  slice n (n - 1) (s1 ++ [l]) (mkBox (repeat 0 (length s1) ++ [i]) (vsubs s1 1 ++ [i])).
Proof.
  intros Hn. unfold section1. rewrite (vzero_snoc s1 l n Hn), vsubs_app. cbn [vsubs map].
  rewrite !zset_snoc by (rewrite ?repeat_length, ?vsubs_length, ?app_length; cbn [length]; lia).
  cbn [bind]. replace (n =? -1) with false by lia. reflexivity.
Qed.

Lemma section_dom s1 l z1 z2 :
  Positive s1 -> 0 <= z1 <= z2 -> z2 < l ->
  InDomain (s1 ++ [l]) (repeat 0 (length s1) ++ [z1]) /\ InDomain (s1 ++ [l]) (vsubs s1 1 ++ [z2]) /\
  Nonempty (mkBox (repeat 0 (length s1) ++ [z1]) (vsubs s1 1 ++ [z2])).
Proof.
  intros Hp Hz Hl. split; [|split].
  - apply InDomain_app; [now rewrite repeat_length|]. split; [now apply domain_zero | repeat constructor; lia].
  - apply InDomain_app; [now rewrite vsubs_length|]. split; [now apply domain_last | repeat constructor; lia].
  - apply Nonempty_iff. cbn [bfront bback]. apply Forall2_app; [|repeat constructor; lia].
    clear -Hp. induction Hp; cbn; constructor; auto; lia.
Qed.

Lemma section2_spec n s1 l fr bk m' :
  n = Z.of_nat (length (s1 ++ [l])) -> m' = -1 \/ m' = n -> Positive s1 -> 0 <= fr <= bk -> bk < l ->
  exists v, section2 n (s1 ++ [l]) fr bk = Ok v /\ vshape v = s1 ++ [bk - fr + 1] /\
    forall q z, InDomain s1 q -> 0 <= z <= bk - fr ->
      exists i, rindex m' (vshape v) (q ++ [z]) = Ok i /\ rindex n (s1 ++ [l]) (q ++ [fr + z]) = Ok (voffset v + i) /\
                0 <= voffset v + i < prod (s1 ++ [l]).
Proof.
  intros Hn Hm' Hp Hf Hb. destruct (section_dom s1 l fr bk Hp Hf Hb) as (H1 & H2 & H3).
  rewrite section2_region by auto.
  destruct (slice_spec n n m' (s1 ++ [l]) (repeat 0 (length s1) ++ [fr]) (vsubs s1 1 ++ [bk])) as [HC _]; auto.
  { destruct s1; discriminate. }
  { rewrite Hn, app_length. cbn. lia. }
  destruct HC as (v & E & Hlen & Hsh & _ & Hpix).
  { replace n with (Z.of_nat (length (repeat 0 (length s1))) + 1) by (rewrite Hn, app_length, repeat_length; cbn; lia).
    apply Contiguous_split; rewrite ?vsubs_length, ?repeat_length; auto. }
  exists v. split; auto.
  assert (Hv : vshape v = s1 ++ [bk - fr + 1]).
  { rewrite Hsh, boxShape_map2, map2_app by (now rewrite vsubs_length, repeat_length).
    rewrite full_shape. cbn [map2]. rewrite firstn_all2; auto. rewrite Hn, !app_length. cbn. lia. }
  split; auto. intros q z Hq Hz. pose proof (InDomain_length _ _ Hq) as Hlq.
  destruct (Hpix (q ++ [z])) as (i & Hi & Hpi & Hbd).
  { rewrite Hv. apply InDomain_app; auto. split; auto. repeat constructor; lia. }
  exists i. repeat split; auto; try lia.
  replace (length (s1 ++ [l]) - Z.to_nat n)%nat with O in Hpi by lia. cbn [repeat] in Hpi. rewrite app_nil_r in Hpi.
  rewrite vadd_app in Hpi by (rewrite repeat_length; auto). rewrite vadd_zero_l in Hpi by auto. exact Hpi.
Qed.

Lemma section1_spec n s1 l k m' :
  n = Z.of_nat (length (s1 ++ [l])) -> m' = -1 \/ m' = n - 1 -> s1 <> [] -> Positive s1 -> 0 <= k < l ->
  exists v, section1 n (s1 ++ [l]) k = Ok v /\ vshape v = s1 /\
    forall q, InDomain s1 q ->
      exists i, rindex m' (vshape v) q = Ok i /\ rindex n (s1 ++ [l]) (q ++ [k]) = Ok (voffset v + i) /\
                0 <= voffset v + i < prod (s1 ++ [l]).
Proof.
  intros Hn Hm' Hne Hp Hk. destruct (section_dom s1 l k k Hp) as (H1 & H2 & H3); try lia.
  rewrite section1_region by auto.
  assert (Hnn : n = Z.of_nat (length s1) + 1) by (rewrite Hn, app_length; cbn; lia).
  destruct (slice_spec n (n - 1) m' (s1 ++ [l]) (repeat 0 (length s1) ++ [k]) (vsubs s1 1 ++ [k])) as [HC _]; auto.
  { destruct s1; discriminate. }
  { rewrite app_length. destruct s1; [congruence|]. cbn in *. lia. }
  destruct HC as (v & E & Hlen & Hsh & _ & Hpix).
  { intros i x y s Hx Hy Hs. assert (Hi := zget_range _ _ _ Hx). rewrite app_length, repeat_length in Hi. cbn in Hi. split; intros Hi'.
    - rewrite zget_app_l in Hx, Hy, Hs by (rewrite ?repeat_length, ?vsubs_length; lia).
      apply zget_ok in Hx as [_ Hx]. rewrite nth_error_repeat in Hx by lia. injection Hx as <-. split; auto.
      unfold vsubs in Hy. rewrite zget_map, Hs in Hy. cbn [bind] in Hy. congruence.
    - rewrite zget_app_r in Hx, Hy by (rewrite ?repeat_length, ?vsubs_length; lia).
      rewrite repeat_length in Hx. rewrite vsubs_length in Hy. congruence. }
  exists v. split; auto.
  assert (Hv : vshape v = s1).
  { rewrite Hsh, boxShape_map2, map2_app by (now rewrite vsubs_length, repeat_length).
    rewrite full_shape. replace (Z.to_nat (n - 1)) with (length s1 + 0)%nat by lia. rewrite firstn_app_2. cbn. apply app_nil_r. }
  split; auto. intros q Hq. pose proof (InDomain_length _ _ Hq) as Hlq.
  destruct (Hpix q) as (i & Hi & Hpi & Hbd); [now rewrite Hv|].
  exists i. repeat split; auto; try lia.
  replace (length (s1 ++ [l]) - Z.to_nat (n - 1))%nat with 1%nat in Hpi by (rewrite app_length; cbn [length]; lia). cbn [repeat] in Hpi.
  rewrite vadd_app in Hpi by (rewrite repeat_length; auto). rewrite vadd_zero_l in Hpi by auto.
  cbn [vadd map2] in Hpi. replace (k + 0) with k in Hpi by lia. exact Hpi.
Qed.
