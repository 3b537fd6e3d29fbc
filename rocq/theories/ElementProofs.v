From Verif Require Import Res Lemmas VecModel BoxModel RasterModel ContainerModel ElementModel Spec BoxSpec RasterSpec IndexProofs AccessProofs.

Lemma u64_id z : 0 <= z < 2 ^ 64 -> u64 z = z.
Proof. intros H. unfold u64. apply Z.mod_small. exact H. Qed.

Lemma exists_last_or_nil {A} (l : list A) : l = [] \/ exists l' a, l = l' ++ [a].
Proof. destruct l as [|x l]; [left; reflexivity|right]. destruct (exists_last (l := x :: l)) as (l' & a & E); [discriminate|]. eauto. Qed.

Lemma element_bounds {A} (l : list A) : Z.of_nat (length l) < 2 ^ 64 ->
  (forall a, efront l = Ok a <-> exists l', l = a :: l') /\ (forall a, eback l = Ok a <-> exists l', l = l' ++ [a]) /\
  (efront l = UB <-> l = []) /\ (eback l = UB <-> l = []) /\ (eempty l = true <-> l = []).
Proof.
  intros H. assert (B : forall l' (a : A), Z.of_nat (length (l' ++ [a])) < 2 ^ 64 -> eback (l' ++ [a]) = Ok a).
  { intros l' a H'. unfold eback, eget. rewrite app_length in *. cbn [length] in *. rewrite u64_id by lia. rewrite zget_app_r by lia.
    replace (_ - _ - _) with 0 by lia. reflexivity. }
  assert (N : eback (@nil A) = UB) by reflexivity.
  split; [|split; [|split; [|split]]].
  - intros a. destruct l as [|b l']; [split; [discriminate|intros (l' & E); discriminate]|]. unfold efront. rewrite zget_cons_0. split.
    + intros [= ->]. eauto.
    + intros (l1 & [= -> _]). reflexivity.
  - intros a. destruct (exists_last_or_nil l) as [->|(l' & b & ->)].
    + rewrite N. split; [discriminate|]. intros ([|] & E); discriminate.
    + rewrite B by exact H. split; [intros [= ->]; eauto|]. intros (l1 & E). apply app_inj_tail in E as [_ ->]. reflexivity.
  - destruct l as [|b l']; [split; reflexivity|]. unfold efront. rewrite zget_cons_0. split; discriminate.
  - destruct (exists_last_or_nil l) as [->|(l' & b & ->)]; [split; auto|]. rewrite B by exact H. split; [discriminate|]. intros E. destruct l'; discriminate.
  - unfold eempty. destruct l; cbn [length]; split; try reflexivity; try discriminate; lia.
Qed.

Lemma element_get {A} (l : list A) i a : Z.of_nat (length l) < 2 ^ 63 -> - 2 ^ 63 <= i < 2 ^ 63 ->
  (0 <= i < Z.of_nat (length l) -> exists x, nth_error l (Z.to_nat i) = Some x /\ eget l i = Ok x) /\
  (0 <= i < Z.of_nat (length l) -> exists l', eset l i a = Ok l' /\ length l' = length l /\ eget l' i = Ok a /\ forall j, j <> i -> zget l' j = zget l j) /\
  (i < 0 \/ Z.of_nat (length l) <= i -> eget l i = UB /\ eset l i a = UB).
Proof.
  intros H Hi. split; [|split].
  - intros B. unfold eget. rewrite u64_id by lia. destruct (zget_in_range l i B) as [x Hx]. exists x. split; [|exact Hx]. apply zget_ok in Hx as [_ Hx]. exact Hx.
  - intros B. unfold eset, eget. rewrite u64_id by lia. rewrite (zset_ok l i a B). eexists. split; [reflexivity|].
    assert (E := zset_ok l i a B). split; [apply replace_length|]. split; [eapply zset_get_eq; exact E|]. intros j Hj. eapply zset_get_neq; [exact E|congruence].
  - intros B. assert (O : u64 i < 0 \/ Z.of_nat (length l) <= u64 i).
    { right. destruct B as [B|B]; [|rewrite u64_id by lia; exact B]. unfold u64. replace (i mod 2 ^ 64) with (i + 2 ^ 64); [lia|].
      rewrite <- (Z.mod_small (i + 2 ^ 64) (2 ^ 64)) by lia. rewrite <- Zplus_mod_idemp_r, Z_mod_same_full, Z.add_0_r. reflexivity. }
    split; [unfold eget; apply zget_out; exact O|]. unfold eset, zset. replace ((u64 i <? 0) || (Z.of_nat (length l) <=? u64 i)) with true by lia. reflexivity.
Qed.

Lemma element_write {A} (l : list A) a : Z.of_nat (length l) < 2 ^ 64 ->
  (forall x l', l = x :: l' -> efrontSet l a = Ok (a :: l')) /\ (forall l' x, l = l' ++ [x] -> ebackSet l a = Ok (l' ++ [a])) /\
  (l = [] -> efrontSet l a = UB /\ ebackSet l a = UB).
Proof.
  intros H. split; [|split].
  - intros x l' ->. unfold efrontSet. rewrite zset_ok by (cbn [length]; lia). reflexivity.
  - intros l' x ->. unfold ebackSet, eset. rewrite app_length in *. cbn [length] in *. rewrite u64_id by lia. rewrite zset_ok by (rewrite app_length; cbn [length]; lia).
    f_equal. replace (Z.to_nat _) with (length l') by lia. clear. induction l' as [|y l' IH]; [reflexivity|]. cbn [length app replace]. now rewrite IH.
  - intros ->. split; reflexivity.
Qed.

Lemma rank_first shape : rank shape (repeat 0 (length shape)) = 0.
Proof. induction shape as [|s shape IH]; [reflexivity|]. cbn [length repeat]. rewrite rank_cons, IH. lia. Qed.

Lemma rank_last shape : rank shape (vsubs shape 1) = prod shape - 1.
Proof. induction shape as [|s shape IH]; [reflexivity|]. unfold vsubs in *. cbn [map]. rewrite rank_cons, IH. unfold prod. cbn [fold_right]. lia. Qed.

Lemma last_domain shape : Positive shape -> InDomain shape (vsubs shape 1).
Proof. induction 1 as [|s shape Hs _ IH]; constructor; [lia|exact IH]. Qed.
Lemma first_domain shape : Positive shape -> InDomain shape (repeat 0 (length shape)).
Proof. induction 1 as [|s shape Hs _ IH]; constructor; [lia|exact IH]. Qed.

Lemma element_raster {A} n (r : raster A) : WF r -> Positive (rshape r) -> prod (rshape r) < 2 ^ 63 ->
  (exists a, efront (rdata r) = Ok a /\ rget n r (repeat 0 (length (rshape r))) = Ok a /\ cat (rdata r) 0 = Ok a) /\
  (exists a, eback (rdata r) = Ok a /\ rget n r (vsubs (rshape r) 1) = Ok a /\ cat (rdata r) (-1) = Ok a) /\
  (forall p, InDomain (rshape r) p -> exists a i, rindex n (rshape r) p = Ok i /\ rget n r p = Ok a /\ eget (rdata r) i = Ok a).
Proof.
  intros W P S. pose proof W as (Hne & _ & Hl).
  assert (G : forall p, InDomain (rshape r) p -> 0 <= rank (rshape r) p < prod (rshape r)) by (intros; now apply rank_bounds).
  assert (Hp : 0 < prod (rshape r)) by (specialize (G _ (first_domain _ P)); lia).
  split; [|split].
  - destruct (rget_domain n r _ W (first_domain _ P)) as (a & Ha & Hz). rewrite rank_first in Hz. exists a. split; [exact Hz|]. split; [exact Ha|].
    destruct (cat_spec (rdata r) 0) as (C & _); [lia|lia|]. cbv zeta in C. destruct (C ltac:(lia)) as (b & Hb & ->). apply zget_ok in Hz as [_ Hz]. congruence.
  - destruct (rget_domain n r _ W (last_domain _ P)) as (a & Ha & Hz). rewrite rank_last in Hz. exists a. split; [|split; [exact Ha|]].
    + unfold eback, eget. rewrite Hl, u64_id by lia. exact Hz.
    + destruct (cat_spec (rdata r) (-1)) as (_ & C & _); [lia|lia|]. cbv zeta in C. destruct (C ltac:(lia)) as (b & Hb & ->).
      apply zget_ok in Hz as [_ Hz]. rewrite Hl in Hb. replace (prod (rshape r) + -1) with (prod (rshape r) - 1) in Hb by lia. congruence.
  - intros p D. destruct (rget_domain n r p W D) as (a & Ha & Hz). exists a, (rank (rshape r) p). split; [|split; [exact Ha|]].
    + apply rindex_rank; [exact Hne|]. now apply InDomain_length.
    + unfold eget. rewrite u64_id; [exact Hz|]. specialize (G p D). lia.
Qed.

Lemma element_view {A} m (mem : list A) v : vshape v <> [] -> Positive (vshape v) -> prod (vshape v) < 2 ^ 63 ->
  viewFront mem v = viewGet m mem v (repeat 0 (length (vshape v))) /\
  viewBack mem v = viewGet m mem v (vsubs (vshape v) 1) /\
  (forall p, InDomain (vshape v) p -> exists i, rindex m (vshape v) p = Ok i /\ viewElement mem v i = viewGet m mem v p).
Proof.
  intros Hne P S. assert (G : forall p, InDomain (vshape v) p -> 0 <= rank (vshape v) p < prod (vshape v)) by (intros; now apply rank_bounds).
  assert (Hp : 0 < prod (vshape v)) by (specialize (G _ (first_domain _ P)); lia).
  unfold viewFront, viewBack, viewElement, viewGet. split; [|split].
  - rewrite rindex_rank by (auto; now rewrite repeat_length). cbn [bind]. now rewrite rank_first, Z.add_0_r.
  - rewrite rindex_rank by (auto; unfold vsubs; now rewrite map_length). cbn [bind]. rewrite rank_last, shapeSize_prod by exact Hne. rewrite u64_id by lia. reflexivity.
  - intros p D. exists (rank (vshape v) p). rewrite rindex_rank by (auto; now apply InDomain_length). split; [reflexivity|]. cbn [bind].
    specialize (G p D). rewrite u64_id by lia. reflexivity.
Qed.
