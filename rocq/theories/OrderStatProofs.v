(** Order statistics of real numbers. *)
From Coq Require Import Reals Lra Permutation Sorted.
From Verif Require Import Res Lemmas ContainerSpec DistModel DistSpec DistProofs DistFloatSpec.
Open Scope R_scope.

Lemma abs_le x e : Rabs x <= e -> - e <= x <= e.
Proof. intros H. unfold Rabs in H. destruct (Rcase_abs x); lra. Qed.

Lemma rltb_true x y : rltb x y = true <-> x < y.
Proof. unfold rltb. destruct (Rlt_dec x y); split; intros; congruence || lra. Qed.
Lemma rltb_false x y : rltb x y = false <-> y <= x.
Proof. unfold rltb. destruct (Rlt_dec x y); split; intros; congruence || lra. Qed.

Lemma rltb_swo : StrictWeakOrder rltb.
Proof. split; intros *; rewrite ?rltb_true, ?rltb_false; lra. Qed.

Lemma stat_exists xs k : (0 <= k < Z.of_nat (length xs))%Z -> exists v, OrderStat xs k v.
Proof.
  intros H. destruct (Sorting_exists rltb rltb_swo xs) as [s Hs]. destruct (zget_in_range s k) as [v Hv].
  - rewrite <- (Permutation_length (proj1 Hs)). exact H.
  - exists v, s. auto.
Qed.

Lemma stat_unique xs k v w : OrderStat xs k v -> OrderStat xs k w -> v = w.
Proof.
  intros (s & Hs & Hv) (t & Ht & Hw). destruct (Sorting_unique rltb rltb_swo xs s t Hs Ht k v w Hv Hw) as [A B].
  rewrite rltb_false in A, B. lra.
Qed.

Lemma stat_perm xs ys k v : Permutation xs ys -> OrderStat xs k v -> OrderStat ys k v.
Proof. intros P (s & [Ps Hs] & Hv). exists s. split; [split; [|exact Hs]|exact Hv]. eapply Permutation_trans; [apply Permutation_sym, P|exact Ps]. Qed.

Lemma stat_map f xs k v : (forall x y, x <= y -> f x <= f y) -> OrderStat xs k v -> OrderStat (map f xs) k (f v).
Proof.
  intros M (s & [Ps Hs] & Hv). exists (map f s). split; [split|].
  - apply Permutation_map, Ps.
  - intros i j x y Hi Hj. rewrite !zget_map. destruct (zget s i) as [a| |] eqn:Ea; cbn [bind]; try discriminate. destruct (zget s j) as [b| |] eqn:Eb; cbn [bind]; try discriminate.
    intros [= <-] [= <-]. apply rltb_false, M. specialize (Hs i j a b Hi Hj Ea Eb). apply rltb_false in Hs. exact Hs.
  - rewrite zget_map, Hv. reflexivity.
Qed.

Definition below (b : R) (x : R) : bool := negb (rltb b x).

Lemma below_count xs ys b : Forall2 Rle xs ys -> (cnt (below b) ys <= cnt (below b) xs)%nat.
Proof.
  unfold cnt. induction 1 as [|x y xs ys H _ IH]; cbn [filter]; [lia|].
  assert (Hx : below b x = negb (rltb b x)) by reflexivity. assert (Hy : below b y = negb (rltb b y)) by reflexivity. rewrite Hx, Hy.
  destruct (rltb b y) eqn:Ey, (rltb b x) eqn:Ex; cbn [negb]; cbn [length]; try lia. apply rltb_true in Ex. apply rltb_false in Ey. lra.
Qed.

Lemma stat_le xs ys k a b : Forall2 Rle xs ys -> OrderStat xs k a -> OrderStat ys k b -> a <= b.
Proof.
  intros F (s & [Ps Hs] & Ha) (t & [Pt Ht] & Hb). destruct (Rle_lt_dec a b) as [|L]; [assumption|exfalso].
  pose proof (zget_range _ _ _ Ha) as Ra. pose proof (zget_range _ _ _ Hb) as Rb.
  assert (H1 : (S (Z.to_nat k) <= cnt (below b) t)%nat).
  { rewrite <- (firstn_skipn (S (Z.to_nat k)) t). rewrite cnt_app. rewrite cnt_all; [rewrite firstn_length; lia|].
    apply Forall_forall. intros x Hx. apply In_firstn_get in Hx as (i & Hi & Hx). unfold below.
    rewrite (Ht i k x b) by (auto; lia). reflexivity. }
  assert (H2 : (cnt (below b) s <= Z.to_nat k)%nat).
  { rewrite <- (firstn_skipn (Z.to_nat k) s). rewrite cnt_app. rewrite (cnt_none (below b) (skipn _ _)).
    - pose proof (cnt_le (below b) (firstn (Z.to_nat k) s)) as C. rewrite firstn_length in C. lia.
    - apply Forall_forall. intros y Hy. apply In_skipn_get in Hy as (j & Hj & Hy). unfold below.
      assert (C : rltb y a = false) by (apply (Hs k j a y); auto; lia). apply rltb_false in C.
      assert (D : rltb b y = true) by (apply rltb_true; lra). rewrite D. reflexivity. }
  pose proof (below_count xs ys b F) as H3. rewrite (cnt_perm (below b) _ _ Ps), (cnt_perm (below b) _ _ Pt) in H3. lia.
Qed.

(** Order statistics do not move more than the values. *)
Lemma stat_close {A} (f g : A -> R) l e k a b : (forall x, In x l -> Rabs (f x - g x) <= e) -> OrderStat (map f l) k a -> OrderStat (map g l) k b -> Rabs (a - b) <= e.
Proof.
  assert (G : forall (f g : A -> R) a b, (forall x, In x l -> f x <= g x + e) -> OrderStat (map f l) k a -> OrderStat (map g l) k b -> a <= b + e).
  { clear. intros f g a b H Ha Hb. apply (stat_map (fun x => x + e)) in Hb; [|intros; lra]. rewrite map_map in Hb. eapply stat_le; [|exact Ha|exact Hb].
    clear Ha Hb. induction l as [|x l IH]; cbn [map]; constructor; [apply H; left; reflexivity|apply IH; intros y Hy; apply H; right; exact Hy]. }
  intros H Ha Hb. assert (a <= b + e) by (eapply (G f g); eauto; intros x I; specialize (H x I); apply abs_le in H; lra).
  assert (b <= a + e) by (eapply (G g f); eauto; intros x I; specialize (H x I); apply abs_le in H; lra).
  apply Rabs_le. lra.
Qed.

Lemma median_exists xs : xs <> [] -> exists m, MedianR xs m.
Proof.
  intros N. assert (0 < Z.of_nat (length xs))%Z by (destruct xs; [congruence|cbn [length]; lia]).
  destruct (stat_exists xs ((Z.of_nat (length xs) - 1) / 2)) as [x Hx]; [split; [apply Z.div_pos; lia|apply Z.div_lt_upper_bound; lia]|].
  destruct (stat_exists xs (Z.of_nat (length xs) / 2)) as [y Hy]; [split; [apply Z.div_pos; lia|apply Z.div_lt_upper_bound; lia]|].
  exists ((x + y) / 2), x, y. auto.
Qed.

Lemma median_unique xs m m' : MedianR xs m -> MedianR xs m' -> m = m'.
Proof. intros (x & y & Hx & Hy & ->) (x' & y' & Hx' & Hy' & ->). rewrite (stat_unique _ _ _ _ Hx Hx'), (stat_unique _ _ _ _ Hy Hy'). reflexivity. Qed.

Lemma median_perm xs ys m : Permutation xs ys -> MedianR xs m -> MedianR ys m.
Proof. intros P (x & y & Hx & Hy & E). rewrite (Permutation_length P) in *. exists x, y. eauto using stat_perm. Qed.

Lemma median_close {A} (f g : A -> R) l e a b : (forall x, In x l -> Rabs (f x - g x) <= e) -> MedianR (map f l) a -> MedianR (map g l) b -> Rabs (a - b) <= e.
Proof.
  intros H (x & y & Hx & Hy & ->) (x' & y' & Hx' & Hy' & ->). rewrite map_length in *.
  pose proof (stat_close f g l e _ _ _ H Hx Hx') as A1. pose proof (stat_close f g l e _ _ _ H Hy Hy') as A2.
  apply abs_le in A1, A2. apply Rabs_le. lra.
Qed.

Lemma median_map_odd f xs n m : length xs = (2 * n + 1)%nat -> (forall x y, x <= y -> f x <= f y) -> MedianR xs m -> MedianR (map f xs) (f m).
Proof.
  intros L M (x & y & Hx & Hy & E). rewrite L in *.
  replace ((Z.of_nat (2 * n + 1) - 1) / 2)%Z with (Z.of_nat n) in * by (apply Z.div_unique with 0%Z; lia).
  replace (Z.of_nat (2 * n + 1) / 2)%Z with (Z.of_nat n) in * by (apply Z.div_unique with 1%Z; lia).
  rewrite (stat_unique _ _ _ _ Hy Hx) in E. assert (m = x) as -> by lra. exists (f x), (f x). rewrite map_length, L.
  replace ((Z.of_nat (2 * n + 1) - 1) / 2)%Z with (Z.of_nat n) by (apply Z.div_unique with 0%Z; lia).
  replace (Z.of_nat (2 * n + 1) / 2)%Z with (Z.of_nat n) by (apply Z.div_unique with 1%Z; lia).
  split; [apply stat_map; auto|]. split; [apply stat_map; auto|lra].
Qed.

Lemma mad_exists xs : xs <> [] -> exists v, MadR xs v.
Proof.
  intros N. destruct (median_exists xs N) as [m Hm]. destruct (median_exists (map (fun x => Rabs (x - m)) xs)) as [v Hv]; [destruct xs; [congruence|discriminate]|].
  exists v, m. auto.
Qed.

Lemma mad_unique xs v w : MadR xs v -> MadR xs w -> v = w.
Proof. intros (m & Hm & Hv) (m' & Hm' & Hw). rewrite (median_unique _ _ _ Hm' Hm) in Hw. eauto using median_unique. Qed.
