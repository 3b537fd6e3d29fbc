(** Order statistics, quantiles, histograms, means. *)
From Coq Require Import Permutation Sorted Qabs.
From Verif Require Import Res VecModel TypesModel DistModel DistSpec ContainerSpec Lemmas ContainerProofs.
Open Scope Z_scope.

Section Order.
Context {A : Type} (lt : A -> A -> bool) (O : StrictWeakOrder lt).

Definition cnt (p : A -> bool) (l : list A) : nat := length (filter p l).

Lemma cnt_perm p l s : Permutation l s -> cnt p l = cnt p s.
Proof.
  unfold cnt. induction 1 as [|x l s _ IH|x y l|l s t _ IH1 _ IH2]; cbn [filter]; auto.
  - destruct (p x); cbn; congruence.
  - destruct (p x), (p y); reflexivity.
  - congruence.
Qed.

Lemma cnt_app p l s : cnt p (l ++ s) = (cnt p l + cnt p s)%nat.
Proof. unfold cnt. rewrite filter_app, app_length. reflexivity. Qed.

Lemma cnt_le p l : (cnt p l <= length l)%nat.
Proof. unfold cnt. induction l as [|x l IH]; cbn; [lia|]. destruct (p x); cbn; lia. Qed.

Lemma cnt_all p l : Forall (fun x => p x = true) l -> cnt p l = length l.
Proof. unfold cnt. induction 1 as [|x l H _ IH]; cbn; [reflexivity|]. rewrite H. cbn. congruence. Qed.

Lemma cnt_none p l : Forall (fun x => p x = false) l -> cnt p l = 0%nat.
Proof. unfold cnt. induction 1 as [|x l H _ IH]; cbn; [reflexivity|]. rewrite H. exact IH. Qed.

(** The elements of [l] before [n] are not greater than the n-th one, those after are not less. *)
Definition Part (l : list A) (n : Z) : Prop :=
  forall i j x y, 0 <= i <= n -> n <= j -> zget l i = Ok x -> zget l j = Ok y -> lt y x = false.

Lemma In_firstn_get (l : list A) n x : In x (firstn n l) -> exists i, 0 <= i < Z.of_nat n /\ zget l i = Ok x.
Proof.
  intros H. apply In_nth_error in H as [i H]. assert (i < length (firstn n l))%nat by (apply nth_error_Some; congruence).
  rewrite firstn_length in *. exists (Z.of_nat i). split; [lia|]. rewrite zget_nat.
  rewrite <- (firstn_skipn n l). rewrite nth_error_app1 by (rewrite firstn_length; lia). rewrite H. reflexivity.
Qed.

Lemma In_skipn_get (l : list A) n x : In x (skipn n l) -> exists i, Z.of_nat n <= i /\ zget l i = Ok x.
Proof.
  intros H. apply In_nth_error in H as [i H]. assert (i < length (skipn n l))%nat by (apply nth_error_Some; congruence).
  rewrite skipn_length in *. exists (Z.of_nat (n + i)). split; [lia|]. rewrite zget_nat.
  rewrite <- (firstn_skipn n l). rewrite nth_error_app2 by (rewrite firstn_length; lia).
  rewrite firstn_length. replace (n + i - Nat.min n (length l))%nat with i by lia. rewrite H. reflexivity.
Qed.

Lemma part_unique l s n v w :
  Permutation l s -> Part l n -> Part s n -> zget l n = Ok v -> zget s n = Ok w -> lt v w = false.
Proof.
  intros HP Hl Hs Hv Hw. destruct (lt v w) eqn:E; [|reflexivity]. exfalso.
  set (p := fun x => negb (lt v x)). pose proof (zget_range _ _ _ Hv) as R. pose proof (zget_range _ _ _ Hw) as R'.
  assert (H1 : (S (Z.to_nat n) <= cnt p l)%nat).
  { rewrite <- (firstn_skipn (S (Z.to_nat n)) l). rewrite cnt_app. rewrite cnt_all; [rewrite firstn_length; lia|].
    apply Forall_forall. intros x Hx. apply In_firstn_get in Hx as (i & Hi & Hx). unfold p.
    rewrite (Hl i n x v) by (auto; lia). reflexivity. }
  assert (H2 : (cnt p s <= Z.to_nat n)%nat).
  { rewrite <- (firstn_skipn (Z.to_nat n) s). rewrite cnt_app. rewrite (cnt_none p (skipn _ _)).
    - pose proof (cnt_le p (firstn (Z.to_nat n) s)) as L. rewrite firstn_length in L. lia.
    - apply Forall_forall. intros y Hy. apply In_skipn_get in Hy as (j & Hj & Hy). unfold p.
      assert (lt y w = false) by (apply (Hs n j w y); auto; lia).
      rewrite (lt_le_trans lt O v w y) by assumption. reflexivity. }
  rewrite (cnt_perm p _ _ HP) in H1. lia.
Qed.

Lemma part_equiv l s n v w :
  Permutation l s -> Part l n -> Part s n -> zget l n = Ok v -> zget s n = Ok w -> Equivalent lt v w.
Proof.
  intros. split; [eapply (part_unique l s); eauto|eapply (part_unique s l); eauto using Permutation_sym].
Qed.

(** Sorted lists *)
Lemma le_trans_b x y z : lt y x = false -> lt z y = false -> lt z x = false.
Proof. intros. eapply (swo_neg_trans _ O); eauto. Qed.

Lemma SortedBy_Strong l : SortedBy lt l -> StronglySorted (fun x y => lt y x = false) l.
Proof. apply Sorted_StronglySorted. intros x y z. apply le_trans_b. Qed.

Lemma SortedBy_get l : SortedBy lt l ->
  forall i j x y, 0 <= i -> i <= j -> zget l i = Ok x -> zget l j = Ok y -> lt y x = false.
Proof.
  intros H. apply SortedBy_Strong in H. induction H as [|a l H IH HF]; intros i j x y Hi Hj Hx Hy.
  - apply zget_range in Hx. cbn in Hx. lia.
  - destruct (Z.eq_dec i 0) as [->|Hi0].
    + rewrite zget_cons_0 in Hx. injection Hx as <-. destruct (Z.eq_dec j 0) as [->|Hj0].
      * rewrite zget_cons_0 in Hy. injection Hy as <-. apply (swo_irrefl _ O).
      * rewrite zget_cons_S in Hy by lia. apply zget_ok in Hy as [_ Hy]. apply nth_error_In in Hy.
        rewrite Forall_forall in HF. apply HF, Hy.
    + rewrite zget_cons_S in Hx, Hy by lia. eapply IH; [| |exact Hx|exact Hy]; lia.
Qed.

Lemma get_SortedBy l :
  (forall i j x y, 0 <= i -> i <= j -> zget l i = Ok x -> zget l j = Ok y -> lt y x = false) -> SortedBy lt l.
Proof.
  induction l as [|a l IH]; intros H; constructor.
  - apply IH. intros i j x y Hi Hj Hx Hy. apply (H (i + 1) (j + 1)); [lia|lia| |]; rewrite zget_cons_S by lia.
    + replace (i + 1 - 1) with i by lia. exact Hx.
    + replace (j + 1 - 1) with j by lia. exact Hy.
  - destruct l as [|b l]; constructor. apply (H 0 1); [lia|lia|reflexivity|reflexivity].
Qed.

Lemma Sorting_iff l s : Sorting lt l s <-> Permutation l s /\ SortedBy lt s.
Proof.
  unfold Sorting. split; intros [H1 H2]; (split; [exact H1|]); [apply get_SortedBy, H2|apply SortedBy_get, H2].
Qed.

Lemma SortedBy_Part l n : SortedBy lt l -> Part l n.
Proof. intros H i j x y Hi Hj Hx Hy. eapply SortedBy_get; [exact H| | |exact Hx|exact Hy]; lia. Qed.

Lemma Sorting_unique l s t : Sorting lt l s -> Sorting lt l t ->
  forall n x y, zget s n = Ok x -> zget t n = Ok y -> Equivalent lt x y.
Proof.
  intros Hs Ht n x y Hx Hy. apply Sorting_iff in Hs as [P1 S1]. apply Sorting_iff in Ht as [P2 S2].
  eapply part_equiv; [|apply SortedBy_Part, S1|apply SortedBy_Part, S2|exact Hx|exact Hy].
  eapply Permutation_trans; [apply Permutation_sym|]; eauto.
Qed.

(** Insertion sort, for existence. *)
Fixpoint insert (x : A) (l : list A) : list A :=
  match l with
  | [] => [x]
  | y :: l' => if lt y x then y :: insert x l' else x :: l
  end.
Fixpoint isort (l : list A) : list A := match l with [] => [] | x :: l' => insert x (isort l') end.

Lemma insert_perm x l : Permutation (x :: l) (insert x l).
Proof.
  induction l as [|y l IH]; cbn [insert]; [reflexivity|]. destruct (lt y x); [|reflexivity].
  rewrite perm_swap. apply perm_skip. exact IH.
Qed.

Lemma isort_perm l : Permutation l (isort l).
Proof. induction l as [|x l IH]; cbn [isort]; [reflexivity|]. rewrite <- insert_perm. apply perm_skip, IH. Qed.

Lemma insert_sorted x l : SortedBy lt l -> SortedBy lt (insert x l).
Proof.
  induction 1 as [|y l HS IH HH]; cbn [insert]; [repeat constructor|].
  destruct (lt y x) eqn:E.
  - constructor; [exact IH|]. destruct l as [|z l]; cbn [insert].
    + constructor. apply lt_asym; assumption.
    + inversion HH; subst. destruct (lt z x); constructor; [assumption|]. apply lt_asym; assumption.
  - constructor; [constructor; assumption|]. constructor. exact E.
Qed.

Lemma isort_sorted l : SortedBy lt (isort l).
Proof. induction l as [|x l IH]; cbn [isort]; [constructor|]. apply insert_sorted, IH. Qed.

Lemma Sorting_exists l : exists s, Sorting lt l s.
Proof. exists (isort l). apply Sorting_iff. split; [apply isort_perm|apply isort_sorted]. Qed.

Lemma is_sorted_spec l : is_sorted lt l = true <-> SortedBy lt l.
Proof.
  induction l as [|x [|y l] IH]; cbn [is_sorted].
  - split; [constructor|reflexivity].
  - split; [repeat constructor|reflexivity].
  - destruct (lt y x) eqn:E.
    + split; [discriminate|]. intros H. inversion H as [|? ? _ HH]; subst. inversion HH; subst. congruence.
    + rewrite IH. split; intros H; [constructor; [exact H|constructor; exact E]|]. inversion H; assumption.
Qed.

(** Histories *)
Definition Inv (l : list A) (d : dist A) : Prop :=
  Permutation l (dvalues d) /\ (dsorted d = true -> SortedBy lt (dvalues d)).

Lemma Inv_make l : Inv l (distMake lt l).
Proof. split; [reflexivity|]. cbn. apply is_sorted_spec. Qed.

Lemma Inv_nth l d n d' r : Inv l d -> nthCall lt d n d' r -> Inv l d'.
Proof.
  intros [HP HS] H. destruct H as [E|E L|l' E R [HP' _]]; [split; auto|split; auto|].
  split; [eapply Permutation_trans; eauto|discriminate].
Qed.

Lemma Inv_sort l d d' : Inv l d -> sortCall lt d d' -> Inv l d'.
Proof.
  intros [HP HS] H. destruct H as [E|l' E HP' HS']; [split; auto|].
  split; [eapply Permutation_trans; eauto|auto].
Qed.

Lemma Inv_reach l d d' : Inv l d -> reach lt d d' -> Inv l d'.
Proof. intros H. induction 1; auto; eauto using Inv_nth, Inv_sort. Qed.

Lemma nthCall_value l s d n d' r :
  Inv l d -> Sorting lt l s -> 0 <= n < Z.of_nat (length l) -> nthCall lt d n d' r ->
  exists v w, r = Ok v /\ zget s n = Ok w /\ Equivalent lt v w.
Proof.
  intros [HP HS] Hs Hn H. apply Sorting_iff in Hs as [Ps Ss].
  destruct (zget_in_range s n) as [w Hw]; [rewrite <- (Permutation_length Ps); exact Hn|].
  pose proof (Permutation_length HP) as L.
  destruct H as [E|E L'|l' E R [HP' HN]].
  - destruct (zget_in_range (dvalues d) n) as [v Hv]; [lia|]. exists v, w. split; [exact Hv|]. split; [exact Hw|].
    eapply part_equiv; [|apply SortedBy_Part, HS, E|apply SortedBy_Part, Ss|exact Hv|exact Hw].
    eapply Permutation_trans; [apply Permutation_sym|]; eauto.
  - lia.
  - destruct (zget_in_range l' n) as [v Hv]; [rewrite <- (Permutation_length HP'); lia|]. exists v, w.
    split; [exact Hv|]. split; [exact Hw|].
    eapply part_equiv; [|exact HN|apply SortedBy_Part, Ss|exact Hv|exact Hw].
    eapply Permutation_trans; [apply Permutation_sym, HP'|]. eapply Permutation_trans; [apply Permutation_sym|]; eauto.
Qed.

Lemma nthCall_total d n : 0 <= n < Z.of_nat (length (dvalues d)) -> exists d' r, nthCall lt d n d' r.
Proof.
  intros Hn. destruct (dsorted d) eqn:E.
  - exists d. eexists. apply nth_sorted, E.
  - eexists. eexists. eapply (nth_unsorted lt d n (isort (dvalues d))); auto. split; [apply isort_perm|].
    apply SortedBy_Part, isort_sorted.
Qed.

Lemma sortCall_total d : exists d', sortCall lt d d'.
Proof.
  destruct (dsorted d) eqn:E; [exists d; apply sort_sorted, E|]. eexists.
  eapply (sort_unsorted lt d (isort (dvalues d))); auto using isort_perm, isort_sorted.
Qed.

Lemma nth_spec l s d n :
  reach lt (distMake lt l) d -> Sorting lt l s -> 0 <= n < Z.of_nat (length l) ->
  (exists d' r, nthCall lt d n d' r) /\
  forall d' r, nthCall lt d n d' r ->
    Permutation l (dvalues d') /\ exists v w, r = Ok v /\ zget s n = Ok w /\ Equivalent lt v w.
Proof.
  intros HR Hs Hn. pose proof (Inv_reach l _ _ (Inv_make l) HR) as I. split.
  - apply nthCall_total. destruct I as [HP _]. rewrite <- (Permutation_length HP). exact Hn.
  - intros d' r H. split; [apply (Inv_nth _ _ _ _ _ I H)|]. eapply nthCall_value; eauto.
Qed.

Lemma nth_out_spec l d n : reach lt (distMake lt l) d -> n < 0 \/ Z.of_nat (length l) <= n ->
  nthCall lt d n d UB /\ forall d' r, nthCall lt d n d' r -> d' = d /\ r = UB.
Proof.
  intros HR Hn. destruct (Inv_reach l _ _ (Inv_make l) HR) as [HP _]. assert (L := Permutation_length HP).
  assert (G : zget (dvalues d) n = UB) by (apply zget_out; lia). split.
  - destruct (dsorted d) eqn:E; [rewrite <- G; now apply nth_sorted|apply nth_out; [exact E|lia]].
  - intros d' r H. destruct H as [E|E L'|l' E R P]; [split; [reflexivity|exact G]|split; reflexivity|lia].
Qed.

Lemma sort_spec l d d' :
  reach lt (distMake lt l) d -> sortCall lt d d' -> Sorting lt l (dvalues d') /\ dsorted d' = true.
Proof.
  intros HR H. pose proof (Inv_reach l _ _ (Inv_make l) HR) as I. pose proof (Inv_sort _ _ _ I H) as [HP HS].
  assert (E : dsorted d' = true) by (destruct H; auto). split; [apply Sorting_iff; auto|exact E].
Qed.

Lemma minmax_spec l s d :
  reach lt (distMake lt l) d -> Sorting lt l s -> l <> [] -> Z.of_nat (length l) < 2 ^ 64 ->
  (forall d' r, minCall lt d d' r -> exists v w, r = Ok v /\ zget s 0 = Ok w /\ Equivalent lt v w) /\
  (forall d' r, maxCall lt d d' r ->
     exists v w, r = Ok v /\ zget s (Z.of_nat (length l) - 1) = Ok w /\ Equivalent lt v w).
Proof.
  intros HR Hs Hl HL. pose proof (Inv_reach l _ _ (Inv_make l) HR) as I.
  assert (0 < Z.of_nat (length l)) by (destruct l; [congruence|cbn; lia]).
  split; intros d' r Hc.
  - eapply nthCall_value; eauto. lia.
  - unfold maxCall in Hc. destruct I as [HP HS]. rewrite <- (Permutation_length HP) in Hc.
    replace (u64 (Z.of_nat (length l) - 1)) with (Z.of_nat (length l) - 1) in Hc
      by (unfold u64; symmetry; apply Z.mod_small; lia).
    eapply (nthCall_value l s d); eauto; [split; auto|lia].
Qed.
End Order.

(** Rational data *)
Lemma qltb_swo : StrictWeakOrder qltb.
Proof.
  split.
  - intros x. apply qltb_false. apply Qle_refl.
  - intros x y z H1 H2. apply qltb_spec in H1, H2. apply qltb_spec. eapply Qlt_trans; eauto.
  - intros x y z H1 H2. apply qltb_false in H1, H2. apply qltb_false. eapply Qle_trans; eauto.
Qed.

Lemma Equivalent_Q x y : Equivalent qltb x y <-> (x == y)%Q.
Proof.
  unfold Equivalent. rewrite !qltb_false. split; intros H; [apply Qle_antisym; tauto|]. rewrite H. split; apply Qle_refl.
Qed.

Lemma nthQ l s d n d' r :
  Inv qltb l d -> Sorting qltb l s -> 0 <= n < Z.of_nat (length l) -> nthCall qltb d n d' r ->
  exists v w, r = Ok v /\ zget s n = Ok w /\ (v == w)%Q.
Proof.
  intros I Hs Hn H. destruct (nthCall_value qltb qltb_swo _ _ _ _ _ _ I Hs Hn H) as (v & w & E & Hw & Q).
  exists v, w. split; [exact E|]. split; [exact Hw|]. apply Equivalent_Q, Q.
Qed.

Lemma sorted_call d n d' r : nthCall qltb d n d' r -> dsorted d = true -> d' = d /\ r = zget (dvalues d) n.
Proof. intros [E|E L|l' E R N] H; try congruence. split; reflexivity. Qed.

Lemma twoNth_spec o l s d f d' x y :
  Inv qltb l d -> Sorting qltb l s -> 0 <= f -> f + 1 < Z.of_nat (length l) ->
  ReadBefore o \/ dsorted d = true -> twoNth o d f d' x y ->
  Inv qltb l d' /\
  exists vx vy wx wy, x = Ok vx /\ y = Ok vy /\ zget s f = Ok wx /\ zget s (f + 1) = Ok wy /\ (vx == wx)%Q /\ (vy == wy)%Q.
Proof.
  intros I Hs Hf Hn Ho H.
  assert (C1 : forall d1 d2 a b, nthCall qltb d f d1 a -> nthCall qltb d1 (f + 1) d2 b -> Inv qltb l d2 /\
    exists vx vy wx wy, a = Ok vx /\ b = Ok vy /\ zget s f = Ok wx /\ zget s (f + 1) = Ok wy /\ (vx == wx)%Q /\ (vy == wy)%Q).
  { intros d1 d2 a b H1 H2. pose proof (Inv_nth _ _ _ _ _ _ I H1) as I1. pose proof (Inv_nth _ _ _ _ _ _ I1 H2) as I2.
    split; [exact I2|].
    destruct (nthQ l s d f d1 a I Hs ltac:(lia) H1) as (vx & wx & E1 & E2 & E3).
    destruct (nthQ l s d1 (f + 1) d2 b I1 Hs ltac:(lia) H2) as (vy & wy & E4 & E5 & E6).
    exists vx, vy, wx, wy. auto 10. }
  assert (C2 : forall d1 d2 a b, nthCall qltb d (f + 1) d1 b -> nthCall qltb d1 f d2 a -> Inv qltb l d2 /\
    exists vx vy wx wy, a = Ok vx /\ b = Ok vy /\ zget s f = Ok wx /\ zget s (f + 1) = Ok wy /\ (vx == wx)%Q /\ (vy == wy)%Q).
  { intros d1 d2 a b H1 H2. pose proof (Inv_nth _ _ _ _ _ _ I H1) as I1. pose proof (Inv_nth _ _ _ _ _ _ I1 H2) as I2.
    split; [exact I2|].
    destruct (nthQ l s d (f + 1) d1 b I Hs ltac:(lia) H1) as (vy & wy & E1 & E2 & E3).
    destruct (nthQ l s d1 f d2 a I1 Hs ltac:(lia) H2) as (vx & wx & E4 & E5 & E6).
    exists vx, vy, wx, wy. auto 10. }
  destruct H as [d1 d2 a b E H1 H2|d1 d2 a b E H1 H2|d1 d2 a b E H1 H2|d1 d2 a b E H1 H2].
  - eapply C1; eauto.
  - eapply C2; eauto.
  - destruct Ho as [[->| ->]|Ho]; try discriminate.
    destruct (sorted_call _ _ _ _ H1 Ho) as [-> ->]. destruct (sorted_call _ _ _ _ H2 Ho) as [-> ->].
    eapply C1; eauto.
  - destruct Ho as [[->| ->]|Ho]; try discriminate.
    destruct (sorted_call _ _ _ _ H1 Ho) as [-> ->]. destruct (sorted_call _ _ _ _ H2 Ho) as [-> ->].
    eapply C2; eauto.
Qed.

Lemma qtrunc_bounds n : (0 <= n)%Q -> (inject_Z (qtrunc n) <= n)%Q /\ (n < inject_Z (qtrunc n + 1))%Q /\ 0 <= qtrunc n.
Proof.
  intros H. rewrite (qtrunc_nonneg n H). split; [apply Qfloor_le|]. split; [apply Qlt_floor|].
  change 0 with (Qfloor 0). apply Qfloor_resp_le, H.
Qed.

Lemma qtrunc_inject n k : (n == inject_Z k)%Q -> 0 <= k -> qtrunc n = k.
Proof.
  intros H Hk. rewrite qtrunc_nonneg.
  - rewrite H. apply Qfloor_Z.
  - rewrite H. change 0%Q with (inject_Z 0). rewrite <- Zle_Qle. exact Hk.
Qed.

Lemma rank_range l q : l <> [] -> (0 <= q)%Q -> (q <= 1)%Q ->
  (0 <= rankOf l q)%Q /\ (rankOf l q <= inject_Z (Z.of_nat (length l) - 1))%Q.
Proof.
  intros Hl H0 H1. unfold rankOf.
  assert (HN : (0 <= inject_Z (Z.of_nat (length l) - 1))%Q).
  { change 0%Q with (inject_Z 0). rewrite <- Zle_Qle. destruct l; [congruence|]. cbn [length]. lia. }
  split; [apply Qmult_le_0_compat; assumption|].
  setoid_replace (inject_Z (Z.of_nat (length l) - 1)) with (1 * inject_Z (Z.of_nat (length l) - 1))%Q at 2 by ring.
  apply Qmult_le_compat_r; assumption.
Qed.

Lemma quantile_characterised o l s d q d' r :
  reach qltb (distMake qltb l) d -> Sorting qltb l s -> l <> [] -> (0 <= q)%Q -> (q <= 1)%Q ->
  ReadBefore o \/ dsorted d = true -> quantileCall o d q d' r ->
  Permutation l (dvalues d') /\
  exists v k x, r = Ok v /\ (inject_Z k <= rankOf l q)%Q /\ (rankOf l q < inject_Z (k + 1))%Q /\ zget s k = Ok x /\
    ((rankOf l q == inject_Z k)%Q /\ (v == x)%Q \/
     ~ (rankOf l q == inject_Z k)%Q /\ exists y, zget s (k + 1) = Ok y /\
       (v == x * (rankOf l q - inject_Z k) + y * (1 - (rankOf l q - inject_Z k)))%Q).
Proof.
  intros HR Hs Hl H0 H1 Ho H. pose proof (Inv_reach qltb l _ _ (Inv_make qltb l) HR) as I.
  destruct (rank_range l q Hl H0 H1) as [R0 R1].
  assert (EN : forall n, n = (q * inject_Z (Z.of_nat (length (dvalues d)) - 1))%Q -> n = rankOf l q).
  { intros n ->. unfold rankOf. destruct I as [HP _]. rewrite (Permutation_length HP). reflexivity. }
  destruct (qtrunc_bounds _ R0) as (B1 & B2 & B3).
  assert (B4 : qtrunc (rankOf l q) <= Z.of_nat (length l) - 1).
  { assert (inject_Z (qtrunc (rankOf l q)) <= inject_Z (Z.of_nat (length l) - 1))%Q by (eapply Qle_trans; eauto).
    rewrite <- Zle_Qle in *. assumption. }
  destruct H as [n d' r En Ei H|n d' x y En Ei H]; apply EN in En; subst n.
  - destruct (nthQ l s d (qtrunc (rankOf l q)) d' r I Hs ltac:(lia) H) as (v & w & -> & Hw & Q).
    split; [apply (Inv_nth _ _ _ _ _ _ I H)|].
    exists v, (qtrunc (rankOf l q)), w. split; [reflexivity|]. split; [exact B1|]. split; [exact B2|].
    split; [exact Hw|]. left. auto.
  - assert (B5 : qtrunc (rankOf l q) + 1 < Z.of_nat (length l)).
    { destruct (Z.eq_dec (qtrunc (rankOf l q)) (Z.of_nat (length l) - 1)) as [C|C]; [|lia]. exfalso. apply Ei.
      apply Qle_antisym; [rewrite C; exact R1|exact B1]. }
    destruct (twoNth_spec o l s d _ d' x y I Hs B3 B5 Ho H) as (I' & vx & vy & wx & wy & -> & -> & Ex & Ey & Qx & Qy).
    split; [apply I'|]. cbn [bind]. eexists. exists (qtrunc (rankOf l q)), wx.
    split; [reflexivity|]. split; [exact B1|]. split; [exact B2|]. split; [exact Ex|]. right. split; [exact Ei|].
    exists wy. split; [exact Ey|]. rewrite Qx, Qy. reflexivity.
Qed.

(** Ranks at which the interpolation is right. *)
Lemma quantile_right o l s d q d' r :
  reach qltb (distMake qltb l) d -> Sorting qltb l s -> l <> [] -> (0 <= q)%Q -> (q <= 1)%Q ->
  ReadBefore o \/ dsorted d = true ->
  (exists k, (2 * rankOf l q == inject_Z k)%Q) ->
  quantileCall o d q d' r -> exists v, r = Ok v /\ ValueAtRank s (rankOf l q) v.
Proof.
  intros HR Hs Hl H0 H1 Ho [k2 Hk] H.
  destruct (quantile_characterised o l s d q d' r HR Hs Hl H0 H1 Ho H) as (_ & v & k & x & -> & B1 & B2 & Hx & C).
  exists v. split; [reflexivity|]. destruct C as [[C1 C2]|[C1 (y & Hy & C2)]].
  - exists k, x, x. split; [exact B1|]. split; [apply Qlt_le_weak, B2|]. split; [exact Hx|]. split; [right; exact C1|].
    rewrite C2. ring.
  - exists k, x, y. split; [exact B1|]. split; [apply Qlt_le_weak, B2|]. split; [exact Hx|]. split; [left; exact Hy|].
    assert (HH : (rankOf l q == inject_Z k + (1 # 2))%Q).
    { assert (D1 : (inject_Z (2 * k) <= inject_Z k2)%Q).
      { rewrite <- Hk. rewrite inject_Z_mult. change (inject_Z 2) with 2%Q. apply Qmult_le_l; [reflexivity|exact B1]. }
      assert (D2 : (inject_Z k2 < inject_Z (2 * (k + 1)))%Q).
      { rewrite <- Hk. rewrite inject_Z_mult. change (inject_Z 2) with 2%Q. apply Qmult_lt_l; [reflexivity|exact B2]. }
      rewrite <- Zle_Qle in D1. rewrite <- Zlt_Qlt in D2.
      assert (D3 : k2 <> 2 * k).
      { intros ->. apply C1. rewrite inject_Z_mult in Hk. change (inject_Z 2) with 2%Q in Hk.
        apply Qmult_inj_l in Hk; [exact Hk|discriminate]. }
      assert (k2 = 2 * k + 1) by lia. subst k2.
      rewrite inject_Z_plus, inject_Z_mult in Hk. change (inject_Z 2) with 2%Q in Hk. change (inject_Z 1) with 1%Q in Hk.
      setoid_replace (rankOf l q) with ((1 # 2) * (2 * rankOf l q))%Q by ring. rewrite Hk. ring. }
    rewrite C2. setoid_replace (rankOf l q - inject_Z k)%Q with (1 # 2)%Q by (rewrite HH; ring). ring.
Qed.

Lemma median_spec o l s d d' r :
  reach qltb (distMake qltb l) d -> Sorting qltb l s -> l <> [] -> ReadBefore o \/ dsorted d = true ->
  medianCall o d d' r ->
  Permutation l (dvalues d') /\ exists v, r = Ok v /\ Median s v.
Proof.
  intros HR Hs Hl Ho H. set (n := Z.of_nat (length l)).
  unfold Median. replace (length s) with (length l) by (apply Permutation_length, Hs). fold n.
  assert (G : Permutation l (dvalues d') /\ exists v x y, r = Ok v /\ zget s ((n - 1) / 2) = Ok x /\
    zget s (n / 2) = Ok y /\ (v == (x + y) / 2)%Q);
  [|destruct G as (G1 & v & x & y & G2 & G3); split; [exact G1|]; exists v; split; [exact G2|]; exists x, y; exact G3]. unfold medianCall in H.
  destruct (quantile_characterised o l s d (1 # 2) d' r HR Hs Hl ltac:(discriminate) ltac:(discriminate) Ho H)
    as (HP & v & k & x & -> & B1 & B2 & Hx & C).
  split; [exact HP|].
  assert (HK : (rankOf l (1 # 2) == inject_Z (n - 1) / 2)%Q) by (unfold rankOf; fold n; field).
  assert (K1 : 2 * k <= n - 1).
  { rewrite HK in B1. rewrite Zle_Qle, inject_Z_mult. change (inject_Z 2) with 2%Q.
    setoid_replace (inject_Z (n - 1)) with (2 * (inject_Z (n - 1) / 2))%Q by field. apply Qmult_le_l; [reflexivity|exact B1]. }
  assert (K2 : n - 1 < 2 * (k + 1)).
  { rewrite HK in B2. rewrite Zlt_Qlt, inject_Z_mult. change (inject_Z 2) with 2%Q.
    setoid_replace (inject_Z (n - 1)) with (2 * (inject_Z (n - 1) / 2))%Q by field. apply Qmult_lt_l; [reflexivity|exact B2]. }
  assert (K3 : (n - 1) / 2 = k) by (symmetry; apply (Z.div_unique (n - 1) 2 k (n - 1 - 2 * k)); lia).
  rewrite K3. destruct C as [[C1 C2]|[C1 (y & Hy & C2)]].
  - assert (K4 : n - 1 = 2 * k).
    { rewrite HK in C1. apply (proj1 (inject_Z_injective _ _)). rewrite inject_Z_mult. change (inject_Z 2) with 2%Q.
      rewrite <- C1. field. }
    assert (K5 : n / 2 = k) by (symmetry; apply (Z.div_unique n 2 k 1); lia). rewrite K5.
    exists v, x, x. split; [reflexivity|]. split; [exact Hx|]. split; [exact Hx|]. rewrite C2. field.
  - assert (K4 : n - 1 <> 2 * k).
    { intros K. apply C1. rewrite HK, K, inject_Z_mult. change (inject_Z 2) with 2%Q. field. }
    assert (K5 : n / 2 = k + 1) by (symmetry; apply (Z.div_unique n 2 (k + 1) 0); lia). rewrite K5.
    exists v, x, y. split; [reflexivity|]. split; [exact Hx|]. split; [exact Hy|]. rewrite C2, HK.
    assert (n - 1 = 2 * k + 1) by lia. replace (n - 1) with (2 * k + 1) by lia. rewrite inject_Z_plus, inject_Z_mult.
    change (inject_Z 2) with 2%Q. change (inject_Z 1) with 1%Q. field.
Qed.

(** Median of unsorted data when both calls come before the reads. *)
Lemma median_unsequenced : exists l s d' r, Sorting qltb l s /\ medianCall CallLeftFirst (distMake qltb l) d' r /\
  exists v x y, r = Ok v /\ zget s 1 = Ok x /\ zget s 2 = Ok y /\ length l = 4%nat /\ ~ (v == (x + y) / 2)%Q.
Proof.
  exists [2; 1; 4; 3]%Q, [1; 2; 3; 4]%Q, (mkDist [2; 1; 3; 4]%Q false).
  eexists. split.
  { apply (Sorting_iff qltb qltb_swo). split; [|repeat constructor].
    apply (Permutation_trans (l' := [1; 2; 4; 3]%Q)); [apply perm_swap|]. do 2 apply perm_skip. apply perm_swap. }
  split.
  - eapply quantile_between; [reflexivity|discriminate|].
    eapply (two_call_left _ _ _ (mkDist [1; 2; 3; 4]%Q false)); [reflexivity| |].
    + eapply nth_unsorted; [reflexivity|split; [vm_compute; discriminate|vm_compute; reflexivity]|]. split.
      * apply (Permutation_trans (l' := [1; 2; 4; 3]%Q)); [apply perm_swap|]. do 2 apply perm_skip. apply perm_swap.
      * apply (SortedBy_Part qltb qltb_swo). repeat constructor.
    + eapply nth_unsorted; [reflexivity|split; [vm_compute; discriminate|vm_compute; reflexivity]|]. split; [apply perm_swap|].
      intros i j x y Hi Hj Hx Hy. pose proof (zget_range _ _ _ Hy) as R. cbn in R.
      match type of Hj with ?t <= _ => change t with 2 in Hi, Hj end.
      assert (Ei : i = 0 \/ i = 1 \/ i = 2) by lia.
      assert (Ej : j = 2 \/ j = 3) by lia.
      destruct Ei as [->|[->| ->]], Ej as [->| ->]; injection Hx as <-; injection Hy as <-; reflexivity.
  - eexists. exists 2%Q, 3%Q. split; [reflexivity|]. split; [reflexivity|]. split; [reflexivity|]. split; [reflexivity|].
    vm_compute. discriminate.
Qed.

Lemma quantile_refuted : exists l s q, Sorting qltb l s /\ (0 <= q)%Q /\ (q <= 1)%Q /\ dsorted (distMake qltb l) = true /\
  forall o d' r, quantileCall o (distMake qltb l) q d' r -> exists v, r = Ok v /\ ~ ValueAtRank s (rankOf l q) v.
Proof.
  exists [0; 10]%Q, [0; 10]%Q, (1 # 4)%Q.
  assert (HS : Sorting qltb [0; 10]%Q [0; 10]%Q) by (apply (Sorting_iff qltb qltb_swo); split; [reflexivity|repeat constructor]).
  split; [exact HS|]. split; [discriminate|]. split; [discriminate|]. split; [reflexivity|].
  intros o d' r H.
  destruct (quantile_characterised o [0; 10]%Q [0; 10]%Q (distMake qltb [0; 10]%Q) (1 # 4) d' r (reach_here _ _) HS
    ltac:(discriminate) ltac:(discriminate) ltac:(discriminate) (or_intror eq_refl) H) as (_ & v & k & x & -> & B1 & B2 & Hx & C).
  exists v. split; [reflexivity|].
  assert (R : (rankOf [0; 10]%Q (1 # 4) == 1 # 4)%Q) by reflexivity. rewrite R in B1, B2, C.
  assert (k = 0).
  { unfold Qle in B1. unfold Qlt in B2. cbn in B1, B2. lia. }
  subst k. injection Hx as <-. destruct C as [[C _]|[_ (y & Hy & C)]]; [discriminate C|]. injection Hy as <-.
  intros (k & x & y & D1 & D2 & Dx & Dy & D). rewrite R in D1, D2, Dy, D.
  assert (k = 0). { unfold Qle in D1, D2. cbn in D1, D2. lia. } subst k. injection Dx as <-.
  destruct Dy as [Dy|Dy]; [|discriminate Dy]. injection Dy as <-. rewrite C in D. discriminate D.
Qed.

(** Existence of the calls *)
Lemma nth_possible l d n : Inv qltb l d -> 0 <= n < Z.of_nat (length l) -> exists d' r, nthCall qltb d n d' r.
Proof.
  intros [HP _] Hn. apply (nthCall_total qltb qltb_swo). rewrite <- (Permutation_length HP). exact Hn.
Qed.

Lemma quantile_possible l d q o :
  reach qltb (distMake qltb l) d -> l <> [] -> (0 <= q)%Q -> (q <= 1)%Q -> exists d' r, quantileCall o d q d' r.
Proof.
  intros HR Hl H0 H1. pose proof (Inv_reach qltb l _ _ (Inv_make qltb l) HR) as I.
  destruct (rank_range l q Hl H0 H1) as [R0 R1]. destruct (qtrunc_bounds _ R0) as (B1 & B2 & B3).
  assert (EN : rankOf l q = (q * inject_Z (Z.of_nat (length (dvalues d)) - 1))%Q).
  { unfold rankOf. destruct I as [HP _]. rewrite (Permutation_length HP). reflexivity. }
  assert (B4 : qtrunc (rankOf l q) <= Z.of_nat (length l) - 1).
  { assert (inject_Z (qtrunc (rankOf l q)) <= inject_Z (Z.of_nat (length l) - 1))%Q by (eapply Qle_trans; eauto).
    rewrite <- Zle_Qle in *. assumption. }
  destruct (Qeq_dec (rankOf l q) (inject_Z (qtrunc (rankOf l q)))) as [E|E].
  - destruct (nth_possible l d (qtrunc (rankOf l q)) I) as (d' & r & H); [lia|].
    exists d', r. eapply quantile_exact; eauto.
  - assert (B5 : qtrunc (rankOf l q) + 1 < Z.of_nat (length l)).
    { destruct (Z.eq_dec (qtrunc (rankOf l q)) (Z.of_nat (length l) - 1)) as [C|C]; [|lia]. exfalso. apply E.
      apply Qle_antisym; [rewrite C; exact R1|exact B1]. }
    set (f := qtrunc (rankOf l q)) in *.
    assert (exists d' x y, twoNth o d f d' x y) as (d' & x & y & H).
    { destruct (nth_possible l d f I) as (d1 & r1 & H1'); [lia|].
      destruct (nth_possible l d1 (f + 1)) as (d2 & r2 & H2'); [eapply Inv_nth; eauto|lia|].
      destruct (nth_possible l d (f + 1) I) as (d3 & r3 & H3'); [lia|].
      destruct (nth_possible l d3 f) as (d4 & r4 & H4'); [eapply Inv_nth; eauto|lia|].
      destruct o; eexists; eexists; eexists.
      - eapply two_left; eauto.
      - eapply two_right; eauto.
      - eapply two_call_left; eauto.
      - eapply two_call_right; eauto. }
    exists d'. eexists. eapply quantile_between; eauto.
Qed.

Lemma nth_outside l d n d' r : Inv qltb l d -> n < 0 \/ Z.of_nat (length l) <= n -> nthCall qltb d n d' r -> r = UB.
Proof.
  intros [HP _] Hn H. assert (L := Permutation_length HP). destruct H as [E|E L'|l' E R P]; [|reflexivity|lia].
  apply zget_out. lia.
Qed.

Lemma get_outside l d n : Inv qltb l d -> n < 0 \/ Z.of_nat (length l) <= n -> zget (dvalues d) n = UB.
Proof. intros [HP _] Hn. assert (L := Permutation_length HP). apply zget_out. lia. Qed.

Lemma trunc_negative n : (n <= -1)%Q -> qtrunc n < 0.
Proof.
  unfold qtrunc, Qle. cbn [Qnum Qden]. intros H. destruct n as [a b]. cbn [Qnum Qden] in *. replace a with (- (- a)) by lia. rewrite Z.quot_opp_l by lia. rewrite Z.quot_div_nonneg by lia.
  assert (1 <= (- a) / Z.pos b) by (apply Z.div_le_lower_bound; lia). lia.
Qed.

Lemma quantile_outside o l d q d' r : reach qltb (distMake qltb l) d ->
  (rankOf l q <= -1)%Q \/ (0 <= rankOf l q)%Q /\ (inject_Z (Z.of_nat (length l) - 1) < rankOf l q)%Q -> quantileCall o d q d' r -> r = UB.
Proof.
  intros HR HO H. pose proof (Inv_reach qltb l _ _ (Inv_make qltb l) HR) as I.
  assert (EN : forall n, n = (q * inject_Z (Z.of_nat (length (dvalues d)) - 1))%Q -> n = rankOf l q).
  { intros n ->. unfold rankOf. destruct I as [HP _]. rewrite (Permutation_length HP). reflexivity. }
  assert (B : (qtrunc (rankOf l q) < 0 \/ Z.of_nat (length l) <= qtrunc (rankOf l q)) \/ (~ (rankOf l q == inject_Z (qtrunc (rankOf l q)))%Q /\ Z.of_nat (length l) <= qtrunc (rankOf l q) + 1)).
  { destruct HO as [HO|[H0 HO]]; [left; left; apply trunc_negative; exact HO|]. destruct (qtrunc_bounds _ H0) as (B1 & B2 & B3).
    assert (B4 : Z.of_nat (length l) <= qtrunc (rankOf l q) + 1). { assert (X : (inject_Z (Z.of_nat (length l) - 1) < inject_Z (qtrunc (rankOf l q) + 1))%Q) by (eapply Qlt_trans; eassumption). rewrite <- Zlt_Qlt in X. lia. }
    destruct (Z.eq_dec (Z.of_nat (length l)) (qtrunc (rankOf l q) + 1)) as [C|C]; [|left; right; lia]. right. split; [|exact B4]. intros X. rewrite X in HO. rewrite <- Zlt_Qlt in HO. lia. }
  destruct H as [n d' r En Ei H|n d' x y En Ei H]; apply EN in En; subst n.
  - destruct B as [B|[B _]]; [exact (nth_outside l d _ d' r I B H)|contradiction].
  - set (f := qtrunc (rankOf l q)) in *. assert (C : (f < 0 \/ Z.of_nat (length l) <= f) \/ (f + 1 < 0 \/ Z.of_nat (length l) <= f + 1)) by lia. clear B.
    assert (G : x = UB \/ ((exists v, x = Ok v) \/ x = UB) /\ y = UB).
    { assert (T : forall dd dd' k rr, nthCall qltb dd k dd' rr -> (exists v, rr = Ok v) \/ rr = UB).
      { intros dd dd' k rr [E|E L'|l' E R P]; [|right; reflexivity|]; unfold zget; destruct (k <? 0); auto; destruct (nth_error _ _); eauto. }
      assert (T' : forall ll k, (exists v : Q, zget ll k = Ok v) \/ zget ll k = UB) by (intros; unfold zget; destruct (k <? 0); auto; destruct (nth_error _ _); eauto).
      destruct H as [d1 d2 x y _ H1 H2|d1 d2 x y _ H1 H2|d1 d2 x y _ H1 H2|d1 d2 x y _ H1 H2]; pose proof (Inv_nth qltb l _ _ _ _ I H1) as I1; pose proof (Inv_nth qltb l _ _ _ _ I1 H2) as I2; destruct C as [C|C].
      - left. exact (nth_outside l _ _ _ _ I C H1).
      - right. split; [exact (T _ _ _ _ H1)|]. exact (nth_outside l _ _ _ _ I1 C H2).
      - left. exact (nth_outside l _ _ _ _ I1 C H2).
      - right. split; [exact (T _ _ _ _ H2)|]. exact (nth_outside l _ _ _ _ I C H1).
      - left. exact (get_outside l _ _ I2 C).
      - right. split; [apply T'|]. exact (nth_outside l _ _ _ _ I1 C H2).
      - left. exact (nth_outside l _ _ _ _ I1 C H2).
      - right. split; [exact (T _ _ _ _ H2)|]. exact (get_outside l _ _ I2 C). }
    destruct G as [->|[[[v ->]| ->] ->]]; reflexivity.
Qed.

(** Histogram *)
Section Histogram.
Context {A : Type} (lt : A -> A -> bool) (O : StrictWeakOrder lt).

(** [b] is not greater than [x]. *)
Definition ge (b x : A) : bool := negb (lt x b).

Lemma skipBelow_spec it b : SortedBy lt it -> skipBelow lt it b = filter (ge b) it.
Proof.
  intros H. apply (SortedBy_Strong lt O) in H. induction H as [|x it HS IH HF]; [reflexivity|]. cbn [skipBelow filter].
  unfold ge at 1. destruct (lt x b) eqn:E; cbn [negb]; [exact IH|].
  f_equal. symmetry. clear IH HS. induction HF as [|y it Hy HF IH]; [reflexivity|]. cbn [filter]. unfold ge at 1.
  replace (lt y b) with false; [cbn [negb]; f_equal; exact IH|]. symmetry.
  eapply (swo_neg_trans _ O); eauto.
Qed.

Lemma filter_below_nil it b : StronglySorted (fun x y => lt y x = false) it -> forall x, lt x b = false ->
  Forall (fun y => lt y x = false) it -> filter (fun y => lt y b) it = [].
Proof.
  intros _ x Hx HF. induction HF as [|y it Hy HF IH]; [reflexivity|]. cbn [filter].
  replace (lt y b) with false; [exact IH|]. symmetry. eapply (swo_neg_trans _ O); eauto.
Qed.

Lemma countBelow_spec it sup : SortedBy lt it -> forall out c k,
  zget out c = Ok k ->
  exists out', countBelow lt it sup out c = Ok (filter (ge sup) it, out') /\ length out' = length out /\
    zget out' c = Ok (k + count (fun x => lt x sup) it) /\ forall j, j <> c -> zget out' j = zget out j.
Proof.
  intros H. pose proof (SortedBy_Strong lt O _ H) as HS. clear H.
  induction HS as [|x it HS IH HF]; intros out c k Hk.
  - exists out. split; [reflexivity|]. split; [reflexivity|]. split; [|auto]. rewrite Hk. unfold count. cbn. f_equal. lia.
  - cbn [countBelow]. destruct (lt x sup) eqn:E.
    + rewrite Hk. cbn [bind]. destruct (zset out c (k + 1)) as [out1| |] eqn:Es.
      * cbn [bind]. destruct (IH out1 c (k + 1)) as (out' & E' & L & G & F); [eapply zset_get_eq; eauto|].
        exists out'. split; [|split; [|split]].
        -- rewrite E'. cbn [filter]. unfold ge at 2. rewrite E. reflexivity.
        -- rewrite L. eapply zset_length; eauto.
        -- rewrite G. f_equal. unfold count. cbn [filter]. rewrite E. cbn [length]. lia.
        -- intros j Hj. rewrite F by exact Hj. eapply zset_get_neq; eauto.
      * unfold zset in Es. destruct ((c <? 0) || (Z.of_nat (length out) <=? c)); discriminate.
      * exfalso. pose proof (zget_range _ _ _ Hk). rewrite zset_ok in Es by lia. discriminate.
    + exists out. split; [|split; [reflexivity|split; [|auto]]].
      * f_equal. f_equal. rewrite <- skipBelow_spec.
        -- cbn [skipBelow]. rewrite E. reflexivity.
        -- apply StronglySorted_Sorted. constructor; assumption.
      * rewrite Hk. f_equal. unfold count. cbn [filter]. rewrite E. rewrite (filter_below_nil it sup HS x E HF). cbn. lia.
Qed.

Lemma filter_filter (p q : A -> bool) l : filter p (filter q l) = filter (fun x => p x && q x) l.
Proof.
  induction l as [|x l IH]; cbn [filter]; [reflexivity|]. destruct (q x) eqn:E; cbn [filter]; rewrite IH.
  - destruct (p x); reflexivity.
  - destruct (p x); reflexivity.
Qed.

Lemma filter_ge_ge b sup l : lt sup b = false -> filter (ge sup) (filter (ge b) l) = filter (ge sup) l.
Proof.
  intros H. rewrite filter_filter. apply filter_ext. intros x. unfold ge. destruct (lt x sup) eqn:E; [reflexivity|].
  replace (lt x b) with false; [reflexivity|]. symmetry. eapply (swo_neg_trans _ O); eauto.
Qed.

Lemma SortedBy_filter p l : SortedBy lt l -> SortedBy lt (filter p l).
Proof.
  intros H. apply (SortedBy_Strong lt O) in H. apply StronglySorted_Sorted.
  induction H as [|x l HS IH HF]; cbn [filter]; [constructor|]. destruct (p x); [|exact IH]. constructor; [exact IH|].
  rewrite Forall_forall in *. intros y Hy. apply filter_In in Hy as [Hy _]. auto.
Qed.

Lemma binLoop_spec values sups : SortedBy lt values -> forall b out c,
  SortedBy lt (b :: sups) -> 0 <= c -> c + Z.of_nat (length sups) = Z.of_nat (length out) ->
  (forall j, c <= j < Z.of_nat (length out) -> zget out j = Ok 0) ->
  exists out', binLoop lt sups (filter (ge b) values) out c =
      Ok (filter (ge (last (b :: sups) b)) values, out', Z.of_nat (length out)) /\
    length out' = length out /\ (forall j, j < c -> zget out' j = zget out j) /\
    forall k lo hi, 0 <= k -> zget (b :: sups) k = Ok lo -> zget (b :: sups) (k + 1) = Ok hi ->
      zget out' (c + k) = Ok (count (fun x => negb (lt x lo) && lt x hi) values).
Proof.
  intros HV. induction sups as [|sup sups IH]; intros b out c HB Hc HL HZ.
  - exists out. cbn [binLoop last]. cbn in HL. split; [repeat f_equal; lia|]. split; [reflexivity|]. split; [auto|].
    intros k lo hi Hk H1 H2. apply zget_range in H2. cbn in H2. lia.
  - cbn [binLoop]. cbn [length] in HL. replace (c =? Z.of_nat (length out)) with false by lia.
    inversion HB as [|? ? HB' HH]; subst. inversion HH; subst.
    destruct (countBelow_spec (filter (ge b) values) sup (SortedBy_filter _ _ HV) out c 0) as (out1 & E1 & L1 & G1 & F1).
    { apply HZ. lia. }
    rewrite E1. cbn [bind fst snd]. rewrite filter_ge_ge by assumption.
    destruct (IH sup out1 (c + 1)) as (out' & E' & L' & G' & F'); auto; try lia.
    { intros j Hj. rewrite F1 by lia. apply HZ. lia. }
    exists out'. split; [|split; [lia|split]].
    + rewrite E'. rewrite L1. do 2 f_equal. f_equal. f_equal.
      change (last (b :: sup :: sups) b) with (last (sup :: sups) b).
      f_equal. clear. revert sup. induction sups as [|s sups IH]; intros sup; [reflexivity|].
      change (last (sup :: s :: sups) sup) with (last (s :: sups) sup).
      change (last (sup :: s :: sups) b) with (last (s :: sups) b).
      clear. revert s. induction sups as [|t sups IH]; intros s; [reflexivity|].
      change (last (t :: sups) sup = last (t :: sups) b). apply IH.
    + intros j Hj. rewrite G' by lia. apply F1. lia.
    + intros k lo hi Hk H1 H2. destruct (Z.eq_dec k 0) as [->|Hk0].
      * rewrite zget_cons_0 in H1. injection H1 as <-. cbn in H2. injection H2 as <-.
        rewrite Z.add_0_r. rewrite G' by lia. rewrite G1. f_equal. unfold count. rewrite filter_filter.
        rewrite Z.add_0_l. f_equal. f_equal. apply filter_ext. intros x. unfold ge. apply andb_comm.
      * rewrite zget_cons_S in H1, H2 by lia. replace (c + k) with (c + 1 + (k - 1)) by lia.
        apply F'; [lia|exact H1|]. replace (k - 1 + 1) with (k + 1 - 1) by lia. exact H2.
Qed.

Lemma last_default (l : list A) x y : l <> [] -> last l x = last l y.
Proof.
  induction l as [|a l IH]; intros H; [congruence|]. destruct l as [|b l]; [reflexivity|].
  change (last (b :: l) x = last (b :: l) y). apply IH. discriminate.
Qed.

Lemma last_get (l : list A) x : l <> [] -> zget l (Z.of_nat (length l) - 1) = Ok (last l x).
Proof.
  intros H. rewrite (app_removelast_last x H) at 1. pose proof (f_equal (@length A) (app_removelast_last x H)) as L.
  rewrite app_length in L. cbn in L. rewrite zget_app_r by lia. replace (Z.of_nat (length l) - 1 - Z.of_nat (length (removelast l))) with 0 by lia.
  reflexivity.
Qed.

Lemma histogram_sorted values bins top : SortedBy lt values -> SortedBy lt bins ->
  zget bins (Z.of_nat (length bins) - 1) = Ok top ->
  (Forall (fun x => ~ Equivalent lt x top) values ->
    exists out, histogramSorted lt values bins = Ok out /\ Z.of_nat (length out) = Z.of_nat (length bins) - 1 /\
    forall k lo hi, 0 <= k -> zget bins k = Ok lo -> zget bins (k + 1) = Ok hi ->
      zget out k = Ok (count (fun x => negb (lt x lo) && lt x hi) values)) /\
  (Exists (fun x => Equivalent lt x top) values -> histogramSorted lt values bins = UB).
Proof.
  intros HV HB HT. destruct bins as [|b sups]; [apply zget_range in HT; cbn in HT; lia|].
  cbn [histogramSorted]. rewrite skipBelow_spec by exact HV.
  assert (ET : last (b :: sups) b = top).
  { rewrite (last_get (b :: sups) b) in HT by discriminate. congruence. }
  destruct (binLoop_spec values sups HV b (repeat 0 (length sups)) 0 HB) as (out & E & L & _ & F).
  - lia.
  - rewrite repeat_length. lia.
  - intros j Hj. rewrite repeat_length in Hj. apply zget_ok. split; [lia|]. apply nth_error_repeat. lia.
  - rewrite E. cbn [bind]. rewrite ET. rewrite repeat_length in L.
    assert (FI : forall k lo hi, 0 <= k -> zget (b :: sups) k = Ok lo -> zget (b :: sups) (k + 1) = Ok hi ->
      zget out k = Ok (count (fun x => negb (lt x lo) && lt x hi) values)) by (intros; apply F; auto).
    split; intros HE.
    + exists out. split; [|split; [cbn [length]; lia|exact FI]].
      destruct (filter (ge top) values) as [|x it] eqn:Ef; [reflexivity|].
      replace (eqv lt x top) with false; [reflexivity|]. symmetry. unfold eqv.
      rewrite Forall_forall in HE. assert (Hx : In x values).
      { assert (In x (filter (ge top) values)) as Hx by (rewrite Ef; left; reflexivity). apply filter_In in Hx. tauto. }
      specialize (HE x Hx). unfold Equivalent in HE. destruct (lt x top), (lt top x); cbn; tauto.
    + destruct (filter (ge top) values) as [|x it] eqn:Ef.
      * exfalso. apply Exists_exists in HE as (x & Hx & H1 & H2).
        assert (In x (filter (ge top) values)) as C by (apply filter_In; split; [exact Hx|unfold ge; rewrite H1; reflexivity]).
        rewrite Ef in C. destruct C.
      * assert (HX : eqv lt x top = true).
        { apply Exists_exists in HE as (y & Hy & H1 & H2).
          assert (In y (filter (ge top) values)) as Cy by (apply filter_In; split; [exact Hy|unfold ge; rewrite H1; reflexivity]).
          assert (In x (filter (ge top) values)) as Cx by (rewrite Ef; left; reflexivity).
          apply filter_In in Cx as [_ Cx]. unfold ge in Cx. apply negb_true_iff in Cx. unfold eqv. rewrite Cx. cbn [negb andb].
          pose proof (SortedBy_filter (ge top) _ HV) as HS. rewrite Ef in HS, Cy. apply (SortedBy_Strong lt O) in HS.
          inversion HS as [|? ? _ HF]; subst. assert (lt y x = false).
          { destruct Cy as [->|Cy]; [apply (swo_irrefl _ O)|]. rewrite Forall_forall in HF. auto. }
          apply negb_true_iff. eapply (swo_neg_trans _ O); eauto. }
        rewrite HX. rewrite repeat_length, zget_out by lia. reflexivity.
Qed.

Lemma count_perm p (l s : list A) : Permutation l s -> count p l = count p s.
Proof. intros H. unfold count. f_equal. apply (cnt_perm p _ _ H). Qed.

Lemma histogram_spec l bins top d d' r :
  reach lt (distMake lt l) d -> Sorting lt bins bins -> zget bins (Z.of_nat (length bins) - 1) = Ok top ->
  histogramCall lt d bins d' r ->
  (Forall (fun x => ~ Equivalent lt x top) l ->
    exists out, r = Ok out /\ Z.of_nat (length out) = Z.of_nat (length bins) - 1 /\
    forall k lo hi, 0 <= k -> zget bins k = Ok lo -> zget bins (k + 1) = Ok hi ->
      zget out k = Ok (count (fun x => negb (lt x lo) && lt x hi) l)) /\
  (Exists (fun x => Equivalent lt x top) l -> r = UB).
Proof.
  intros HR HB HT [HS ->]. destruct (sort_spec lt O _ _ _ HR HS) as [Hs _].
  apply (Sorting_iff lt O) in Hs as [HP Hs]. apply (Sorting_iff lt O) in HB as [_ HB].
  destruct (histogram_sorted (dvalues d') bins top Hs HB HT) as [H1 H2]. split; intros H.
  - destruct H1 as (out & E & L & F); [eapply Permutation_Forall; eauto|].
    exists out. split; [exact E|]. split; [exact L|]. intros k lo hi Hk Hl Hh. rewrite (count_perm _ _ _ HP). apply F; auto.
  - apply H2. eapply Permutation_Exists; eauto.
Qed.
End Histogram.

(** Mean *)
Lemma fold_left_sum l a : fold_left Z.add l a = a + fold_right Z.add 0 l.
Proof. revert a. induction l as [|x l IH]; intros a; cbn [fold_left fold_right]; [lia|]. rewrite IH. lia. Qed.

Lemma meanInt_spec l : l <> [] -> let s := fold_right Z.add 0 l in let n := Z.of_nat (length l) in
  - 2 ^ 63 <= s < 2 ^ 63 -> n < 2 ^ 63 ->
  (0 <= s -> meanInt l = Ok (Z.quot s n)) /\ (s < 0 -> meanInt l = Ok ((2 ^ 64 + s) / n)).
Proof.
  intros Hl s n Hs Hn. assert (0 < n) by (unfold n; destruct l; [congruence|cbn [length]; lia]).
  unfold meanInt, dsum. rewrite fold_left_sum. fold s n. replace (0 + s) with s by lia.
  replace (n =? 0) with false by lia. split; intros H0.
  - unfold u64. rewrite Z.mod_small by lia. rewrite Z.quot_div_nonneg by lia. reflexivity.
  - unfold u64. rewrite <- (Z.mod_unique s (2 ^ 64) (-1) (2 ^ 64 + s)) by lia. reflexivity.
Qed.

(** For negative sums the result is right only if there are one element... never: it is always positive. *)
Lemma meanInt_negative l : let s := fold_right Z.add 0 l in
  - 2 ^ 63 <= s < 0 -> Z.of_nat (length l) < 2 ^ 63 -> exists m, meanInt l = Ok m /\ 0 < m.
Proof.
  intros s Hs Hn. assert (l <> []) by (intros ->; cbn in s; lia).
  destruct (meanInt_spec l H) as [_ E]; [fold s; lia|exact Hn|]. fold s in E.
  eexists. split; [apply E; lia|]. apply Z.div_str_pos. destruct l; [congruence|]. cbn [length] in *. lia.
Qed.

Lemma mean_refuted : exists l m, meanInt l = Ok m /\ l <> [] /\ m <> Z.quot (fold_right Z.add 0 l) (Z.of_nat (length l)).
Proof. exists [-2; -4], 9223372036854775805. split; [reflexivity|]. split; discriminate. Qed.

Lemma qsum_spec l a : (fold_left Qplus l a == a + fold_right Qplus 0 l)%Q.
Proof. revert a. induction l as [|x l IH]; intros a; cbn [fold_left fold_right]; [ring|]. rewrite IH. ring. Qed.

Lemma meanQ_spec l : l <> [] -> (meanQ l * inject_Z (Z.of_nat (length l)) == fold_right Qplus 0 l)%Q.
Proof.
  intros H. unfold meanQ, qsum. rewrite qsum_spec. field. intros C. unfold Qeq in C. cbn in C.
  destruct l; [congruence|]. cbn [length] in C. lia.
Qed.

(** Median absolute deviation *)

Lemma mad_spec o l s d d' r :
  reach qltb (distMake qltb l) d -> Sorting qltb l s -> l <> [] -> ReadBefore o ->
  madCall o d d' r ->
  Permutation l (dvalues d') /\
  exists m v, Median s m /\ r = Ok v /\ forall t, Sorting qltb (map (fun x => Qabs (x - m)) l) t -> Median t v.
Proof.
  intros HR Hs Hl Ho [d1 m d2 r' H1 H2].
  destruct (median_spec o l s d d1 (Ok m) HR Hs Hl (or_introl Ho) H1) as (HP & v & E & HM). injection E as <-.
  split; [exact HP|].
  destruct (Sorting_exists qltb qltb_swo (map (fun x => Qabs (x - m)) (dvalues d1))) as [t0 Ht0].
  assert (Hne : map (fun e => Qabs (e - m)) (dvalues d1) <> []).
  { intros C. apply map_eq_nil in C. rewrite C in HP. apply Permutation_sym, Permutation_nil in HP. congruence. }
  destruct (median_spec o _ t0 _ d2 r' (reach_here _ _) Ht0 Hne (or_introl Ho) H2) as (_ & v & -> & _).
  exists m, v. split; [exact HM|]. split; [reflexivity|]. intros t Ht.
  assert (Ht' : Sorting qltb (map (fun e => Qabs (e - m)) (dvalues d1)) t).
  { destruct Ht as [P Q]. split; [|exact Q]. eapply Permutation_trans; [|exact P].
    apply Permutation_map, Permutation_sym, HP. }
  destruct (median_spec o _ t _ d2 (Ok v) (reach_here _ _) Ht' Hne (or_introl Ho) H2) as (_ & v' & E & HM').
  injection E as <-. exact HM'.
Qed.

Lemma mad_possible o l d : reach qltb (distMake qltb l) d -> l <> [] -> ReadBefore o -> exists d' v, madCall o d d' (Ok v).
Proof.
  intros HR Hl Ho. destruct (quantile_possible l d (1 # 2) o HR Hl ltac:(discriminate) ltac:(discriminate)) as (d1 & r1 & H1).
  destruct (Sorting_exists qltb qltb_swo l) as [s Hs].
  destruct (median_spec o l s d d1 r1 HR Hs Hl (or_introl Ho) H1) as (HP & m & -> & HM).
  assert (Hne : map (fun e => Qabs (e - m)) (dvalues d1) <> []).
  { intros C. apply map_eq_nil in C. rewrite C in HP. apply Permutation_sym, Permutation_nil in HP. congruence. }
  destruct (quantile_possible _ _ (1 # 2) o (reach_here _ _) Hne ltac:(discriminate) ltac:(discriminate)) as (d2 & r2 & H2).
  destruct (Sorting_exists qltb qltb_swo (map (fun e => Qabs (e - m)) (dvalues d1))) as [t Ht].
  destruct (median_spec o _ t _ d2 r2 (reach_here _ _) Ht Hne (or_introl Ho) H2) as (_ & v & -> & _).
  exists d1, v. econstructor; [exact H1|exact H2].
Qed.

Lemma quantile_between_eq o d q d' n x y r :
  n = (q * inject_Z (Z.of_nat (length (dvalues d)) - 1))%Q -> ~ (n == inject_Z (qtrunc n))%Q -> twoNth o d (qtrunc n) d' x y ->
  (x <- x ;; y <- y ;; Ok (x * (n - inject_Z (qtrunc n)) + y * (1 - (n - inject_Z (qtrunc n))))%Q) = r -> quantileCall o d q d' r.
Proof. intros En Hn H <-. eapply quantile_between; eassumption. Qed.

(** Median absolute deviation of unsorted data when both calls come before the reads. *)
Lemma mad_unsequenced : exists l s m t d' v, Sorting qltb l s /\ Median s m /\ Sorting qltb (map (fun x => Qabs (x - m)) l) t /\
  madCall CallLeftFirst (distMake qltb l) d' (Ok v) /\ ~ Median t v.
Proof.
  exists [2; 0; 4; 3]%Q, [0; 2; 3; 4]%Q, (5 # 2)%Q, [Qabs (2 - (5 # 2)); Qabs (3 - (5 # 2)); Qabs (4 - (5 # 2)); Qabs (0 - (5 # 2))]%Q,
    (mkDist [2; 0; 3; 4]%Q false).
  eexists. split.
  { apply (Sorting_iff qltb qltb_swo). split; [|repeat constructor].
    apply (Permutation_trans (l' := [0; 2; 4; 3]%Q)); [apply perm_swap|]. do 2 apply perm_skip. apply perm_swap. }
  split; [exists 2%Q, 3%Q; repeat split|]. split.
  { apply (Sorting_iff qltb qltb_swo). split; [|repeat constructor]. cbn [map]. apply perm_skip.
    match goal with |- Permutation [?x; ?y; ?z] _ => apply (Permutation_trans (l' := [x; z; y])); [apply perm_skip, perm_swap|];
      apply (Permutation_trans (l' := [z; x; y])); [apply perm_swap|]; apply perm_skip, perm_swap end. }
  split.
  - econstructor.
    + eapply quantile_between_eq; [reflexivity|discriminate| |].
      { eapply (two_call_left _ _ _ (mkDist [0; 2; 3; 4]%Q false)); [reflexivity| |].
      * eapply nth_unsorted; [reflexivity|split; [vm_compute; discriminate|vm_compute; reflexivity]|]. split.
        -- apply (Permutation_trans (l' := [0; 2; 4; 3]%Q)); [apply perm_swap|]. do 2 apply perm_skip. apply perm_swap.
        -- apply (SortedBy_Part qltb qltb_swo). repeat constructor.
      * eapply nth_unsorted; [reflexivity|split; [vm_compute; discriminate|vm_compute; reflexivity]|]. split; [apply perm_swap|].
        intros i j x y Hi Hj Hx Hy. pose proof (zget_range _ _ _ Hy) as R. cbn in R.
        match type of Hj with ?t <= _ => change t with 2 in Hi, Hj end.
        assert (Ei : i = 0 \/ i = 1 \/ i = 2) by lia.
        assert (Ej : j = 2 \/ j = 3) by lia.
        destruct Ei as [->|[->| ->]], Ej as [->| ->]; injection Hx as <-; injection Hy as <-; reflexivity. }
      reflexivity.
    + eapply quantile_between_eq; [reflexivity|vm_compute; discriminate| |].
      { eapply two_call_left; [reflexivity| |]; apply nth_sorted; vm_compute; reflexivity. }
      reflexivity.
  - intros (x & y & Hx & Hy & E). vm_compute in Hx, Hy. injection Hx as <-. injection Hy as <-. revert E. vm_compute. discriminate.
Qed.

(** Integer data: the truncation has no effect if the median is an integer. *)
Lemma Sorting_map_eq (f g : Q -> Q) l t : Sorting qltb (map f l) t -> (forall x, In x l -> (f x == g x)%Q) ->
  exists t', Sorting qltb (map g l) t' /\ forall v, Median t' v -> Median t v.
Proof.
  intros [HP HS] E. destruct (Permutation_map_inv f l (Permutation_sym HP)) as (l' & -> & HL).
  assert (E' : forall i x, zget l' i = Ok x -> (f x == g x)%Q).
  { intros i x Hx. apply E. eapply Permutation_in; [apply Permutation_sym; exact HL|]. apply zget_ok in Hx as [_ Hx]. exact (nth_error_In _ _ Hx). }
  exists (map g l'). split; [split|].
  - apply Permutation_map, HL.
  - intros i j x y Hi Hj Hx Hy.
    rewrite zget_map in Hx, Hy. destruct (zget l' i) as [a| |] eqn:Ea; try discriminate. destruct (zget l' j) as [b| |] eqn:Eb; try discriminate.
    injection Hx as <-. injection Hy as <-.
    specialize (HS i j (f a) (f b) Hi Hj). rewrite !zget_map, Ea, Eb in HS. specialize (HS eq_refl eq_refl).
    apply qltb_false. apply qltb_false in HS. now rewrite <- (E' _ _ Ea), <- (E' _ _ Eb).
  - intros v (x & y & Hx & Hy & Ev). rewrite map_length in *. rewrite zget_map in Hx, Hy.
    destruct (zget l' ((Z.of_nat (length l') - 1) / 2)) as [a| |] eqn:Ea; try discriminate.
    destruct (zget l' (Z.of_nat (length l') / 2)) as [b| |] eqn:Eb; try discriminate.
    injection Hx as <-. injection Hy as <-. exists (f a), (f b). rewrite map_length, !zget_map, Ea, Eb. repeat split.
    rewrite (E' _ _ Ea), (E' _ _ Eb). exact Ev.
Qed.

Lemma Median_unique s v w : Median s v -> Median s w -> (v == w)%Q.
Proof.
  intros (x & y & Hx & Hy & E) (x' & y' & Hx' & Hy' & E'). rewrite Hx in Hx'. rewrite Hy in Hy'.
  injection Hx' as <-. injection Hy' as <-. now rewrite E, E'.
Qed.

(** Integer data: the truncation has no effect if the median is an integer. *)
Lemma mad_int o l s d d' r m : reach qltb (distMake qltb l) d -> Sorting qltb l s -> l <> [] -> ReadBefore o ->
  (forall x, In x l -> exists k, (x == inject_Z k)%Q) -> Median s m -> (exists k, (m == inject_Z k)%Q) ->
  madIntCall o d d' r ->
  Permutation l (dvalues d') /\
  exists v, r = Ok v /\ forall t, Sorting qltb (map (fun x => Qabs (x - m)) l) t -> Median t v.
Proof.
  intros HR Hs Hl Ho HI HM [j Hj] [d1 m1 d2 r' H1 H2].
  destruct (median_spec o l s d d1 (Ok m1) HR Hs Hl (or_introl Ho) H1) as (HP & v & E & HM1). injection E as <-.
  split; [exact HP|]. pose proof (Median_unique _ _ _ HM HM1) as Em.
  set (g := fun e => inject_Z (qtrunc (Qabs (e - m1)))) in *.
  assert (Hne : map g (dvalues d1) <> []).
  { intros C. apply map_eq_nil in C. rewrite C in HP. apply Permutation_sym, Permutation_nil in HP. congruence. }
  destruct (Sorting_exists qltb qltb_swo (map g (dvalues d1))) as [t0 Ht0].
  destruct (median_spec o _ t0 _ d2 r' (reach_here _ _) Ht0 Hne (or_introl Ho) H2) as (_ & v & -> & _).
  exists v. split; [reflexivity|]. intros t Ht.
  destruct (Sorting_map_eq (fun x => Qabs (x - m)) g l t Ht) as (t' & Ht' & HT).
  { intros x Hx. destruct (HI x Hx) as [k Hk]. unfold g.
    assert (EA : (Qabs (x - m1) == inject_Z (Z.abs (k - j)))%Q).
    { rewrite <- Em, Hk, Hj. unfold Qminus. rewrite <- inject_Z_opp, <- inject_Z_plus. reflexivity. }
    rewrite (qtrunc_inject _ _ EA) by lia. rewrite Em. exact EA. }
  apply HT.
  assert (Ht2 : Sorting qltb (map g (dvalues d1)) t').
  { destruct Ht' as [P Q]. split; [|exact Q]. eapply Permutation_trans; [|exact P]. apply Permutation_map, Permutation_sym, HP. }
  destruct (median_spec o _ t' _ d2 (Ok v) (reach_here _ _) Ht2 Hne (or_introl Ho) H2) as (_ & v' & E & HM').
  injection E as <-. exact HM'.
Qed.

Lemma mad_int_refuted : exists l s m t, Sorting qltb l s /\ (forall x, In x l -> exists k, x = inject_Z k) /\ Median s m /\
  Sorting qltb (map (fun x => Qabs (x - m)) l) t /\
  forall o d' r, madIntCall o (distMake qltb l) d' r -> exists v, r = Ok v /\ ~ Median t v.
Proof.
  exists [inject_Z 0; inject_Z 1], [inject_Z 0; inject_Z 1], (1 # 2)%Q, [Qabs (inject_Z 0 - (1 # 2)); Qabs (inject_Z 1 - (1 # 2))].
  assert (HS : Sorting qltb [inject_Z 0; inject_Z 1] [inject_Z 0; inject_Z 1]).
  { apply (Sorting_iff qltb qltb_swo). split; [reflexivity|repeat constructor]. }
  split; [exact HS|]. split; [intros x [<-|[<-|[]]]; eauto|].
  assert (HM : Median [inject_Z 0; inject_Z 1] (1 # 2)%Q) by (exists (inject_Z 0), (inject_Z 1); repeat split).
  split; [exact HM|]. split; [apply (Sorting_iff qltb qltb_swo); split; [reflexivity|repeat constructor]|].
  intros o d' r [d1 m1 d2 r' H1 H2].
  destruct (median_spec o _ _ _ d1 (Ok m1) (reach_here _ _) HS ltac:(discriminate) (or_intror eq_refl) H1) as (HP & v & E & HM1).
  injection E as <-. pose proof (Median_unique _ _ _ HM HM1) as Em.
  assert (EZ : forall x, In x (dvalues d1) -> qtrunc (Qabs (x - m1)) = 0).
  { intros x Hx. apply (Permutation_in _ (Permutation_sym HP)) in Hx.
    assert (EA : (Qabs (x - m1) == 1 # 2)%Q) by (rewrite <- Em; destruct Hx as [<-|[<-|[]]]; reflexivity).
    destruct (qtrunc_bounds (Qabs (x - m1)) (Qabs_nonneg _)) as (B1 & B2 & B3). apply (Qle_trans _ _ (1 # 2)) in B1; [|rewrite EA; apply Qle_refl].
    destruct (Z.eq_dec (qtrunc (Qabs (x - m1))) 0) as [|N]; [assumption|].
    exfalso. revert B1 B3 N. generalize (qtrunc (Qabs (x - m1))). intros z B1 B3 N. unfold inject_Z, Qle in B1. cbn [Qnum Qden] in B1. lia. }
  assert (EL : map (fun e => inject_Z (qtrunc (Qabs (e - m1)))) (dvalues d1) = [inject_Z 0; inject_Z 0]).
  { pose proof (Permutation_length HP) as L. destruct (dvalues d1) as [|a [|b [|c l]]]; try discriminate. cbn [map].
    rewrite (EZ a), (EZ b) by (cbn; auto). reflexivity. }
  rewrite EL in H2.
  assert (HZ : Sorting qltb [inject_Z 0; inject_Z 0] [inject_Z 0; inject_Z 0]).
  { apply (Sorting_iff qltb qltb_swo). split; [reflexivity|repeat constructor]. }
  destruct (median_spec o _ _ _ d2 r' (reach_here _ _) HZ ltac:(discriminate) (or_intror eq_refl) H2) as (_ & v & -> & HV).
  exists v. split; [reflexivity|]. intros (x & y & Hx & Hy & Ev). destruct HV as (x' & y' & Hx' & Hy' & Ev').
  injection Hx as <-. injection Hy as <-. injection Hx' as <-. injection Hy' as <-. rewrite Ev in Ev'. discriminate Ev'.
Qed.

Lemma Zltb_swo : StrictWeakOrder Z.ltb.
Proof. split; intros; lia. Qed.

Lemma histogram_refuted : exists l bins,
  Sorting Z.ltb bins bins /\ histogramCall Z.ltb (distMake Z.ltb l) bins (distMake Z.ltb l) UB.
Proof.
  exists [1; 2], [0; 2]. split; [apply (Sorting_iff _ Zltb_swo); split; [reflexivity|repeat constructor]|].
  split; [apply sort_sorted; reflexivity|reflexivity].
Qed.
