(** Minimum, maximum, text output, linspace, floor, vectors. *)
From Coq Require Import Ascii String.
From Verif Require Import Res VecModel RasterModel ContainerModel ArithModel TypesModel ContainerSpec Spec Lemmas.
Open Scope list_scope.

Section MinMax.
Context {A : Type} (lt : A -> A -> bool) (O : StrictWeakOrder lt).

Definition IsFirstMin (l : list A) (k : Z) (v : A) : Prop :=
  zget l k = Ok v /\ (forall j x, zget l j = Ok x -> lt x v = false) /\
  (forall j x, zget l j = Ok x -> j < k -> lt v x = true).

Lemma zget_snoc (l : list A) y j x :
  zget (l ++ [y]) j = Ok x -> zget l j = Ok x \/ (j = Z.of_nat (length l) /\ x = y).
Proof.
  intros H. destruct (Z_lt_dec j (Z.of_nat (length l))).
  - left. rewrite zget_app_l in H by lia. exact H.
  - right. pose proof (zget_range _ _ _ H) as R. rewrite app_length in R. cbn [length] in R.
    assert (j = Z.of_nat (length l)) by lia. subst j. rewrite zget_app_r in H by lia. rewrite Z.sub_diag in H.
    rewrite zget_cons_0 in H. split; congruence.
Qed.

Lemma zget_snoc_eq (l : list A) y : zget (l ++ [y]) (Z.of_nat (length l)) = Ok y.
Proof. rewrite zget_app_r by lia. rewrite Z.sub_diag. reflexivity. Qed.

Lemma zget_snoc_old (l : list A) y j x : zget l j = Ok x -> zget (l ++ [y]) j = Ok x.
Proof. intros H. pose proof (zget_range _ _ _ H). rewrite zget_app_l by lia. exact H. Qed.

Lemma lt_asym x y : lt x y = true -> lt y x = false.
Proof.
  intros H. destruct (lt y x) eqn:E; [|reflexivity]. pose proof (swo_trans _ O _ _ _ H E) as C.
  rewrite (swo_irrefl _ O) in C. discriminate.
Qed.

(** x < v and v <= y give x < y. *)
Lemma lt_le_trans x v y : lt x v = true -> lt y v = false -> lt x y = true.
Proof.
  intros H H'. destruct (lt x y) eqn:E; [reflexivity|]. pose proof (swo_neg_trans _ O _ _ _ E H') as C. congruence.
Qed.
Lemma le_lt_trans x v y : lt v x = false -> lt v y = true -> lt x y = true.
Proof.
  intros H H'. destruct (lt x y) eqn:E; [reflexivity|]. pose proof (swo_neg_trans _ O _ _ _ H E) as C. congruence.
Qed.

Lemma minLoop_spec l : forall pre k v,
  IsFirstMin pre k v ->
  exists k' v', minLoop lt l (Z.of_nat (length pre)) k v = (k', v') /\ IsFirstMin (pre ++ l) k' v'.
Proof.
  induction l as [|x l IH]; intros pre k v (H1 & H2 & H3).
  - exists k, v. rewrite app_nil_r. cbn [minLoop]. repeat split; auto.
  - cbn [minLoop]. replace (pre ++ x :: l) with ((pre ++ [x]) ++ l) by (rewrite <- app_assoc; reflexivity).
    replace (Z.of_nat (length pre) + 1) with (Z.of_nat (length (pre ++ [x]))) by (rewrite app_length; cbn; lia).
    destruct (lt x v) eqn:E; apply IH.
    + split; [apply zget_snoc_eq|]. split.
      * intros j y Hy. apply zget_snoc in Hy as [Hy|[_ ->]]; [|apply (swo_irrefl _ O)].
        apply lt_asym. eapply lt_le_trans; eauto.
      * intros j y Hy Hj. apply zget_snoc in Hy as [Hy|[-> _]]; [|lia]. eapply lt_le_trans; eauto.
    + split; [apply zget_snoc_old, H1|]. split.
      * intros j y Hy. apply zget_snoc in Hy as [Hy|[_ ->]]; eauto.
      * intros j y Hy Hj. pose proof (zget_range _ _ _ H1). apply zget_snoc in Hy as [Hy|[-> _]]; [eauto|lia].
Qed.

Lemma cmin_spec l : l <> [] ->
  exists k v, cmin lt l = Ok (k, v) /\ zget l k = Ok v /\
    (forall j x, zget l j = Ok x -> lt x v = false) /\ (forall j x, zget l j = Ok x -> j < k -> lt v x = true).
Proof.
  intros Hl. destruct l as [|x l]; [congruence|]. cbn [cmin].
  destruct (minLoop_spec l [x] 0 x) as (k & v & E & P).
  - split; [reflexivity|]. split; intros j y Hy.
    + pose proof (zget_range _ _ _ Hy) as R. cbn in R. assert (j = 0) by lia. subst j. injection Hy as <-.
      apply (swo_irrefl _ O).
    + intros Hj. pose proof (zget_range _ _ _ Hy). lia.
  - exists k, v. rewrite <- E. split; [reflexivity|]. exact P.
Qed.

Definition IsFirstMax (l : list A) (k : Z) (v : A) : Prop :=
  zget l k = Ok v /\ (forall j x, zget l j = Ok x -> lt v x = false) /\
  (forall j x, zget l j = Ok x -> j < k -> lt x v = true).

Lemma maxLoop_spec l : forall pre k v,
  IsFirstMax pre k v ->
  exists k' v', maxLoop lt l (Z.of_nat (length pre)) k v = (k', v') /\ IsFirstMax (pre ++ l) k' v'.
Proof.
  induction l as [|x l IH]; intros pre k v (H1 & H2 & H3).
  - exists k, v. rewrite app_nil_r. cbn [maxLoop]. repeat split; auto.
  - cbn [maxLoop]. replace (pre ++ x :: l) with ((pre ++ [x]) ++ l) by (rewrite <- app_assoc; reflexivity).
    replace (Z.of_nat (length pre) + 1) with (Z.of_nat (length (pre ++ [x]))) by (rewrite app_length; cbn; lia).
    destruct (lt v x) eqn:E; apply IH.
    + split; [apply zget_snoc_eq|]. split.
      * intros j y Hy. apply zget_snoc in Hy as [Hy|[_ ->]]; [|apply (swo_irrefl _ O)].
        apply lt_asym. eapply le_lt_trans; eauto.
      * intros j y Hy Hj. apply zget_snoc in Hy as [Hy|[-> _]]; [|lia]. eapply le_lt_trans; eauto.
    + split; [apply zget_snoc_old, H1|]. split.
      * intros j y Hy. apply zget_snoc in Hy as [Hy|[_ ->]]; eauto.
      * intros j y Hy Hj. pose proof (zget_range _ _ _ H1). apply zget_snoc in Hy as [Hy|[-> _]]; [eauto|lia].
Qed.

Lemma IsFirst_one x : IsFirstMax [x] 0 x.
Proof.
  split; [reflexivity|]. split; intros j y Hy.
  - pose proof (zget_range _ _ _ Hy) as R. cbn in R. assert (j = 0) by lia. subst j. injection Hy as <-.
    apply (swo_irrefl _ O).
  - intros Hj. pose proof (zget_range _ _ _ Hy). lia.
Qed.

Lemma cmax_spec l : l <> [] ->
  exists k v, cmax lt l = Ok (k, v) /\ zget l k = Ok v /\
    (forall j x, zget l j = Ok x -> lt v x = false) /\ (forall j x, zget l j = Ok x -> j < k -> lt x v = true).
Proof.
  intros Hl. destruct l as [|x l]; [congruence|]. cbn [cmax].
  destruct (maxLoop_spec l [x] 0 x (IsFirst_one x)) as (k & v & E & P).
  exists k, v. rewrite <- E. split; [reflexivity|]. exact P.
Qed.

Definition IsLastMax (l : list A) (k : Z) (v : A) : Prop :=
  zget l k = Ok v /\ (forall j x, zget l j = Ok x -> lt v x = false) /\
  (forall j x, zget l j = Ok x -> k < j -> lt x v = true).

Lemma minmaxLoop_spec l : forall pre mn mx,
  IsFirstMin pre (fst mn) (snd mn) -> IsLastMax pre (fst mx) (snd mx) ->
  exists mn' mx', minmaxLoop lt l (Z.of_nat (length pre)) mn mx = (mn', mx') /\
    IsFirstMin (pre ++ l) (fst mn') (snd mn') /\ IsLastMax (pre ++ l) (fst mx') (snd mx').
Proof.
  induction l as [|x l IH]; intros pre mn mx (H1 & H2 & H3) (G1 & G2 & G3).
  - exists mn, mx. rewrite app_nil_r. cbn [minmaxLoop]. split; [reflexivity|]. split; (split; [|split]); auto.
  - cbn [minmaxLoop]. replace (pre ++ x :: l) with ((pre ++ [x]) ++ l) by (rewrite <- app_assoc; reflexivity).
    replace (Z.of_nat (length pre) + 1) with (Z.of_nat (length (pre ++ [x]))) by (rewrite app_length; cbn; lia).
    apply IH.
    + destruct (lt x (snd mn)) eqn:E; cbn [fst snd].
      * split; [apply zget_snoc_eq|]. split.
        -- intros j y Hy. apply zget_snoc in Hy as [Hy|[_ ->]]; [|apply (swo_irrefl _ O)].
           apply lt_asym. eapply lt_le_trans; eauto.
        -- intros j y Hy Hj. apply zget_snoc in Hy as [Hy|[-> _]]; [|lia]. eapply lt_le_trans; eauto.
      * split; [apply zget_snoc_old, H1|]. split.
        -- intros j y Hy. apply zget_snoc in Hy as [Hy|[_ ->]]; eauto.
        -- intros j y Hy Hj. pose proof (zget_range _ _ _ H1). apply zget_snoc in Hy as [Hy|[-> _]]; [eauto|lia].
    + destruct (lt x (snd mx)) eqn:E; cbn [fst snd].
      * split; [apply zget_snoc_old, G1|]. split.
        -- intros j y Hy. apply zget_snoc in Hy as [Hy|[_ ->]]; eauto using lt_asym.
        -- intros j y Hy Hj. apply zget_snoc in Hy as [Hy|[-> ->]]; eauto.
      * split; [apply zget_snoc_eq|]. split.
        -- intros j y Hy. apply zget_snoc in Hy as [Hy|[_ ->]]; [|apply (swo_irrefl _ O)].
           eapply (swo_neg_trans _ O); eauto.
        -- intros j y Hy Hj. pose proof (zget_range _ _ _ Hy) as R. rewrite app_length in R. cbn in R. lia.
Qed.

Lemma cminmax_spec l : l <> [] ->
  exists kmin vmin kmax vmax, cminmax lt l = Ok ((kmin, vmin), (kmax, vmax)) /\
    cmin lt l = Ok (kmin, vmin) /\ zget l kmax = Ok vmax /\
    (forall j x, zget l j = Ok x -> lt vmax x = false) /\ (forall j x, zget l j = Ok x -> kmax < j -> lt x vmax = true).
Proof.
  intros Hl. destruct l as [|x l]; [congruence|].
  destruct (minLoop_spec l [x] 0 x) as (k & v & E & P).
  { split; [reflexivity|]. split; intros j y Hy.
    - pose proof (zget_range _ _ _ Hy) as R. cbn in R. assert (j = 0) by lia. subst j. injection Hy as <-.
      apply (swo_irrefl _ O).
    - intros Hj. pose proof (zget_range _ _ _ Hy). lia. }
  destruct (minmaxLoop_spec l [x] (0, x) (0, x)) as ([k1 v1] & [k2 v2] & E' & P1 & P2).
  { split; [reflexivity|]. split; intros j y Hy.
    - pose proof (zget_range _ _ _ Hy) as R. cbn in R. assert (j = 0) by lia. subst j. injection Hy as <-.
      apply (swo_irrefl _ O).
    - intros Hj. pose proof (zget_range _ _ _ Hy). cbn in *. lia. }
  { split; [reflexivity|]. split; intros j y Hy; pose proof (zget_range _ _ _ Hy) as R; cbn in *; [|lia].
    assert (j = 0) by lia. subst j. injection Hy as <-. apply (swo_irrefl _ O). }
  cbn [fst snd] in *. exists k1, v1, k2, v2. cbn [cminmax cmin]. cbn [length] in E, E'. cbn in E, E'.
  assert (HK : k = k1).
  { destruct P as (A1 & A2 & A3), P1 as (B1 & B2 & B3).
    destruct (Z_lt_dec k k1) as [L|L].
    - pose proof (B3 _ _ A1 L) as C. rewrite (A2 _ _ B1) in C. discriminate.
    - destruct (Z_lt_dec k1 k) as [L'|L']; [|lia].
      pose proof (A3 _ _ B1 L') as C. rewrite (B2 _ _ A1) in C. discriminate. }
  assert (HV : v = v1). { destruct P as (A1 & _), P1 as (B1 & _). subst k1. congruence. }
  subst k1 v1. cbn [Z.of_nat] in *. split; [f_equal; exact E'|]. split; [f_equal; exact E|]. exact P2.
Qed.
End MinMax.

(** Text output *)
Lemma skipn_skipn {A} a b (l : list A) : skipn a (skipn b l) = skipn (a + b) l.
Proof.
  revert l. induction b as [|b IH]; intros l; [rewrite Nat.add_0_r; reflexivity|].
  destruct l as [|x l]; [rewrite !skipn_nil; reflexivity|]. rewrite Nat.add_succ_r. cbn [skipn]. apply IH.
Qed.

Section Print.
Context {A : Type} (pr : A -> list ascii).

Lemma printLoop_spec n (l : list A) i :
  0 <= i -> i + Z.of_nat n <= Z.of_nat (length l) ->
  printLoop pr n l i = Ok (concat (map (fun x => lit ", " ++ pr x) (firstn n (skipn (Z.to_nat i) l)))).
Proof.
  revert i. induction n as [|n IH]; intros i Hi Hn; [reflexivity|].
  cbn [printLoop]. destruct (zget_in_range l i) as [x Hx]; [lia|]. rewrite Hx. cbn [bind]. rewrite IH by lia. cbn [bind].
  f_equal. apply zget_ok in Hx as [_ Hx]. apply nth_error_split in Hx as (l1 & l2 & -> & L).
  replace (Z.to_nat (i + 1)) with (S (Z.to_nat i)) by lia. rewrite <- L.
  assert (S1 : skipn (length l1) (l1 ++ x :: l2) = x :: l2) by (rewrite skipn_app, skipn_all, Nat.sub_diag; reflexivity).
  assert (S2 : skipn (S (length l1)) (l1 ++ x :: l2) = l2).
  { replace (S (length l1)) with (1 + length l1)%nat by lia. rewrite <- skipn_skipn, S1. reflexivity. }
  rewrite S1, S2. cbn [firstn map concat]. rewrite <- app_assoc. reflexivity.
Qed.

Lemma join_cons sep x (l : list (list ascii)) : join sep (x :: l) = x ++ concat (map (fun y => sep ++ y) l).
Proof.
  revert x. induction l as [|y l IH]; intros x; [cbn; rewrite app_nil_r; reflexivity|].
  change (join sep (x :: y :: l)) with (x ++ sep ++ join sep (y :: l)). rewrite IH. cbn [map concat].
  rewrite <- !app_assoc. reflexivity.
Qed.

Lemma join_map sep x (l : list A) :
  join sep (map pr (x :: l)) = pr x ++ concat (map (fun x => sep ++ pr x) l).
Proof. cbn [map]. rewrite join_cons, map_map. reflexivity. Qed.

Lemma cprint_short (l : list A) :
  (length l <= 7)%nat -> cprint pr l = Ok (lit "[" ++ join (lit ", ") (map pr l) ++ lit "]").
Proof.
  intros H. unfold cprint. destruct l as [|x l]; [reflexivity|].
  replace (Z.of_nat (length (x :: l)) =? 0) with false by (cbn [length]; lia).
  rewrite zget_cons_0. cbn [bind]. replace (7 <? Z.of_nat (length (x :: l))) with false by lia.
  rewrite printLoop_spec by (cbn [length]; lia). cbn [bind].
  replace (Z.to_nat (Z.of_nat (length (x :: l)) - 1)) with (length l) by (cbn [length]; lia).
  change (Z.to_nat 1) with 1%nat. cbn [skipn]. rewrite firstn_all, join_map, <- app_assoc. reflexivity.
Qed.

Lemma cprint_long (l : list A) :
  (7 < length l)%nat ->
  cprint pr l = Ok (lit "[" ++ join (lit ", ") (map pr (firstn 3 l)) ++ lit " ... " ++
                    join (lit ", ") (map pr (skipn (length l - 3) l)) ++ lit "]").
Proof.
  intros H. unfold cprint. replace (Z.of_nat (length l) =? 0) with false by lia.
  replace (7 <? Z.of_nat (length l)) with true by lia.
  destruct (zget_in_range l (Z.of_nat (length l) - 3)) as [y Hy]; [lia|].
  rewrite Hy.
  replace (Z.to_nat (3 - 1)) with 2%nat by lia.
  replace (Z.to_nat (Z.of_nat (length l) - (Z.of_nat (length l) - 2))) with 2%nat by lia.
  rewrite !printLoop_spec by lia.
  apply zget_ok in Hy as [_ Hy]. apply nth_error_split in Hy as (l1 & l2 & El & L).
  assert (E3 : skipn (length l - 3) l = y :: l2).
  { replace (length l - 3)%nat with (length l1) by lia. rewrite El, skipn_app, skipn_all, Nat.sub_diag. reflexivity. }
  assert (L2 : length l2 = 2%nat).
  { apply (f_equal (@length A)) in E3. rewrite skipn_length in E3. cbn in E3. lia. }
  assert (E2 : firstn 2 (skipn (Z.to_nat (Z.of_nat (length l) - 2)) l) = l2).
  { replace (Z.to_nat (Z.of_nat (length l) - 2)) with (1 + (length l - 3))%nat by lia.
    rewrite <- (skipn_skipn 1), E3. cbn [skipn]. rewrite firstn_all2 by lia. reflexivity. }
  rewrite E2, E3. destruct l as [|x l']; [cbn in H; lia|]. rewrite zget_cons_0. cbn [bind].
  rewrite join_map. change (firstn 3 (x :: l')) with (x :: firstn 2 l'). rewrite join_map.
  change (skipn (Z.to_nat 1) (x :: l')) with l'. rewrite <- !app_assoc. reflexivity.
Qed.

Definition noComma (t : list ascii) : Prop := ~ In ","%char t.

Lemma split_comma t u r s :
  noComma t -> noComma u -> t ++ ","%char :: r = u ++ ","%char :: s -> t = u /\ r = s.
Proof.
  revert u. induction t as [|c t IH]; intros [|d u] Ht Hu E; cbn [app] in E.
  - injection E as ->. auto.
  - injection E as <- _. exfalso. apply Hu. left. reflexivity.
  - injection E as -> _. exfalso. apply Ht. left. reflexivity.
  - injection E as -> E. destruct (IH u) as [-> ->]; auto.
    + intros C. apply Ht. right. exact C.
    + intros C. apply Hu. right. exact C.
Qed.

Lemma no_split_comma t u r : noComma t -> t <> u ++ ","%char :: r.
Proof. intros Ht ->. apply Ht. apply in_or_app. right. left. reflexivity. Qed.

Lemma join_inj (ts us : list (list ascii)) :
  Forall (fun t => t <> [] /\ noComma t) ts -> Forall (fun t => t <> [] /\ noComma t) us ->
  join (lit ", ") ts = join (lit ", ") us -> ts = us.
Proof.
  revert us. induction ts as [|t ts IH]; intros us Ht Hu E.
  - destruct us as [|u [|u' us]]; [reflexivity| |]; inversion Hu as [|? ? [Hn _]]; subst; cbn in E.
    + congruence.
    + destruct u; [congruence|discriminate].
  - inversion Ht as [|? ? [Hn Hc] Ht']; subst. destruct us as [|u us].
    { destruct ts; cbn in E; [congruence|]. destruct t; [congruence|discriminate]. }
    inversion Hu as [|? ? [Hn' Hc'] Hu']; subst.
    destruct ts as [|t' ts], us as [|u' us].
    + cbn in E. congruence.
    + exfalso. revert E. change (t <> u ++ ","%char :: " "%char :: join (lit ", ") (u' :: us)). apply no_split_comma, Hc.
    + exfalso. symmetry in E. revert E. change (u <> t ++ ","%char :: " "%char :: join (lit ", ") (t' :: ts)). apply no_split_comma, Hc'.
    + change (t ++ ","%char :: " "%char :: join (lit ", ") (t' :: ts) = u ++ ","%char :: " "%char :: join (lit ", ") (u' :: us)) in E.
      apply split_comma in E as [-> E]; auto. injection E as E. f_equal. apply IH; auto.
Qed.

Lemma cprint_inj (l r : list A) :
  (length l <= 7)%nat -> (length r <= 7)%nat -> (forall x, pr x <> [] /\ ~ In ","%char (pr x)) ->
  cprint pr l = cprint pr r -> map pr l = map pr r.
Proof.
  intros Hl Hr Hp E. rewrite !cprint_short in E by assumption. injection E as E.
  apply app_inv_tail in E. apply join_inj; [| |exact E]; apply Forall_map, Forall_forall; intros; apply Hp.
Qed.

Lemma serialize_spec t ts : serialize t ts = join (lit ", ") (t :: ts).
Proof.
  unfold serialize. rewrite join_cons. f_equal. induction ts as [|u ts IH]; [reflexivity|].
  cbn [serializeRest map concat]. rewrite IH, <- app_assoc. reflexivity.
Qed.
End Print.

(** Linspace *)
Lemma linspaceLoop_length n i mn st : length (linspaceLoop n i mn st) = n.
Proof. revert i. induction n; intros; cbn [linspaceLoop length]; congruence. Qed.

Lemma linspaceLoop_get n j mn st i : 0 <= i < Z.of_nat n ->
  zget (linspaceLoop n j mn st) i = Ok (mn + st * inject_Z (j + i))%Q.
Proof.
  revert j i. induction n as [|n IH]; intros j i Hi; [lia|]. cbn [linspaceLoop].
  destruct (Z.eq_dec i 0) as [->|Hne].
  - rewrite zget_cons_0, Z.add_0_r. reflexivity.
  - rewrite zget_cons_S by lia. rewrite IH by lia. do 4 f_equal. lia.
Qed.

Lemma linspaceQ_spec (n : nat) (mn mx : Q) :
  (2 <= n)%nat ->
  exists l, linspaceQ n mn mx = Ok l /\ length l = n /\ zget l (Z.of_nat n - 1) = Ok mx /\
    (exists x, zget l 0 = Ok x /\ (x == mn)%Q) /\
    forall i, 0 <= i < Z.of_nat n -> exists x, zget l i = Ok x /\
      (x == mn + (mx - mn) * inject_Z i / inject_Z (Z.of_nat n - 1))%Q.
Proof.
  intros Hn. destruct n as [|k]; [lia|]. cbn [linspaceQ].
  set (st := ((mx - mn) / inject_Z (Z.of_nat k))%Q).
  assert (Hk : ~ (inject_Z (Z.of_nat k) == 0)%Q).
  { intros C. unfold Qeq in C. cbn in C. lia. }
  eexists. split; [reflexivity|]. split; [rewrite app_length, linspaceLoop_length; cbn; lia|].
  assert (HL : zget (linspaceLoop k 0 mn st ++ [mx]) (Z.of_nat (S k) - 1) = Ok mx).
  { rewrite zget_app_r by (rewrite linspaceLoop_length; lia). rewrite linspaceLoop_length.
    replace (Z.of_nat (S k) - 1 - Z.of_nat k) with 0 by lia. reflexivity. }
  split; [exact HL|].
  replace (Z.of_nat (S k) - 1) with (Z.of_nat k) in * by lia.
  assert (HI : forall i, 0 <= i < Z.of_nat k -> zget (linspaceLoop k 0 mn st ++ [mx]) i = Ok (mn + st * inject_Z i)%Q).
  { intros i Hi. rewrite zget_app_l by (rewrite linspaceLoop_length; lia). rewrite linspaceLoop_get by lia. reflexivity. }
  split.
  - exists (mn + st * inject_Z 0)%Q. split; [apply HI; lia|]. change (inject_Z 0) with 0%Q. ring.
  - intros i Hi. destruct (Z.eq_dec i (Z.of_nat k)) as [->|Hne].
    + exists mx. split; [exact HL|]. field. exact Hk.
    + exists (mn + st * inject_Z i)%Q. split; [apply HI; lia|]. unfold st. field. exact Hk.
Qed.

Lemma linspaceIntLoop_length n i st mn : length (linspaceIntLoop n i st mn) = n.
Proof. revert i. induction n; intros; cbn [linspaceIntLoop length]; congruence. Qed.

Lemma linspaceIntLoop_get n j st mn i : 0 <= i < Z.of_nat n ->
  zget (linspaceIntLoop n j st mn) i = Ok (s64 (u64 (mn + u64 (st * (j + i))))).
Proof.
  revert j i. induction n as [|n IH]; intros j i Hi; [lia|]. cbn [linspaceIntLoop].
  destruct (Z.eq_dec i 0) as [->|Hne].
  - rewrite zget_cons_0, Z.add_0_r. reflexivity.
  - rewrite zget_cons_S by lia. rewrite IH by lia. replace (j + 1 + (i - 1)) with (j + i) by lia. reflexivity.
Qed.

Lemma s64_wrap z : - 2 ^ 63 <= z < 2 ^ 63 -> s64 (u64 z) = z.
Proof.
  intros H. unfold s64, u64. rewrite Zmod_mod. destruct (Z_lt_dec z 0) as [L|L].
  - rewrite <- (Z.mod_unique z (2 ^ 64) (-1) (z + 2 ^ 64)) by lia. replace (z + 2 ^ 64 <? 2 ^ 63) with false by lia. lia.
  - rewrite Z.mod_small by lia. replace (z <? 2 ^ 63) with true by lia. reflexivity.
Qed.

Lemma u64_add_r x y : u64 (x + u64 y) = u64 (x + y).
Proof. unfold u64. apply Zplus_mod_idemp_r. Qed.

(** Integers, min <= max. *)
Lemma linspaceInt_ascending (n : nat) mn mx :
  (2 <= n)%nat -> - 2 ^ 63 <= mn -> mn <= mx -> mx < 2 ^ 63 -> mx - mn < 2 ^ 63 ->
  exists l, linspaceInt n mn mx = Ok l /\ length l = n /\ zget l 0 = Ok mn /\ zget l (Z.of_nat n - 1) = Ok mx /\
    forall i, 0 <= i < Z.of_nat n - 1 -> zget l i = Ok (mn + i * ((mx - mn) / (Z.of_nat n - 1))).
Proof.
  intros Hn H0 H1 H2 H3. destruct n as [|[|k]]; [lia|lia|]. set (m := S k). cbn [linspaceInt]. fold m.
  replace (Z.of_nat (S m) - 1) with (Z.of_nat m) by lia.
  assert (HU : u64 (mx - mn) = mx - mn) by (unfold u64; apply Z.mod_small; lia).
  rewrite HU. set (st := (mx - mn) / Z.of_nat m).
  assert (HM : 0 < Z.of_nat m) by lia.
  assert (HS : 0 <= st /\ st * Z.of_nat m <= mx - mn).
  { split; [apply Z.div_pos; lia|]. rewrite Z.mul_comm. apply Z.mul_div_le. lia. }
  eexists. split; [reflexivity|]. split; [rewrite app_length, linspaceIntLoop_length; cbn; lia|].
  assert (HI : forall i, 0 <= i < Z.of_nat m ->
    zget (linspaceIntLoop m 0 st mn ++ [mx]) i = Ok (mn + i * st)).
  { intros i Hi. rewrite zget_app_l by (rewrite linspaceIntLoop_length; lia). rewrite linspaceIntLoop_get by lia.
    rewrite u64_add_r. rewrite s64_wrap; [f_equal; lia|]. replace (0 + i) with i by lia. nia. }
  split; [rewrite HI by lia; f_equal; lia|]. split.
  - rewrite zget_app_r by (rewrite linspaceIntLoop_length; lia). rewrite linspaceIntLoop_length, Z.sub_diag. reflexivity.
  - exact HI.
Qed.

(** floor *)
Lemma qtrunc_nonneg x : (0 <= x)%Q -> qtrunc x = Qfloor x.
Proof.
  intros H. unfold qtrunc, Qfloor. destruct x as [n d]. cbn [Qnum Qden]. unfold Qle in H. cbn in H.
  apply Z.quot_div_nonneg; lia.
Qed.

Lemma qltb_spec x y : qltb x y = true <-> (x < y)%Q.
Proof.
  unfold qltb. rewrite negb_true_iff. destruct (Qle_bool y x) eqn:E.
  - apply Qle_bool_iff in E. split; [discriminate|]. intros H. exfalso. apply (Qlt_irrefl x).
    eapply Qlt_le_trans; eauto.
  - split; [intros _|reflexivity]. apply Qnot_le_lt. intros H. apply Qle_bool_iff in H. congruence.
Qed.

Lemma qltb_false x y : qltb x y = false <-> (y <= x)%Q.
Proof.
  unfold qltb. rewrite negb_false_iff. apply Qle_bool_iff.
Qed.

Lemma qtrunc_neg x : (x < 0)%Q -> qtrunc x = - Qfloor (- x).
Proof.
  intros H. unfold qtrunc, Qfloor. destruct x as [n d]. cbn [Qnum Qden Qopp]. unfold Qlt in H. cbn in H.
  replace n with (- (- n)) at 1 by lia. rewrite Z.quot_opp_l by lia. f_equal. apply Z.quot_div_nonneg; lia.
Qed.

Lemma floorM_nonneg x : (0 <= x)%Q -> floorM x = Qfloor x.
Proof.
  intros H. unfold floorM. replace (qltb x 0) with false by (symmetry; apply qltb_false; exact H).
  rewrite qtrunc_nonneg by exact H. lia.
Qed.

Lemma Qfloor_unique x z : (inject_Z z <= x)%Q -> (x < inject_Z (z + 1))%Q -> Qfloor x = z.
Proof.
  intros H1 H2. pose proof (Qfloor_le x). pose proof (Qlt_floor x).
  assert (inject_Z z < inject_Z (Qfloor x + 1))%Q by (eapply Qle_lt_trans; eauto).
  assert (inject_Z (Qfloor x) < inject_Z (z + 1))%Q by (eapply Qle_lt_trans; eauto).
  rewrite <- Zlt_Qlt in *. lia.
Qed.

Lemma floorM_neg x : (x < 0)%Q -> floorM x = if Qeq_bool x (inject_Z (Qfloor x)) then Qfloor x - 1 else Qfloor x.
Proof.
  intros H. unfold floorM. replace (qltb x 0) with true by (symmetry; apply qltb_spec; exact H).
  rewrite qtrunc_neg by exact H. destruct (Qeq_bool x (inject_Z (Qfloor x))) eqn:E.
  - apply Qeq_bool_iff in E. rewrite E at 1. rewrite <- inject_Z_opp. rewrite Qfloor_Z. lia.
  - apply Qeq_bool_neq in E. f_equal.
    assert (Qfloor (- x) = - Qfloor x - 1); [|lia]. pose proof (Qfloor_le x). pose proof (Qlt_floor x) as L.
    apply Qfloor_unique.
    + replace (- Qfloor x - 1) with (- (Qfloor x + 1)) by lia. rewrite inject_Z_opp.
      apply Qopp_le_compat, Qlt_le_weak. exact L.
    + replace (- Qfloor x - 1 + 1) with (- Qfloor x) by lia. rewrite inject_Z_opp. 
      destruct (Qle_lt_or_eq _ _ H0) as [C|C]; [|exfalso; apply E; symmetry; exact C].
      apply Qopp_lt_compat. exact C.
Qed.

(** Vectors *)
Lemma vall_spec x u : vall x u = true <-> Forall (fun y => y = x) u.
Proof.
  induction u as [|y u IH]; cbn [vall]; [split; [constructor|reflexivity]|].
  destruct (negb (y =? x)) eqn:E.
  - split; [discriminate|]. intros H. inversion H; subst. lia.
  - rewrite IH. split; [intros; constructor; [lia|assumption]|]. intros H. inversion H. assumption.
Qed.

Lemma vall_repeat x n : vall x (repeat x n) = true.
Proof. apply vall_spec, Forall_forall. intros y Hy. eapply repeat_spec; eauto. Qed.

Lemma vall_iff x u : vall x u = true <-> u = repeat x (length u).
Proof.
  rewrite vall_spec. induction u as [|y u IH]; cbn; [split; [reflexivity|constructor]|]. split; intros H.
  - inversion H; subst. f_equal. apply IH. assumption.
  - injection H as -> H. constructor; [reflexivity|]. apply IH, H.
Qed.

Lemma copy_n_spec {A} (src : list A) n dst :
  (n <= length src)%nat -> (n <= length dst)%nat -> copy_n src n dst = Ok (firstn n src ++ skipn n dst).
Proof.
  revert src dst. induction n as [|n IH]; intros [|x src] [|y dst] H1 H2; cbn in H1, H2; try lia; try reflexivity.
  cbn [copy_n firstn skipn app]. rewrite IH by lia. reflexivity.
Qed.

Lemma copy_n_short {A} (src : list A) n dst :
  (length src < n)%nat \/ (length dst < n)%nat -> copy_n src n dst = UB.
Proof.
  revert src dst. induction n as [|n IH]; intros [|x src] [|y dst] H; cbn in H; try lia; try reflexivity.
  cbn [copy_n]. rewrite IH by lia. reflexivity.
Qed.

Lemma vslice_spec m u : (m <= length u)%nat -> vslice m u = Ok (firstn m u).
Proof.
  intros H. unfold vslice. rewrite copy_n_spec; [|assumption|rewrite repeat_length; lia].
  rewrite skipn_all2 by (rewrite repeat_length; lia). rewrite app_nil_r. reflexivity.
Qed.

Lemma vslice_short m u : (length u < m)%nat -> vslice m u = UB.
Proof. intros H. apply copy_n_short. auto. Qed.

Lemma vextend_spec u p : (length u <= length p)%nat -> vextend u p = Ok (u ++ skipn (length u) p).
Proof. intros H. unfold vextend. rewrite copy_n_spec by lia. rewrite firstn_all. reflexivity. Qed.

Lemma vextend_short u p : (length p < length u)%nat -> vextend u p = UB.
Proof. intros H. apply copy_n_short. auto. Qed.

Lemma vextend_slice u p : (length u <= length p)%nat -> (v <- vextend u p ;; vslice (length u) v) = Ok u.
Proof.
  intros H. rewrite vextend_spec by exact H. cbn [bind]. rewrite vslice_spec by (rewrite app_length; lia).
  rewrite firstn_app, Nat.sub_diag, firstn_all, firstn_O, app_nil_r. reflexivity.
Qed.

(** Clamp *)
Lemma clamp_spec (pos shape : list Z) : length pos = length shape -> Positive shape ->
  InDomain shape (vclamp pos shape) /\ (InDomain shape pos -> vclamp pos shape = pos) /\
  forall i c p q qi, InDomain shape q -> zget (vclamp pos shape) i = Ok c -> zget pos i = Ok p -> zget q i = Ok qi ->
    Z.abs (c - p) <= Z.abs (qi - p).
Proof.
  revert shape. induction pos as [|p pos IH]; intros [|s shape] HL HP; try discriminate HL.
  - split; [constructor|]. split; [reflexivity|]. intros i c p q qi _ H. apply zget_range in H. cbn in H. lia.
  - cbn in HL. inversion HP as [|? ? Hs HP']; subst. destruct (IH shape) as (I1 & I2 & I3); [lia|assumption|].
    unfold vclamp. cbn [map2]. fold (vclamp pos shape).
    assert (HC : 0 <= clampZ p 0 (s - 1) < s).
    { unfold clampZ. destruct (p <? 0) eqn:E1; [lia|]. destruct (s - 1 <? p) eqn:E2; lia. }
    split; [apply InDomain_cons_iff; auto|]. split.
    + intros H. apply InDomain_cons_iff in H as [Hp H]. rewrite I2 by exact H. f_equal.
      unfold clampZ. replace (p <? 0) with false by lia. replace (s - 1 <? p) with false by lia. reflexivity.
    + intros i c p' q qi HQ Hc Hp Hq. destruct q as [|q0 q]; [inversion HQ|]. apply InDomain_cons_iff in HQ as [Hq0 HQ].
      destruct (Z.eq_dec i 0) as [->|Hi].
      * rewrite zget_cons_0 in *. injection Hc as <-. injection Hp as <-. injection Hq as <-.
        unfold clampZ. destruct (p <? 0) eqn:E1; [lia|]. destruct (s - 1 <? p) eqn:E2; lia.
      * assert (0 < i) by (pose proof (zget_range _ _ _ Hc); lia).
        rewrite zget_cons_S in Hc, Hp, Hq by lia. eapply I3; eauto.
Qed.

(** Scalar minus vector *)
Lemma map2_sub_zeros v n : (n <= length v)%nat -> map2 Z.sub (repeat 0 n) v = map Z.opp (firstn n v).
Proof.
  revert v. induction n as [|n IH]; intros [|x v] H; cbn in H; try lia; try reflexivity.
  cbn [repeat map2 firstn map]. rewrite IH by lia. f_equal.
Qed.

Lemma scalarMinusVector_fixed n a v : 1 <= n < 2 ^ 63 -> - 2 ^ 63 <= a < 2 ^ 63 -> Z.of_nat (length v) = n ->
  scalarMinusVector n a v = if (a =? 0) || (a =? n) then Ok (map Z.opp v) else Throw EGeneric.
Proof.
  intros Hn Ha Hv. unfold scalarMinusVector. replace (n =? -1) with false by lia.
  assert (HU : u64 a = if a <? 0 then a + 2 ^ 64 else a).
  { unfold u64. destruct (a <? 0) eqn:E.
    - symmetry. apply (Z.mod_unique a (2 ^ 64) (-1)); lia.
    - apply Z.mod_small. lia. }
  replace (negb (u64 a =? n) && negb (u64 a =? 0)) with (negb ((a =? 0) || (a =? n))) by (rewrite HU; destruct (a <? 0) eqn:E; lia).
  destruct ((a =? 0) || (a =? n)); cbn [negb bind]; [|reflexivity].
  rewrite repeat_length. replace (Nat.leb (Z.to_nat n) (length v)) with true by (symmetry; apply Nat.leb_le; lia).
  rewrite map2_sub_zeros by lia. rewrite firstn_all2 by lia. reflexivity.
Qed.

Lemma scalarMinusVector_runtime a v :
  scalarMinusVector (-1) a v =
  if a <? 0 then Throw EGeneric else if Z.of_nat (length v) <? a then UB else Ok (map Z.opp (firstn (Z.to_nat a) v)).
Proof.
  unfold scalarMinusVector. rewrite Z.eqb_refl. destruct (a <? 0) eqn:E; [reflexivity|]. cbn [bind]. rewrite repeat_length.
  destruct (Z.of_nat (length v) <? a) eqn:E'.
  - replace (Nat.leb (Z.to_nat a) (length v)) with false by (symmetry; apply Nat.leb_gt; lia). reflexivity.
  - replace (Nat.leb (Z.to_nat a) (length v)) with true by (symmetry; apply Nat.leb_le; lia).
    rewrite map2_sub_zeros by lia. reflexivity.
Qed.

Lemma map_opp_shift a v : v <> [] -> map Z.opp v = map (fun x => a - x) v -> a = 0.
Proof. destruct v; [congruence|]. cbn. intros _ H. injection H. intros. lia. Qed.

Lemma scalarMinusVector_right n a v : - 2 ^ 63 <= a < 2 ^ 63 -> 1 <= n < 2 ^ 63 /\ Z.of_nat (length v) = n \/ n = -1 ->
  (scalarMinusVector n a v = Ok (map (fun x => a - x) v) <-> a = 0 /\ (n = -1 -> v = [])).
Proof.
  intros Ha [[Hn Hv]| ->].
  - rewrite scalarMinusVector_fixed by assumption. split.
    + intros H. split; [|lia]. destruct ((a =? 0) || (a =? n)); [|discriminate]. injection H as H.
      eapply map_opp_shift; [|exact H]. intros ->. cbn in Hv. lia.
    + intros [-> _]. cbn. f_equal. 
  - rewrite scalarMinusVector_runtime. split.
    + intros H. destruct (a <? 0) eqn:E; [discriminate|]. destruct (Z.of_nat (length v) <? a) eqn:E'; [discriminate|].
      injection H as H. pose proof (f_equal (@length Z) H) as L. rewrite !map_length, firstn_length in L.
      rewrite firstn_all2 in H by lia. destruct v as [|x v]; [cbn in *; split; [lia|reflexivity]|].
      apply map_opp_shift in H; [|discriminate]. subst a. cbn in L. lia.
    + intros [-> H]. rewrite (H eq_refl). reflexivity.
Qed.

(** Segment *)
Lemma segment_spec front size :
  - 2 ^ 62 <= front < 2 ^ 62 -> 0 <= size < 2 ^ 62 ->
  segFromSize front size = mkSegment front (size - front - 1) /\
  (segSize (segFromSize front size) = size <-> front = 0).
Proof.
  intros Hf Hs.
  assert (E : segFromSize front size = mkSegment front (size - front - 1)).
  { unfold segFromSize. f_equal. rewrite <- (s64_wrap (size - front - 1)) by lia. f_equal. unfold u64.
    rewrite <- (Zminus_mod size front). rewrite Zminus_mod_idemp_l. reflexivity. }
  split; [exact E|]. rewrite E. unfold segSize. cbn [segFront segBack].
  replace (size - front - 1 - front + 1) with (size - 2 * front) by lia. unfold u64. split.
  - intros H. pose proof (Z.mod_eq (size - 2 * front) (2 ^ 64)).
    destruct (Z_lt_dec (size - 2 * front) 0).
    + rewrite <- (Z.mod_unique (size - 2 * front) (2 ^ 64) (-1) (size - 2 * front + 2 ^ 64)) in H by lia. lia.
    + rewrite Z.mod_small in H by lia. lia.
  - intros ->. rewrite Z.mod_small by lia. lia.
Qed.

Lemma smv_refuted : exists n a v, - 2 ^ 63 <= a < 2 ^ 63 /\ 1 <= n < 2 ^ 63 /\ Z.of_nat (length v) = n /\
  exists w, scalarMinusVector n a v = Ok w /\ w <> map (fun x => a - x) v.
Proof.
  exists 3, 3, [1; 2; 3]. split; [lia|]. split; [lia|]. split; [reflexivity|]. exists [-1; -2; -3].
  split; [reflexivity|]. cbn. discriminate.
Qed.

Lemma linspace_refuted : exists n mn mx l x, (2 <= n)%nat /\ mx < mn /\ (Z.of_nat n - 1 | mx - mn) /\
  linspaceInt n mn mx = Ok l /\ zget l 1 = Ok x /\ x <> mn + (mx - mn) / (Z.of_nat n - 1) /\ ~ (mx <= x <= mn).
Proof.
  exists 3%nat, 2, 0, [2; -9223372036854775807; 0], (-9223372036854775807). split; [lia|]. split; [lia|].
  split; [exists (-1); reflexivity|]. split; [reflexivity|]. split; [reflexivity|]. split; [cbn; lia|lia].
Qed.

Lemma constants_spec n :
  let d := Z.to_nat (Z.abs n) in
  vzero n = repeat 0 d /\ vone n = repeat 1 d /\ isZero (vzero n) = true /\ isOne (vone n) = true /\
  (forall u, isZero u = true <-> u = repeat 0 (length u)) /\
  (forall u, isOne u = true <-> u = repeat 1 (length u)) /\
  (forall u, isInf u = true <-> u = repeat (2 ^ 63 - 1) (length u)).
Proof.
  cbv zeta. split; [reflexivity|]. split; [reflexivity|]. split; [apply vall_repeat|]. split; [apply vall_repeat|].
  split; [|split]; intros u; apply vall_iff.
Qed.

Lemma inf_spec n : n <> 0 -> vinf n = repeat (- (2 ^ 63 - 1)) (Z.to_nat (Z.abs n)) /\ isInf (vinf n) = false.
Proof.
  intros H. split; [reflexivity|]. unfold vinf, tplDim. destruct (Z.to_nat (Z.abs n)) eqn:E; [lia|]. reflexivity.
Qed.

Lemma floor_refuted : exists x : Q, floorM x <> Qfloor x.
Proof. exists (-2 # 1)%Q. vm_compute. discriminate. Qed.

Lemma floor_characterised x :
  floorM x = if qltb x 0 && Qeq_bool x (inject_Z (Qfloor x)) then Qfloor x - 1 else Qfloor x.
Proof.
  destruct (qltb x 0) eqn:E; cbn [andb].
  - apply floorM_neg, qltb_spec, E.
  - apply floorM_nonneg, qltb_false, E.
Qed.

Lemma floor_partial x : (0 <= x)%Q \/ ~ (x == inject_Z (Qfloor x))%Q ->
  (inject_Z (floorM x) <= x)%Q /\ (x < inject_Z (floorM x + 1))%Q.
Proof.
  intros H. assert (E : floorM x = Qfloor x).
  { rewrite floor_characterised. destruct H as [H|H].
    - apply qltb_false in H. rewrite H. reflexivity.
    - destruct (Qeq_bool x (inject_Z (Qfloor x))) eqn:E; [apply Qeq_bool_iff in E; contradiction|]. rewrite andb_false_r. reflexivity. }
  rewrite E. split; [apply Qfloor_le|apply Qlt_floor].
Qed.

Lemma segment_refuted : exists front size, 0 <= size /\ segSize (segFromSize front size) <> size /\
  segBack (segFromSize front size) <> front + size - 1.
Proof. exists (-1), 3. split; [lia|]. split; vm_compute; discriminate. Qed.

Lemma shape_size shape : shapeSize shape = match shape with [] => 0 | _ => prod shape end.
Proof. destruct shape as [|s shape]; [reflexivity|]. apply shapeSize_prod. discriminate. Qed.

Lemma linspace_short mn mx x y : ArithModel.linspaceInt 0 mn mx = UB /\ ArithModel.linspaceInt 1 mn mx = UB /\ linspaceQ 0 x y = UB /\ linspaceQ 1 x y = Ok [y].
Proof. repeat split. Qed.

Lemma extrema_empty {A} (lt : A -> A -> bool) : cmin lt [] = UB /\ cmax lt [] = UB /\ cminmax lt [] = UB.
Proof. repeat split. Qed.
