(** Pixel-wise operators and modifiers. *)
From Verif Require Import Res VecModel RasterModel ContainerModel ArithModel ArithSpec Spec Lemmas.

Lemma bind_Ok {A B} (r : res A) (k : A -> res B) b : bind r k = Ok b -> exists a, r = Ok a /\ k a = Ok b.
Proof. destruct r; cbn [bind]; try discriminate. eauto. Qed.

Lemma bind_Ok_l {A B} (r : res A) (k : A -> res B) a : r = Ok a -> bind r k = k a.
Proof. intros ->. reflexivity. Qed.

Lemma Frame_refl {A} (mem : list A) a n : Frame mem mem a n.
Proof. split; auto. Qed.

Lemma Frame_step {A} (mem m mem' : list A) a n x :
  zset mem a x = Ok m -> Frame m mem' (a + 1) n -> Frame mem mem' a (S n).
Proof.
  intros H [L F]. split; [rewrite L; eapply zset_length; eauto|].
  intros j Hj. unfold Outside in *. rewrite F by lia. eapply zset_get_neq; eauto. lia.
Qed.

Lemma Frame_first {A} (mem m mem' : list A) a n x :
  zset mem a x = Ok m -> Frame m mem' (a + 1) n -> zget mem' a = Ok x.
Proof. intros H [_ F]. rewrite F by (unfold Outside; lia). eapply zset_get_eq; eauto. Qed.

Lemma Allocated_step {A} (mem m : list A) a n x :
  zset mem a x = Ok m -> Allocated mem a (S n) -> Allocated m (a + 1) n.
Proof. intros H [H0 H1]. unfold Allocated. rewrite (zset_length _ _ _ _ H). lia. Qed.

Lemma Allocated_zset {A} (mem : list A) a n x : Allocated mem a (S n) -> exists m, zset mem a x = Ok m.
Proof. intros [H0 H1]. rewrite zset_ok by lia. eauto. Qed.

Section Transform.
Context {A : Type}.
Implicit Types mem : list A.

Lemma transform1_spec (f : A -> res A) n mem a :
  Allocated mem a n ->
  (forall i, 0 <= i < Z.of_nat n -> exists z, (x <- zget mem (a + i) ;; f x) = Ok z) ->
  exists mem', transform1 f n mem a = Ok mem' /\ Frame mem mem' a n /\
    forall i, 0 <= i < Z.of_nat n -> zget mem' (a + i) = (x <- zget mem (a + i) ;; f x).
Proof.
  revert mem a. induction n as [|n IH]; intros mem a HA Hf.
  - exists mem. split; [reflexivity|]. split; [apply Frame_refl|]. intros; lia.
  - destruct (Hf 0) as [z Hz]; [lia|]. rewrite Z.add_0_r in Hz.
    destruct (bind_Ok _ _ _ Hz) as [x [Hx Hfx]].
    destruct (Allocated_zset _ _ _ z HA) as [m Hm].
    assert (G : forall j, j <> a -> zget m j = zget mem j) by (intros; eapply zset_get_neq; eauto).
    destruct (IH m (a + 1)) as [mem' [E [F P]]].
    + eapply Allocated_step; eauto.
    + intros i Hi. rewrite G by lia. destruct (Hf (i + 1)) as [w Hw]; [lia|].
      replace (a + 1 + i) with (a + (i + 1)) by lia. eauto.
    + exists mem'. cbn [transform1]. rewrite Hx. cbn [bind]. rewrite Hfx. cbn [bind]. rewrite Hm. cbn [bind].
      split; [exact E|]. split; [eapply Frame_step; eauto|].
      intros i Hi. destruct (Z.eq_dec i 0) as [->|Hne].
      * rewrite !Z.add_0_r, Hz. eapply Frame_first; eauto.
      * specialize (P (i - 1)). replace (a + 1 + (i - 1)) with (a + i) in P by lia. rewrite P by lia.
        rewrite G by lia. reflexivity.
Qed.

Lemma transform2_spec (op : A -> A -> res A) n mem a b :
  Allocated mem a n -> Allocated mem b n -> (a <= b \/ Apart a n b n) ->
  (forall i, 0 <= i < Z.of_nat n -> exists z, (x <- zget mem (a + i) ;; y <- zget mem (b + i) ;; op x y) = Ok z) ->
  exists mem', transform2 op n mem a b = Ok mem' /\ Frame mem mem' a n /\
    forall i, 0 <= i < Z.of_nat n ->
      zget mem' (a + i) = (x <- zget mem (a + i) ;; y <- zget mem (b + i) ;; op x y).
Proof.
  revert mem a b. induction n as [|n IH]; intros mem a b HA HB HD Hf.
  - exists mem. split; [reflexivity|]. split; [apply Frame_refl|]. intros; lia.
  - destruct (Hf 0) as [z Hz]; [lia|]. rewrite !Z.add_0_r in Hz.
    destruct (bind_Ok _ _ _ Hz) as [x [Hx Hz1]]. destruct (bind_Ok _ _ _ Hz1) as [y [Hy Hz2]].
    destruct (Allocated_zset _ _ _ z HA) as [m Hm].
    assert (G : forall j, j <> a -> zget m j = zget mem j) by (intros; eapply zset_get_neq; eauto).
    assert (HD' : forall i, 0 < i <= Z.of_nat n -> b + i <> a).
    { intros i Hi. destruct HD as [HD|HD]; [lia|]. specialize (HD 0 i). lia. }
    destruct (IH m (a + 1) (b + 1)) as [mem' [E [F P]]].
    + eapply Allocated_step; eauto.
    + destruct HB. unfold Allocated. rewrite (zset_length _ _ _ _ Hm). lia.
    + destruct HD as [HD|HD]; [left; lia|right]. intros i j Hi Hj. specialize (HD (i + 1) (j + 1)). lia.
    + intros i Hi. specialize (HD' (i + 1)). rewrite !G by lia. destruct (Hf (i + 1)) as [w Hw]; [lia|].
      replace (a + 1 + i) with (a + (i + 1)) by lia. replace (b + 1 + i) with (b + (i + 1)) by lia. eauto.
    + exists mem'. cbn [transform2]. rewrite Hx. cbn [bind]. rewrite Hy. cbn [bind]. rewrite Hz2. cbn [bind].
      rewrite Hm. cbn [bind].
      split; [exact E|]. split; [eapply Frame_step; eauto|].
      intros i Hi. destruct (Z.eq_dec i 0) as [->|Hne].
      * rewrite !Z.add_0_r, Hz. eapply Frame_first; eauto.
      * specialize (P (i - 1)). replace (a + 1 + (i - 1)) with (a + i) in P by lia.
        replace (b + 1 + (i - 1)) with (b + i) in P by lia. rewrite P by lia.
        specialize (HD' i). rewrite !G by lia. reflexivity.
Qed.

Lemma transformRef_spec (op : A -> A -> res A) n mem a s :
  Allocated mem a n -> Outside s a n ->
  (forall i, 0 <= i < Z.of_nat n -> exists z, (x <- zget mem (a + i) ;; y <- zget mem s ;; op x y) = Ok z) ->
  exists mem', transformRef op n mem a s = Ok mem' /\ Frame mem mem' a n /\
    forall i, 0 <= i < Z.of_nat n ->
      zget mem' (a + i) = (x <- zget mem (a + i) ;; y <- zget mem s ;; op x y).
Proof.
  revert mem a. induction n as [|n IH]; intros mem a HA HS Hf.
  - exists mem. split; [reflexivity|]. split; [apply Frame_refl|]. intros; lia.
  - destruct (Hf 0) as [z Hz]; [lia|]. rewrite !Z.add_0_r in Hz.
    destruct (bind_Ok _ _ _ Hz) as [x [Hx Hz1]]. destruct (bind_Ok _ _ _ Hz1) as [y [Hy Hz2]].
    destruct (Allocated_zset _ _ _ z HA) as [m Hm].
    assert (G : forall j, j <> a -> zget m j = zget mem j) by (intros; eapply zset_get_neq; eauto).
    unfold Outside in HS.
    destruct (IH m (a + 1)) as [mem' [E [F P]]].
    + eapply Allocated_step; eauto.
    + unfold Outside. lia.
    + intros i Hi. rewrite !G by lia. destruct (Hf (i + 1)) as [w Hw]; [lia|].
      replace (a + 1 + i) with (a + (i + 1)) by lia. eauto.
    + exists mem'. cbn [transformRef]. rewrite Hx. cbn [bind]. rewrite Hy. cbn [bind]. rewrite Hz2. cbn [bind].
      rewrite Hm. cbn [bind].
      split; [exact E|]. split; [eapply Frame_step; eauto|].
      intros i Hi. destruct (Z.eq_dec i 0) as [->|Hne].
      * rewrite !Z.add_0_r, Hx. cbn [bind]. rewrite Hz2. eapply Frame_first; eauto.
      * specialize (P (i - 1)). replace (a + 1 + (i - 1)) with (a + i) in P by lia.
        rewrite P by lia. rewrite !G by lia. rewrite Hy. reflexivity.
Qed.

(** The scalar is element [k]. *)
Lemma transformRef_alias (op : A -> A -> res A) n mem a k xk :
  Allocated mem a n -> 0 <= k < Z.of_nat n -> zget mem (a + k) = Ok xk ->
  (forall i, 0 <= i <= k -> exists z, (x <- zget mem (a + i) ;; op x xk) = Ok z) ->
  (forall i, k < i < Z.of_nat n -> exists z, (x <- zget mem (a + i) ;; y <- op xk xk ;; op x y) = Ok z) ->
  exists mem', transformRef op n mem a (a + k) = Ok mem' /\ Frame mem mem' a n /\
    (forall i, 0 <= i <= k -> zget mem' (a + i) = (x <- zget mem (a + i) ;; op x xk)) /\
    (forall i, k < i < Z.of_nat n -> zget mem' (a + i) = (x <- zget mem (a + i) ;; y <- op xk xk ;; op x y)).
Proof.
  revert mem a k. induction n as [|n IH]; intros mem a k HA Hk Hxk Hl Hr; [lia|].
  destruct (Hl 0) as [z Hz]; [lia|]. rewrite !Z.add_0_r in Hz.
  destruct (bind_Ok _ _ _ Hz) as [x [Hx Hz1]].
  destruct (Allocated_zset _ _ _ z HA) as [m Hm].
  assert (G : forall j, j <> a -> zget m j = zget mem j) by (intros; eapply zset_get_neq; eauto).
  cbn [transformRef]. rewrite Hx. cbn [bind]. rewrite Hxk. cbn [bind]. rewrite Hz1. cbn [bind].
  rewrite Hm. cbn [bind].
  destruct (Z.eq_dec k 0) as [->|Hk0].
  - rewrite Z.add_0_r in *. assert (xk = x) by congruence. subst xk.
    destruct (transformRef_spec op n m (a + 1) a) as [mem' [E [F P]]].
    + eapply Allocated_step; eauto.
    + unfold Outside. lia.
    + intros i Hi. rewrite G by lia. destruct (Hr (i + 1)) as [w Hw]; [lia|].
      replace (a + 1 + i) with (a + (i + 1)) by lia.
      rewrite (zset_get_eq _ _ _ _ Hm). rewrite Hz1 in Hw. cbn [bind] in *. eauto.
    + exists mem'. split; [exact E|]. split; [eapply Frame_step; eauto|]. split.
      * intros i Hi. assert (i = 0) by lia. subst i. rewrite !Z.add_0_r, Hz. eapply Frame_first; eauto.
      * intros i Hi. specialize (P (i - 1)). replace (a + 1 + (i - 1)) with (a + i) in P by lia.
        rewrite P by lia. rewrite G by lia. rewrite (zset_get_eq _ _ _ _ Hm), Hz1. reflexivity.
  - destruct (IH m (a + 1) (k - 1)) as [mem' [E [F [P Q]]]].
    + eapply Allocated_step; eauto.
    + lia.
    + rewrite G by lia. replace (a + 1 + (k - 1)) with (a + k) by lia. exact Hxk.
    + intros i Hi. rewrite G by lia. destruct (Hl (i + 1)) as [w Hw]; [lia|].
      replace (a + 1 + i) with (a + (i + 1)) by lia. eauto.
    + intros i Hi. rewrite G by lia. destruct (Hr (i + 1)) as [w Hw]; [lia|].
      replace (a + 1 + i) with (a + (i + 1)) by lia. eauto.
    + replace (a + 1 + (k - 1)) with (a + k) in E by lia.
      exists mem'. split; [exact E|]. split; [eapply Frame_step; eauto|]. split.
      * intros i Hi. destruct (Z.eq_dec i 0) as [->|Hne].
        -- rewrite !Z.add_0_r, Hz. eapply Frame_first; eauto.
        -- specialize (P (i - 1)). replace (a + 1 + (i - 1)) with (a + i) in P by lia.
           rewrite P by lia. rewrite G by lia. reflexivity.
      * intros i Hi. specialize (Q (i - 1)). replace (a + 1 + (i - 1)) with (a + i) in Q by lia.
        rewrite Q by lia. rewrite G by lia. reflexivity.
Qed.

Lemma transformVal_spec (op : A -> A -> res A) n mem a s :
  Allocated mem a n -> 0 <= s < Z.of_nat (length mem) ->
  (forall i, 0 <= i < Z.of_nat n -> exists z, (x <- zget mem (a + i) ;; y <- zget mem s ;; op x y) = Ok z) ->
  exists mem', transformVal op n mem a s = Ok mem' /\ Frame mem mem' a n /\
    forall i, 0 <= i < Z.of_nat n ->
      zget mem' (a + i) = (x <- zget mem (a + i) ;; y <- zget mem s ;; op x y).
Proof.
  intros HA HS Hf. destruct (zget_in_range mem s HS) as [y Hy]. unfold transformVal. rewrite Hy in *. cbn [bind] in *.
  destruct (transform1_spec (fun x => op x y) n mem a HA) as [mem' [E [F P]]].
  - intros i Hi. destruct (Hf i Hi) as [z Hz]. exists z. exact Hz.
  - exists mem'. split; [exact E|]. split; [exact F|]. exact P.
Qed.

(** A right-hand side which overruns the memory. *)

Lemma transform2_short (op : A -> A -> res A) n mem a b :
  (forall x y, exists z, op x y = Ok z) -> Allocated mem a n -> 0 <= b <= Z.of_nat (length mem) ->
  Z.of_nat (length mem) < b + Z.of_nat n -> transform2 op n mem a b = UB.
Proof.
  intros Hop. revert mem a b. induction n as [|n IH]; intros mem a b HA Hb Hs; [lia|].
  cbn [transform2]. destruct (zget_in_range mem a) as [x Hx]; [destruct HA; lia|]. rewrite Hx. cbn [bind].
  destruct (Z.eq_dec b (Z.of_nat (length mem))) as [->|Hne].
  - rewrite zget_out by lia. reflexivity.
  - destruct (zget_in_range mem b) as [y Hy]; [lia|]. rewrite Hy. cbn [bind].
    destruct (Hop x y) as [z Hz]. rewrite Hz. cbn [bind]. destruct (Allocated_zset _ _ _ z HA) as [m Hm].
    rewrite Hm. cbn [bind]. pose proof (zset_length _ _ _ _ Hm).
    apply IH; [eapply Allocated_step; eauto|lia|lia].
Qed.

(** Copies *)
Lemma zgetN_spec n mem a :
  Allocated mem a n -> exists l, zgetN n mem a = Ok l /\ length l = n /\
    forall i, 0 <= i < Z.of_nat n -> zget l i = zget mem (a + i).
Proof.
  revert a. induction n as [|n IH]; intros a [H0 H1].
  - exists []. split; [reflexivity|]. split; [reflexivity|]. intros; lia.
  - cbn [zgetN]. destruct (zget_in_range mem a) as [x Hx]; [lia|]. rewrite Hx. cbn [bind].
    destruct (IH (a + 1)) as [l [E [L P]]]; [split; lia|]. rewrite E. cbn [bind].
    exists (x :: l). split; [reflexivity|]. split; [cbn; lia|].
    intros i Hi. destruct (Z.eq_dec i 0) as [->|Hne].
    + rewrite Z.add_0_r, Hx. reflexivity.
    + rewrite zget_cons_S by lia. rewrite P by lia. f_equal. lia.
Qed.

Lemma copyNew_spec n mem a :
  Allocated mem a n -> exists m, copyNew n mem a = Ok m /\ length m = (length mem + n)%nat /\
    (forall i, 0 <= i < Z.of_nat n -> zget m (Z.of_nat (length mem) + i) = zget mem (a + i)) /\
    (forall j, j < Z.of_nat (length mem) -> zget m j = zget mem j).
Proof.
  intros HA. unfold copyNew. destruct (zgetN_spec _ _ _ HA) as [l [E [L P]]]. rewrite E. cbn [bind].
  exists (mem ++ l). split; [reflexivity|]. split; [rewrite app_length; lia|]. split.
  - intros i Hi. rewrite zget_app_r by lia. rewrite <- P by lia. f_equal. lia.
  - intros j Hj. apply zget_app_l. exact Hj.
Qed.

Lemma new1_spec (f : A -> res A) n mem a :
  Allocated mem a n ->
  (forall i, 0 <= i < Z.of_nat n -> exists z, (x <- zget mem (a + i) ;; f x) = Ok z) ->
  let t := Z.of_nat (length mem) in
  exists mem', new1 f n mem a = Ok mem' /\ length mem' = (length mem + n)%nat /\
    (forall j, j < t -> zget mem' j = zget mem j) /\
    forall i, 0 <= i < Z.of_nat n -> zget mem' (t + i) = (x <- zget mem (a + i) ;; f x).
Proof.
  intros HA Hf t. unfold new1. destruct (copyNew_spec _ _ _ HA) as [m [E [L [P Q]]]]. rewrite E. cbn [bind]. fold t in P, Q |- *.
  destruct (transform1_spec f n m t) as [mem' [E' [[L' F] P']]].
  - split; lia.
  - intros i Hi. rewrite P by lia. auto.
  - exists mem'. split; [exact E'|]. split; [lia|]. split.
    + intros j Hj. rewrite F by (unfold Outside; lia). auto.
    + intros i Hi. rewrite P' by lia. rewrite P by lia. reflexivity.
Qed.

Lemma new2_spec (op : A -> A -> res A) n mem a b :
  Allocated mem a n -> Allocated mem b n ->
  (forall i, 0 <= i < Z.of_nat n -> exists z, (x <- zget mem (a + i) ;; y <- zget mem (b + i) ;; op x y) = Ok z) ->
  let t := Z.of_nat (length mem) in
  exists mem', new2 op n mem a b = Ok mem' /\ length mem' = (length mem + n)%nat /\
    (forall j, j < t -> zget mem' j = zget mem j) /\
    forall i, 0 <= i < Z.of_nat n -> zget mem' (t + i) = (x <- zget mem (a + i) ;; y <- zget mem (b + i) ;; op x y).
Proof.
  intros HA HB Hf t. unfold new2. destruct (copyNew_spec _ _ _ HA) as [m [E [L [P Q]]]]. rewrite E. cbn [bind].
  fold t in P, Q |- *. destruct HB as [HB0 HB1].
  destruct (transform2_spec op n m t b) as [mem' [E' [[L' F] P']]].
  - split; lia.
  - split; lia.
  - right. intros i j Hi Hj. lia.
  - intros i Hi. rewrite P by lia. rewrite Q by lia. auto.
  - exists mem'. split; [exact E'|]. split; [lia|]. split.
    + intros j Hj. rewrite F by (unfold Outside; lia). auto.
    + intros i Hi. rewrite P' by lia. rewrite P by lia. rewrite Q by lia. reflexivity.
Qed.

Lemma newRef_spec (op : A -> A -> res A) n mem a s :
  Allocated mem a n -> 0 <= s < Z.of_nat (length mem) ->
  (forall i, 0 <= i < Z.of_nat n -> exists z, (x <- zget mem (a + i) ;; y <- zget mem s ;; op x y) = Ok z) ->
  let t := Z.of_nat (length mem) in
  exists mem', newRef op n mem a s = Ok mem' /\ length mem' = (length mem + n)%nat /\
    (forall j, j < t -> zget mem' j = zget mem j) /\
    forall i, 0 <= i < Z.of_nat n -> zget mem' (t + i) = (x <- zget mem (a + i) ;; y <- zget mem s ;; op x y).
Proof.
  intros HA HS Hf t. unfold newRef. destruct (copyNew_spec _ _ _ HA) as [m [E [L [P Q]]]]. rewrite E. cbn [bind].
  fold t in P, Q |- *.
  destruct (transformRef_spec op n m t s) as [mem' [E' [[L' F] P']]].
  - split; lia.
  - unfold Outside. lia.
  - intros i Hi. rewrite P by lia. rewrite Q by lia. auto.
  - exists mem'. split; [exact E'|]. split; [lia|]. split.
    + intros j Hj. rewrite F by (unfold Outside; lia). auto.
    + intros i Hi. rewrite P' by lia. rewrite P by lia. rewrite Q by lia. reflexivity.
Qed.

(** fill *)
Lemma fill_spec n mem a s :
  Allocated mem a n -> 0 <= s < Z.of_nat (length mem) ->
  exists mem', fillLoop n mem a s = Ok mem' /\ Frame mem mem' a n /\
    forall i, 0 <= i < Z.of_nat n -> zget mem' (a + i) = zget mem s.
Proof.
  revert mem a. induction n as [|n IH]; intros mem a HA HS.
  - exists mem. split; [reflexivity|]. split; [apply Frame_refl|]. intros; lia.
  - destruct (zget_in_range mem s HS) as [v Hv].
    destruct (Allocated_zset _ _ _ v HA) as [m Hm].
    destruct (IH m (a + 1)) as [mem' [E [F P]]].
    + eapply Allocated_step; eauto.
    + rewrite (zset_length _ _ _ _ Hm). exact HS.
    + exists mem'. cbn [fillLoop]. rewrite Hv. cbn [bind]. rewrite Hm. cbn [bind]. split; [exact E|].
      split; [eapply Frame_step; eauto|]. intros i Hi. destruct (Z.eq_dec i 0) as [->|Hne].
      * rewrite Z.add_0_r. eapply Frame_first; eauto.
      * specialize (P (i - 1)). replace (a + 1 + (i - 1)) with (a + i) in P by lia. rewrite P by lia.
        destruct (Z.eq_dec s a) as [->|Hsa]; [eapply zset_get_eq; eauto|].
        rewrite (zset_get_neq _ _ _ _ _ Hm) by lia. exact Hv.
Qed.

(** generate *)
Lemma readArgs_ext mem m args : Forall (fun b => zget m b = zget mem b) args -> readArgs m args = readArgs mem args.
Proof. induction 1 as [|b args H _ IH]; cbn [readArgs]; [reflexivity|]. rewrite H, IH. reflexivity. Qed.

Lemma shifted_shifted args i : shifted (map (fun b => b + 1) args) i = shifted args (i + 1).
Proof. unfold shifted. rewrite map_map. apply map_ext. intros. lia. Qed.

Lemma generate_spec {S : Type} (func : S -> list A -> res (S * A)) n st mem a args tuples st' out :
  Allocated mem a n ->
  Forall (fun b => a <= b \/ Apart a n b n) args ->
  length tuples = n ->
  (forall i, 0 <= i < Z.of_nat n -> readArgs mem (shifted args i) = zget tuples i) ->
  calls func st tuples = Ok (st', out) ->
  exists mem', generate func n st mem a args = Ok (st', mem') /\ Frame mem mem' a n /\
    forall i, 0 <= i < Z.of_nat n -> zget mem' (a + i) = zget out i.
Proof.
  revert st mem a args tuples out. induction n as [|n IH]; intros st mem a args tuples out HA HD HL HT HC.
  - destruct tuples; [|discriminate]. cbn [calls] in HC. injection HC as <- <-.
    exists mem. split; [reflexivity|]. split; [apply Frame_refl|]. intros; lia.
  - destruct tuples as [|xs tuples]; [discriminate|]. cbn [calls] in HC.
    destruct (bind_Ok _ _ _ HC) as [[st1 v] [Hf HC1]]. cbn [fst snd] in HC1.
    destruct (bind_Ok _ _ _ HC1) as [[st2 out1] [Hc HC2]]. cbn [fst snd] in HC2. injection HC2 as <- <-.
    assert (H0 : readArgs mem args = Ok xs).
    { specialize (HT 0). rewrite zget_cons_0 in HT. rewrite <- HT by lia. f_equal.
      unfold shifted. rewrite <- (map_id args) at 1. apply map_ext. intros. lia. }
    destruct (Allocated_zset _ _ _ v HA) as [m Hm].
    assert (G : forall j, j <> a -> zget m j = zget mem j) by (intros; eapply zset_get_neq; eauto).
    destruct (IH st1 m (a + 1) (map (fun b => b + 1) args) tuples out1) as [mem' [E [F P]]].
    + eapply Allocated_step; eauto.
    + apply Forall_map. eapply Forall_impl; [|exact HD]. intros b [Hb|Hb]; [left; lia|right].
      intros i j Hi Hj. specialize (Hb (i + 1) (j + 1)). lia.
    + cbn in HL. lia.
    + intros i Hi. rewrite shifted_shifted. rewrite (readArgs_ext mem).
      * rewrite HT by lia. rewrite zget_cons_S by lia. f_equal. lia.
      * unfold shifted. apply Forall_map. eapply Forall_impl; [|exact HD]. intros b Hb. apply G.
        destruct Hb as [Hb|Hb]; [lia|]. specialize (Hb 0 (i + 1)). lia.
    + exact Hc.
    + exists mem'. cbn [generate]. rewrite H0. cbn [bind]. rewrite Hf. cbn [bind fst snd]. rewrite Hm. cbn [bind].
      split; [exact E|]. split; [eapply Frame_step; eauto|].
      intros i Hi. destruct (Z.eq_dec i 0) as [->|Hne].
      * rewrite Z.add_0_r, zget_cons_0. eapply Frame_first; eauto.
      * specialize (P (i - 1)). replace (a + 1 + (i - 1)) with (a + i) in P by lia. rewrite P by lia.
        rewrite zget_cons_S by lia. reflexivity.
Qed.
End Transform.

(** range *)
Lemma range_spec n mem a v s st :
  Allocated mem a n -> Outside s a n -> zget mem s = Ok st ->
  exists mem', rangeLoop n mem a v s = Ok mem' /\ Frame mem mem' a n /\
    forall i, 0 <= i < Z.of_nat n -> zget mem' (a + i) = Ok (v + i * st).
Proof.
  revert mem a v. induction n as [|n IH]; intros mem a v HA HS Hst.
  - exists mem. split; [reflexivity|]. split; [apply Frame_refl|]. intros; lia.
  - destruct (Allocated_zset _ _ _ v HA) as [m Hm]. unfold Outside in HS.
    assert (Hst' : zget m s = Ok st) by (rewrite (zset_get_neq _ _ _ _ _ Hm) by lia; exact Hst).
    destruct (IH m (a + 1) (v + st)) as [mem' [E [F P]]].
    + eapply Allocated_step; eauto.
    + unfold Outside. lia.
    + exact Hst'.
    + exists mem'. cbn [rangeLoop]. rewrite Hm. cbn [bind]. rewrite Hst'. cbn [bind]. split; [exact E|].
      split; [eapply Frame_step; eauto|]. intros i Hi. destruct (Z.eq_dec i 0) as [->|Hne].
      * rewrite Z.add_0_r. replace (v + 0 * st) with v by lia. eapply Frame_first; eauto.
      * specialize (P (i - 1)). replace (a + 1 + (i - 1)) with (a + i) in P by lia. rewrite P by lia. f_equal. lia.
Qed.

(** The first failing element makes the operation fail. *)
Lemma transform2_ub {A} (op : A -> A -> res A) n mem a b :
  Allocated mem a n -> Allocated mem b n -> (a <= b \/ Apart a n b n) ->
  (forall x y e, op x y <> Throw e) ->
  (exists i, 0 <= i < Z.of_nat n /\ (x <- zget mem (a + i) ;; y <- zget mem (b + i) ;; op x y) = UB) ->
  transform2 op n mem a b = UB.
Proof.
  revert mem a b. induction n as [|n IH]; intros mem a b HA HB HD HT (i & Hi & E); [lia|].
  cbn [transform2]. destruct (zget_in_range mem a) as [x Hx]; [destruct HA; lia|]. rewrite Hx. cbn [bind].
  destruct (zget_in_range mem b) as [y Hy]; [destruct HB; lia|]. rewrite Hy. cbn [bind].
  destruct (op x y) as [z|e|] eqn:Ez; [|exfalso; eapply HT; eauto|reflexivity]. cbn [bind].
  destruct (Allocated_zset _ _ _ z HA) as [m Hm]. rewrite Hm. cbn [bind].
  assert (G : forall j, j <> a -> zget m j = zget mem j) by (intros; eapply zset_get_neq; eauto).
  assert (Hi0 : i <> 0).
  { intros ->. rewrite !Z.add_0_r in E. rewrite Hx in E. cbn [bind] in E. rewrite Hy in E. cbn [bind] in E. congruence. }
  apply IH.
  - eapply Allocated_step; eauto.
  - destruct HB. unfold Allocated. rewrite (zset_length _ _ _ _ Hm). lia.
  - destruct HD as [HD|HD]; [left; lia|right]. intros u v Hu Hv. specialize (HD (u + 1) (v + 1)). lia.
  - exact HT.
  - exists (i - 1). split; [lia|]. replace (a + 1 + (i - 1)) with (a + i) by lia. replace (b + 1 + (i - 1)) with (b + i) by lia.
    rewrite !G; [exact E| |lia]. destruct HD as [HD|HD]; [lia|]. specialize (HD 0 i). lia.
Qed.

Lemma div_by_zero n mem a b :
  Allocated mem a n -> Allocated mem b n -> (a <= b \/ Apart a n b n) ->
  (exists i, 0 <= i < Z.of_nat n /\ zget mem (b + i) = Ok 0) ->
  transform2 opDiv n mem a b = UB /\ transform2 opMod n mem a b = UB.
Proof.
  intros HA HB HD (i & Hi & E). split; (apply transform2_ub; auto;
    [intros x y e; unfold opDiv, opMod; destruct (y =? 0); discriminate|]);
    exists i; (split; [exact Hi|]); rewrite E;
    (destruct (zget_in_range mem (a + i)) as [x Hx]; [destruct HA; lia|]); rewrite Hx; reflexivity.
Qed.

(** Inverse operations *)
Lemma inverse2_mem {A} (op op' : A -> A -> res A) n mem a b :
  Allocated mem a n -> Allocated mem b n -> Apart a n b n ->
  (forall i, 0 <= i < Z.of_nat n -> exists x y z,
    zget mem (a + i) = Ok x /\ zget mem (b + i) = Ok y /\ op x y = Ok z /\ op' z y = Ok x) ->
  (m <- transform2 op n mem a b ;; transform2 op' n m a b) = Ok mem.
Proof.
  intros HA HB HD Hstep.
  destruct (transform2_spec op n mem a b HA HB (or_intror HD)) as (m & E & [L F] & P).
  { intros i Hi. destruct (Hstep i Hi) as (x & y & z & Hx & Hy & Ez & _). rewrite Hx. cbn [bind]. rewrite Hy. eauto. }
  rewrite E. cbn [bind].
  assert (FB : forall i, 0 <= i < Z.of_nat n -> zget m (b + i) = zget mem (b + i)).
  { intros i Hi. apply F. unfold Outside. destruct (Z_lt_dec (b + i) a); [lia|].
    destruct (Z_lt_dec (b + i) (a + Z.of_nat n)); [|lia]. exfalso. apply (HD (b + i - a) i); lia. }
  assert (PM : forall i, 0 <= i < Z.of_nat n ->
    (x <- zget m (a + i) ;; y <- zget m (b + i) ;; op' x y) = zget mem (a + i)).
  { intros i Hi. destruct (Hstep i Hi) as (x & y & z & Hx & Hy & Ez & Ez').
    rewrite P, FB by exact Hi. rewrite Hx. cbn [bind]. rewrite Hy. cbn [bind]. rewrite Ez. exact Ez'. }
  destruct (transform2_spec op' n m a b) as (m' & E' & [L' F'] & P').
  - destruct HA. split; lia.
  - destruct HB. split; lia.
  - right. exact HD.
  - intros i Hi. rewrite PM by exact Hi. apply zget_in_range. destruct HA. lia.
  - rewrite E'. f_equal. apply zget_ext; [lia|]. intros j Hj.
    destruct (Z_lt_dec j a) as [H|H]; [rewrite F', F by (unfold Outside; lia); reflexivity|].
    destruct (Z_lt_dec j (a + Z.of_nat n)) as [H'|H'].
    + specialize (P' (j - a)). specialize (PM (j - a)). replace (a + (j - a)) with j in * by lia.
      rewrite P', PM by lia. reflexivity.
    + rewrite F', F by (unfold Outside; lia). reflexivity.
Qed.

Section Inverse.
Context {A : Type} (op op' : A -> A -> res A) (ok : A -> Prop).
Hypothesis inverse : forall x y, ok y -> exists z, op x y = Ok z /\ op' z y = Ok x.

Lemma op_total x y : ok y -> exists z, op x y = Ok z.
Proof. intros H. destruct (inverse x y H) as (z & E & _). eauto. Qed.

Lemma inverse2 n mem a b :
  Allocated mem a n -> Allocated mem b n -> Apart a n b n ->
  (forall i y, 0 <= i < Z.of_nat n -> zget mem (b + i) = Ok y -> ok y) ->
  (m <- transform2 op n mem a b ;; transform2 op' n m a b) = Ok mem.
Proof.
  intros HA HB HD Hok.
  assert (Hstep : forall i, 0 <= i < Z.of_nat n -> exists x y z,
    zget mem (a + i) = Ok x /\ zget mem (b + i) = Ok y /\ op x y = Ok z /\ op' z y = Ok x).
  { intros i Hi. destruct (zget_in_range mem (a + i)) as [x Hx]; [destruct HA; lia|].
    destruct (zget_in_range mem (b + i)) as [y Hy]; [destruct HB; lia|].
    destruct (inverse x y (Hok i y Hi Hy)) as (z & E & E'). exists x, y, z. auto. }
  exact (inverse2_mem op op' n mem a b HA HB HD Hstep).
Qed.

Lemma inverseRef n mem a s y :
  Allocated mem a n -> Outside s a n -> zget mem s = Ok y -> ok y ->
  (m <- transformRef op n mem a s ;; transformRef op' n m a s) = Ok mem.
Proof.
  intros HA HS Hy Hok.
  assert (Hstep : forall i, 0 <= i < Z.of_nat n -> exists x z,
    zget mem (a + i) = Ok x /\ op x y = Ok z /\ op' z y = Ok x).
  { intros i Hi. destruct (zget_in_range mem (a + i)) as [x Hx]; [destruct HA; lia|].
    destruct (inverse x y Hok) as (z & E & E'). exists x, z. auto. }
  destruct (transformRef_spec op n mem a s HA HS) as (m & E & [L F] & P).
  { intros i Hi. destruct (Hstep i Hi) as (x & z & Hx & Ez & _). rewrite Hx. cbn [bind]. rewrite Hy. eauto. }
  rewrite E. cbn [bind].
  assert (FS : zget m s = Ok y) by (rewrite F by exact HS; exact Hy).
  assert (PM : forall i, 0 <= i < Z.of_nat n ->
    (x <- zget m (a + i) ;; y <- zget m s ;; op' x y) = zget mem (a + i)).
  { intros i Hi. destruct (Hstep i Hi) as (x & z & Hx & Ez & Ez').
    rewrite P by exact Hi. rewrite Hx. cbn [bind]. rewrite Hy. cbn [bind]. rewrite Ez, FS. exact Ez'. }
  destruct (transformRef_spec op' n m a s) as (m' & E' & [L' F'] & P').
  - destruct HA. split; lia.
  - exact HS.
  - intros i Hi. rewrite PM by exact Hi. apply zget_in_range. destruct HA. lia.
  - rewrite E'. f_equal. apply zget_ext; [lia|]. intros j Hj.
    destruct (Z_lt_dec j a) as [H|H]; [rewrite F', F by (unfold Outside; lia); reflexivity|].
    destruct (Z_lt_dec j (a + Z.of_nat n)) as [H'|H'].
    + specialize (P' (j - a)). specialize (PM (j - a)). replace (a + (j - a)) with j in * by lia.
      rewrite P', PM by lia. reflexivity.
    + rewrite F', F by (unfold Outside; lia). reflexivity.
Qed.
End Inverse.

Lemma add_sub_inverse x y : True -> exists z, opAdd x y = Ok z /\ opSub z y = Ok x.
Proof. intros _. exists (x + y). unfold opAdd, opSub. split; f_equal; lia. Qed.
Lemma sub_add_inverse x y : True -> exists z, opSub x y = Ok z /\ opAdd z y = Ok x.
Proof. intros _. exists (x - y). unfold opAdd, opSub. split; f_equal; lia. Qed.
Lemma mul_div_inverse x y : y <> 0 -> exists z, opMul x y = Ok z /\ opDiv z y = Ok x.
Proof.
  intros H. exists (x * y). unfold opMul, opDiv. split; [reflexivity|]. replace (y =? 0) with false by lia.
  f_equal. apply Z.quot_mul. exact H.
Qed.

Lemma inverse_all n mem a b :
  Allocated mem a n -> Allocated mem b n -> Apart a n b n ->
  (m <- transform2 opAdd n mem a b ;; transform2 opSub n m a b) = Ok mem /\
  (m <- transform2 opSub n mem a b ;; transform2 opAdd n m a b) = Ok mem /\
  ((forall i, 0 <= i < Z.of_nat n -> zget mem (b + i) <> Ok 0) ->
   (m <- transform2 opMul n mem a b ;; transform2 opDiv n m a b) = Ok mem).
Proof.
  intros HA HB HD. split; [|split].
  - apply (inverse2 opAdd opSub (fun _ => True) add_sub_inverse); auto.
  - apply (inverse2 opSub opAdd (fun _ => True) sub_add_inverse); auto.
  - intros H. apply (inverse2 opMul opDiv (fun y => y <> 0) mul_div_inverse); auto. intros i y Hi Hy ->. eapply H; eauto.
Qed.

Lemma inverse_all_scalar n mem a s y :
  Allocated mem a n -> Outside s a n -> zget mem s = Ok y ->
  (m <- transformRef opAdd n mem a s ;; transformRef opSub n m a s) = Ok mem /\
  (m <- transformRef opSub n mem a s ;; transformRef opAdd n m a s) = Ok mem /\
  (y <> 0 -> (m <- transformRef opMul n mem a s ;; transformRef opDiv n m a s) = Ok mem).
Proof.
  intros HA HS Hy. split; [|split].
  - apply (inverseRef opAdd opSub (fun _ => True) add_sub_inverse _ _ _ _ y); auto.
  - apply (inverseRef opSub opAdd (fun _ => True) sub_add_inverse _ _ _ _ y); auto.
  - intros H. apply (inverseRef opMul opDiv (fun y => y <> 0) mul_div_inverse _ _ _ _ y); auto.
Qed.

(** apply *)
Lemma apply_spec {A S : Type} (func : S -> list A -> res (S * A)) n st mem a args tuples st' out :
  Allocated mem a n ->
  Forall (fun b => a <= b \/ Apart a n b n) args ->
  length tuples = n ->
  (forall i, 0 <= i < Z.of_nat n -> (x <- zget mem (a + i) ;; t <- readArgs mem (shifted args i) ;; Ok (x :: t)) = zget tuples i) ->
  calls func st tuples = Ok (st', out) ->
  exists mem', apply func n st mem a args = Ok (st', mem') /\ Frame mem mem' a n /\
    forall i, 0 <= i < Z.of_nat n -> zget mem' (a + i) = zget out i.
Proof.
  intros HA HF HL HT HC. unfold apply. eapply generate_spec; eauto. constructor; [left; lia|exact HF].
Qed.

Lemma alias_last A (op : A -> A -> res A) n mem a xk :
  Allocated mem a (S n) -> zget mem (a + Z.of_nat n) = Ok xk ->
  (forall i, 0 <= i < Z.of_nat (S n) -> exists z, (x <- zget mem (a + i) ;; op x xk) = Ok z) ->
  exists mem', transformRef op (S n) mem a (a + Z.of_nat n) = Ok mem' /\ Frame mem mem' a (S n) /\
    forall i, 0 <= i < Z.of_nat (S n) -> zget mem' (a + i) = (x <- zget mem (a + i) ;; op x xk).
Proof.
  intros HA Hk Hf. destruct (transformRef_alias op (S n) mem a (Z.of_nat n) xk) as (m & E & F & P & _); auto; try lia.
  - intros i Hi. apply Hf. lia.
  - exists m. split; [exact E|]. split; [exact F|]. intros i Hi. apply P. lia.
Qed.

Lemma alias_refuted : exists n mem a k xk,
  Allocated mem a n /\ 0 <= k < Z.of_nat n /\ zget mem (a + k) = Ok xk /\
  forall mem', transformRef opAdd n mem a (a + k) = Ok mem' ->
    exists i x, 0 <= i < Z.of_nat n /\ zget mem (a + i) = Ok x /\ zget mem' (a + i) <> Ok (x + xk).
Proof.
  exists 3%nat, [2; 3; 4], 0, 0, 2. split; [split; cbn; lia|]. split; [lia|]. split; [reflexivity|].
  intros mem' E. vm_compute in E. injection E as <-. exists 1, 3. split; [lia|]. split; [reflexivity|]. vm_compute. discriminate.
Qed.

(** Integer quotients and remainders, increment, decrement, opposite *)
Lemma quotient_remainder n mem a b : Allocated mem a n -> Allocated mem b n ->
  (forall i, 0 <= i < Z.of_nat n -> zget mem (b + i) <> Ok 0) ->
  let t := Z.of_nat (length mem) in
  exists mq mr, new2 opDiv n mem a b = Ok mq /\ new2 opMod n mem a b = Ok mr /\
    forall i, 0 <= i < Z.of_nat n -> exists x y q r,
      zget mem (a + i) = Ok x /\ zget mem (b + i) = Ok y /\ zget mq (t + i) = Ok q /\ zget mr (t + i) = Ok r /\
      x = q * y + r /\ Z.abs r < Z.abs y /\ 0 <= r * x.
Proof.
  intros HA HB NZ t.
  assert (G : forall i, 0 <= i < Z.of_nat n -> exists x y, zget mem (a + i) = Ok x /\ zget mem (b + i) = Ok y /\ y <> 0 /\
    opDiv x y = Ok (Z.quot x y) /\ opMod x y = Ok (Z.rem x y)).
  { intros i Hi. destruct (zget_in_range mem (a + i)) as [x Hx]; [destruct HA; lia|].
    destruct (zget_in_range mem (b + i)) as [y Hy]; [destruct HB; lia|]. exists x, y.
    assert (y <> 0) by (intros ->; exact (NZ i Hi Hy)). unfold opDiv, opMod. replace (y =? 0) with false by lia. auto. }
  destruct (new2_spec opDiv n mem a b HA HB) as (mq & EQ & _ & _ & PQ).
  { intros i Hi. destruct (G i Hi) as (x & y & Hx & Hy & _ & D & _). rewrite Hx, Hy. eauto. }
  destruct (new2_spec opMod n mem a b HA HB) as (mr & ER & _ & _ & PR).
  { intros i Hi. destruct (G i Hi) as (x & y & Hx & Hy & _ & _ & D). rewrite Hx, Hy. eauto. }
  exists mq, mr. split; [exact EQ|]. split; [exact ER|]. intros i Hi. destruct (G i Hi) as (x & y & Hx & Hy & N & DQ & DR).
  exists x, y, (Z.quot x y), (Z.rem x y). split; [exact Hx|]. split; [exact Hy|].
  fold t in PQ, PR. rewrite PQ, PR by exact Hi. rewrite Hx, Hy. cbn [bind]. rewrite DQ, DR. split; [reflexivity|]. split; [reflexivity|].
  pose proof (Z.quot_rem x y N). pose proof (Z.rem_bound_abs x y N). pose proof (Z.rem_sign_mul x y N). lia.
Qed.

Lemma inverse1_mem {A} (f f' : A -> res A) n mem a : Allocated mem a n ->
  (forall i x, 0 <= i < Z.of_nat n -> zget mem (a + i) = Ok x -> exists y, f x = Ok y /\ f' y = Ok x) ->
  (m <- transform1 f n mem a ;; transform1 f' n m a) = Ok mem.
Proof.
  intros HA Hf.
  assert (G : forall i, 0 <= i < Z.of_nat n -> exists x y, zget mem (a + i) = Ok x /\ f x = Ok y /\ f' y = Ok x).
  { intros i Hi. destruct (zget_in_range mem (a + i)) as [x Hx]; [destruct HA; lia|]. destruct (Hf i x Hi Hx) as (y & E & E'). eauto. }
  destruct (transform1_spec f n mem a HA) as (m & E & [L F] & P).
  { intros i Hi. destruct (G i Hi) as (x & y & Hx & Hy & _). rewrite Hx. eauto. }
  rewrite E. cbn [bind]. destruct (transform1_spec f' n m a) as (m' & E' & [L' F'] & P').
  - destruct HA. split; lia.
  - intros i Hi. destruct (G i Hi) as (x & y & Hx & Hy & Hy'). rewrite P by exact Hi. rewrite Hx. cbn [bind]. rewrite Hy. eauto.
  - rewrite E'. f_equal. apply zget_ext; [lia|]. intros j Hj.
    destruct (Z_lt_dec j a) as [H|H]; [rewrite F', F by (unfold Outside; lia); reflexivity|].
    destruct (Z_lt_dec j (a + Z.of_nat n)) as [H'|H'].
    + destruct (G (j - a)) as (x & y & Hx & Hy & Hy'); [lia|]. specialize (P (j - a)). specialize (P' (j - a)).
      replace (a + (j - a)) with j in * by lia. rewrite P', P by lia. rewrite Hx. cbn [bind]. rewrite Hy. exact Hy'.
    + rewrite F', F by (unfold Outside; lia). reflexivity.
Qed.

Lemma unary_integers n mem a : Allocated mem a n ->
  (exists m, transform1 opIncr n mem a = Ok m /\ Frame mem m a n /\ transform1 opDecr n m a = Ok mem /\
    forall i x, 0 <= i < Z.of_nat n -> zget mem (a + i) = Ok x -> zget m (a + i) = Ok (x + 1)) /\
  (exists m, transform1 opDecr n mem a = Ok m /\ Frame mem m a n /\ transform1 opIncr n m a = Ok mem) /\
  (exists m, transform1 opNeg n mem a = Ok m /\ Frame mem m a n /\ transform1 opNeg n m a = Ok mem /\
    forall i x, 0 <= i < Z.of_nat n -> zget mem (a + i) = Ok x -> zget m (a + i) = Ok (- x)).
Proof.
  intros HA.
  assert (G : forall f : Z -> res Z, (forall x, exists y, f x = Ok y) -> forall i, 0 <= i < Z.of_nat n -> exists z, (x <- zget mem (a + i) ;; f x) = Ok z).
  { intros f T i Hi. destruct (zget_in_range mem (a + i)) as [x Hx]; [destruct HA; lia|]. rewrite Hx. apply T. }
  split; [|split].
  - destruct (transform1_spec opIncr n mem a HA) as (m & E & F & P); [apply G; unfold opIncr; eauto|].
    pose proof (inverse1_mem opIncr opDecr n mem a HA) as I. rewrite E in I. exists m. split; [exact E|]. split; [exact F|]. split.
    + apply I. intros i x _ _. exists (x + 1). unfold opIncr, opDecr. split; f_equal; lia.
    + intros i x Hi Hx. rewrite P by exact Hi. rewrite Hx. reflexivity.
  - destruct (transform1_spec opDecr n mem a HA) as (m & E & F & P); [apply G; unfold opDecr; eauto|].
    pose proof (inverse1_mem opDecr opIncr n mem a HA) as I. rewrite E in I. exists m. split; [exact E|]. split; [exact F|].
    apply I. intros i x _ _. exists (x - 1). unfold opIncr, opDecr. split; f_equal; lia.
  - destruct (transform1_spec opNeg n mem a HA) as (m & E & F & P); [apply G; unfold opNeg; eauto|].
    pose proof (inverse1_mem opNeg opNeg n mem a HA) as I. rewrite E in I. exists m. split; [exact E|]. split; [exact F|]. split.
    + apply I. intros i x _ _. exists (- x). unfold opNeg. split; f_equal; lia.
    + intros i x Hi Hx. rewrite P by exact Hi. rewrite Hx. reflexivity.
Qed.
