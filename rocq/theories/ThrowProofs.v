(** Proofs about interrupted calls. *)
From Coq Require Import Permutation.
From Verif Require Import Res ArithModel ThrowModel Spec ArithSpec ThrowSpec Lemmas ArithProofs.

Section Proofs.
Context {A : Type}.

Lemma attempt_length {S X : Type} (f : S -> X -> S * res A) xs : forall st st' ys r, attempt f st xs = (st', ys, r) ->
  (length ys <= length xs)%nat /\ (r = Ok tt <-> length ys = length xs).
Proof.
  induction xs as [|x xs IH]; intros st st' ys r E; cbn [attempt] in E.
  - injection E as <- <- <-. cbn. split; [lia|]. split; reflexivity.
  - destruct (f st x) as [s1 [y|e|]].
    + destruct (attempt f s1 xs) as [[s2 ys'] r'] eqn:E1. injection E as <- <- <-. destruct (IH _ _ _ _ E1) as [L H]. cbn [length]. split; [lia|]. rewrite H. lia.
    + injection E as <- <- <-. cbn [length]. split; [lia|]. split; intros; discriminate.
    + injection E as <- <- <-. cbn [length]. split; [lia|]. split; intros; discriminate.
Qed.

Lemma generateT_spec {S : Type} (func : S -> list A -> S * res A) n st mem a args tuples st' out r :
  Allocated mem a n -> Forall (fun b => a <= b \/ Apart a n b n) args -> length tuples = n ->
  (forall i, 0 <= i < Z.of_nat n -> readArgs mem (shifted args i) = zget tuples i) ->
  attempt func st tuples = (st', out, r) ->
  exists mem', generateT func n st mem a args = (st', mem', r) /\ Frame mem mem' a n /\
    (forall i, 0 <= i < Z.of_nat (length out) -> zget mem' (a + i) = zget out i) /\
    (forall i, Z.of_nat (length out) <= i -> zget mem' (a + i) = zget mem (a + i)).
Proof.
  revert st mem a args tuples out. induction n as [|n IH]; intros st mem a args tuples out HA HD HL HT HC.
  - destruct tuples; [|discriminate]. cbn [attempt] in HC. injection HC as <- <- <-.
    exists mem. split; [reflexivity|]. split; [apply Frame_refl|]. split; [cbn; intros; lia|auto].
  - destruct tuples as [|xs tuples]; [discriminate|]. cbn [attempt] in HC.
    assert (H0 : readArgs mem args = Ok xs).
    { specialize (HT 0). rewrite zget_cons_0 in HT. rewrite <- HT by lia. f_equal.
      unfold shifted. rewrite <- (map_id args) at 1. apply map_ext. intros. lia. }
    cbn [generateT]. rewrite H0. destruct (func st xs) as [st1 [v|e|]].
    + destruct (attempt func st1 tuples) as [[st2 out1] r1] eqn:Hc. injection HC as <- <- <-.
      destruct (Allocated_zset _ _ _ v HA) as [m Hm]. rewrite Hm.
      assert (G : forall j, j <> a -> zget m j = zget mem j) by (intros; eapply zset_get_neq; eauto).
      destruct (IH st1 m (a + 1) (map (fun b => b + 1) args) tuples out1) as [mem' [E [F [P Q]]]].
      * eapply Allocated_step; eauto.
      * apply Forall_map. eapply Forall_impl; [|exact HD]. intros b [Hb|Hb]; [left; lia|right].
        intros i j Hi Hj. specialize (Hb (i + 1) (j + 1)). lia.
      * cbn in HL. lia.
      * intros i Hi. rewrite shifted_shifted. rewrite (readArgs_ext mem).
        -- rewrite HT by lia. rewrite zget_cons_S by lia. f_equal. lia.
        -- unfold shifted. apply Forall_map. eapply Forall_impl; [|exact HD]. intros b Hb. apply G.
           destruct Hb as [Hb|Hb]; [lia|]. specialize (Hb 0 (i + 1)). lia.
      * exact Hc.
      * exists mem'. split; [exact E|]. split; [eapply Frame_step; eauto|]. split.
        -- intros i Hi. cbn [length] in Hi. destruct (Z.eq_dec i 0) as [->|Hn].
           ++ rewrite zget_cons_0. rewrite Z.add_0_r. destruct F as [_ F]. rewrite F by (left; lia). eapply zset_get_eq; eauto.
           ++ rewrite zget_cons_S by lia. rewrite <- P by lia. f_equal. lia.
        -- intros i Hi. cbn [length] in Hi. replace (a + i) with (a + 1 + (i - 1)) by lia. rewrite Q by lia. apply G. lia.
    + injection HC as <- <- <-. exists mem. split; [reflexivity|]. split; [apply Frame_refl|]. split; [cbn; intros; lia|auto].
    + injection HC as <- <- <-. exists mem. split; [reflexivity|]. split; [apply Frame_refl|]. split; [cbn; intros; lia|auto].
Qed.

Lemma applyT_spec {S : Type} (func : S -> list A -> S * res A) n st mem a args tuples st' out r :
  Allocated mem a n -> Forall (fun b => a <= b \/ Apart a n b n) args -> length tuples = n ->
  (forall i, 0 <= i < Z.of_nat n -> (x <- zget mem (a + i) ;; t <- readArgs mem (shifted args i) ;; Ok (x :: t)) = zget tuples i) ->
  attempt func st tuples = (st', out, r) ->
  exists mem', applyT func n st mem a args = (st', mem', r) /\ Frame mem mem' a n /\
    (forall i, 0 <= i < Z.of_nat (length out) -> zget mem' (a + i) = zget out i) /\
    (forall i, Z.of_nat (length out) <= i -> zget mem' (a + i) = zget mem (a + i)).
Proof. intros HA HF HL HT HC. unfold applyT. eapply generateT_spec; eauto. constructor; [left; lia|exact HF]. Qed.

Lemma readArgs_throw (mem : list A) args e : readArgs mem args <> Throw e.
Proof.
  induction args as [|b args IH]; cbn [readArgs]; [discriminate|]. destruct (zget mem b) eqn:E; cbn [bind]; [|exfalso|discriminate].
  - destruct (readArgs mem args); cbn [bind]; congruence.
  - unfold zget in E. destruct (b <? 0); [discriminate|]. destruct (nth_error mem (Z.to_nat b)); discriminate.
Qed.

Lemma transformT_spec (op : list A -> res A) reads a n order : forall mem mem' r, NoDup order -> Forall (fun k => 0 <= k < Z.of_nat n) order -> Allocated mem a n ->
  (forall k j, In k order -> In j order -> j <> k -> ~ In (a + j) (reads k)) ->
  transformT op reads order mem a = (mem', r) -> Interrupted op reads order mem mem' a r.
Proof.
  induction order as [|k order IH]; intros mem mem' r Hnd Hr HA Hx E; cbn [transformT] in E.
  - injection E as <- <-. exists [], []. cbn. repeat split; auto. intros k [].
  - inversion Hnd as [|? ? N1 N2]; subst. inversion Hr as [|? ? R1 R2]; subst.
    destruct (readArgs mem (reads k)) as [xs|e|] eqn:E0; [|destruct (readArgs_throw _ _ _ E0)|].
    + destruct (op xs) as [y|e|] eqn:E1.
      * assert (exists m, zset mem (a + k) y = Ok m) as [m Hm]. { destruct HA as [H0 H1]. rewrite zset_ok by lia. eauto. }
        rewrite Hm in E. assert (G : forall j, j <> a + k -> zget m j = zget mem j) by (intros; eapply zset_get_neq; eauto).
        assert (GR : forall k', In k' order -> readArgs m (reads k') = readArgs mem (reads k')).
        { intros k' Hk'. apply readArgs_ext. apply Forall_forall. intros b Hb. apply G. intros ->. apply (Hx k' k) in Hb; auto; [now right|now left|]. intros ->. contradiction. }
        destruct (IH m mem' r N2 R2) as (done & rest & -> & L & P & Q & R).
        -- destruct HA as [H0 H1]. split; [lia|]. rewrite (zset_length _ _ _ _ Hm). lia.
        -- intros k' j H1 H2 H3. apply Hx; auto; now right.
        -- exact E.
        -- exists (k :: done), rest. split; [reflexivity|]. split; [rewrite L; eapply zset_length; eauto|]. split; [|split].
           ++ intros k' [<-|Hk'].
              ** exists xs, y. split; [exact E0|]. split; [exact E1|]. rewrite Q; [eapply zset_get_eq; eauto|]. intros k'' Hk'' Eq.
                 assert (k = k'') by lia. subst. apply N1. apply in_or_app. now left.
              ** destruct (P k' Hk') as (xs' & y' & H1 & H2 & H3). exists xs', y'. rewrite <- GR by (apply in_or_app; now left). auto.
           ++ intros j Hj. rewrite Q; [apply G, Hj; now left|]. intros k' Hk'. apply Hj. now right.
           ++ destruct r as [u|e|]; [exact R| |].
              ** destruct R as (k' & rest' & xs' & -> & H1 & H2). exists k', rest', xs'. rewrite <- GR by (apply in_or_app; right; now left). auto.
              ** destruct R as (k' & rest' & -> & H1). exists k', rest'. rewrite <- GR by (apply in_or_app; right; now left). auto.
      * injection E as <- <-. exists [], (k :: order). cbn. repeat split; auto; [intros ? []|]. eauto 8.
      * injection E as <- <-. exists [], (k :: order). cbn. repeat split; auto; [intros ? []|]. eauto 8.
    + injection E as <- <-. exists [], (k :: order). cbn. repeat split; auto; [intros ? []|]. eauto 8.
Qed.

(** New instances *)
Lemma transformT_low (op : list A -> res A) reads a order : forall mem mem' r, Forall (fun k => 0 <= k) order ->
  transformT op reads order mem a = (mem', r) -> length mem' = length mem /\ forall j, j < a -> zget mem' j = zget mem j.
Proof.
  induction order as [|k order IH]; intros mem mem' r Hr E; cbn [transformT] in E.
  - injection E as <- <-. auto.
  - inversion Hr as [|? ? R1 R2]; subst.
    destruct (readArgs mem (reads k)) as [xs|e|]; [|injection E as <- <-; auto|injection E as <- <-; auto].
    destruct (op xs) as [y|e|]; [|injection E as <- <-; auto|injection E as <- <-; auto].
    destruct (zset mem (a + k) y) as [m|e|] eqn:Hm; [|injection E as <- <-; auto|injection E as <- <-; auto].
    destruct (IH m mem' r R2 E) as [L P]. split; [rewrite L; eapply zset_length; eauto|]. intros j Hj. rewrite P by exact Hj. eapply zset_get_neq; eauto. lia.
Qed.

Lemma list_ext (l l' : list A) : length l = length l' -> (forall j, 0 <= j < Z.of_nat (length l) -> zget l j = zget l' j) -> l = l'.
Proof.
  revert l'. induction l as [|x l IH]; intros [|y l'] L H; try discriminate; [reflexivity|]. f_equal.
  - specialize (H 0). rewrite !zget_cons_0 in H. cbn [length] in H. assert (Ok x = Ok y) by (apply H; lia). congruence.
  - apply IH; [cbn in L; lia|]. intros j Hj. specialize (H (j + 1)). rewrite !zget_cons_S in H by lia. replace (j + 1 - 1) with j in H by lia. apply H. cbn [length]. lia.
Qed.

Lemma zget_firstn n (l : list A) j : j < Z.of_nat n -> zget (firstn n l) j = zget l j.
Proof.
  intros H. unfold zget. destruct (Z.ltb_spec j 0); [reflexivity|]. replace (nth_error (firstn n l) (Z.to_nat j)) with (nth_error l (Z.to_nat j)); [reflexivity|].
  assert (K : (Z.to_nat j < n)%nat) by lia. clear H H0. revert l n K. induction (Z.to_nat j) as [|m IH]; intros [|x l] [|n] K; try lia; cbn; auto. apply IH. lia.
Qed.

Lemma newT_strong (op : list A -> res A) reads order n mem a mem' e : Forall (fun k => 0 <= k) order ->
  newT op reads order n mem a = (mem', Throw e) -> mem' = mem.
Proof.
  unfold newT. intros Hr E. destruct (zgetN n mem a) as [l|e'|]; [|injection E as <- _; reflexivity|discriminate].
  destruct (transformT op reads order (mem ++ l) (Z.of_nat (length mem))) as [m r] eqn:T. destruct r as [u|e'|]; try discriminate. injection E as <- _.
  destruct (transformT_low _ _ _ _ _ _ _ Hr T) as [L P]. rewrite app_length in L. apply list_ext; [rewrite firstn_length; lia|].
  intros j Hj. rewrite firstn_length in Hj. rewrite zget_firstn by lia. rewrite P by lia. unfold zget. destruct (Z.ltb_spec j 0); [reflexivity|].
  rewrite nth_error_app1 by lia. reflexivity.
Qed.

Lemma newT_frame (op : list A -> res A) reads order n mem a mem' r : Forall (fun k => 0 <= k) order ->
  newT op reads order n mem a = (mem', r) -> forall j, j < Z.of_nat (length mem) -> zget mem' j = zget mem j.
Proof.
  intros Hr E j Hj. destruct r as [u|e|]; [|now rewrite (newT_strong _ _ _ _ _ _ _ _ Hr E)|];
  (unfold newT in E; destruct (zgetN n mem a) as [l|e'|]; [|discriminate|try discriminate; injection E as <-; reflexivity];
   destruct (transformT op reads order (mem ++ l) (Z.of_nat (length mem))) as [m r] eqn:T; destruct r as [u'|e'|]; try discriminate; injection E as <-;
   destruct (transformT_low _ _ _ _ _ _ _ Hr T) as [L P]; rewrite P by lia; unfold zget; destruct (Z.ltb_spec j 0); [reflexivity|]; rewrite nth_error_app1 by lia; reflexivity).
Qed.

(** Second attempts *)
Lemma generateT_retry {S T : Type} (f : S -> list A -> S * res A) (g : T -> list A -> T * res A) n mem a args tuples st st1 mem1 r t t1 out :
  Allocated mem a n -> Forall (fun b => Apart a n b n) args -> length tuples = n ->
  (forall i, 0 <= i < Z.of_nat n -> readArgs mem (shifted args i) = zget tuples i) ->
  generateT f n st mem a args = (st1, mem1, r) -> attempt g t tuples = (t1, out, Ok tt) ->
  exists mem', generateT g n t mem a args = (t1, mem', Ok tt) /\ generateT g n t mem1 a args = (t1, mem', Ok tt).
Proof.
  intros HA HD HL HT Hf Hg. assert (HD' : Forall (fun b => a <= b \/ Apart a n b n) args) by (eapply Forall_impl; [|exact HD]; auto).
  destruct (attempt f st tuples) as [[st2 out2] r2] eqn:Ef.
  destruct (generateT_spec f n st mem a args tuples _ _ _ HA HD' HL HT Ef) as (m1 & E1 & F1 & _). rewrite E1 in Hf. injection Hf as _ -> _.
  destruct (generateT_spec g n t mem a args tuples _ _ _ HA HD' HL HT Hg) as (m & E & F & P & Q).
  assert (L : length out = n). { destruct (attempt_length _ _ _ _ _ _ Hg) as [_ H]. rewrite <- HL. now apply H. }
  assert (HA1 : Allocated mem1 a n) by (destruct HA as [H0 H1]; destruct F1 as [L1 _]; split; [lia|rewrite L1; lia]).
  assert (HT1 : forall i, 0 <= i < Z.of_nat n -> readArgs mem1 (shifted args i) = zget tuples i).
  { intros i Hi. rewrite (readArgs_ext mem); [now apply HT|]. unfold shifted. apply Forall_map. eapply Forall_impl; [|exact HD]. intros b Hb. apply F1.
    unfold Outside. destruct (Z_lt_le_dec (b + i) a); [now left|]. destruct (Z_le_gt_dec (a + Z.of_nat n) (b + i)); [now right|].
    exfalso. apply (Hb (b + i - a) i); lia. }
  destruct (generateT_spec g n t mem1 a args tuples _ _ _ HA1 HD' HL HT1 Hg) as (m2 & E2 & F2 & P2 & Q2).
  exists m. split; [exact E|]. replace m with m2; [exact E2|]. destruct F as [L1 F], F1 as [L2 F1], F2 as [L3 F2]. apply list_ext; [lia|]. intros j Hj.
  destruct (Z_lt_le_dec j a) as [C|C].
  - rewrite F2, F1, F by (left; exact C). reflexivity.
  - destruct (Z_le_gt_dec (a + Z.of_nat n) j) as [C'|C']; [rewrite F2, F1, F by (right; exact C'); reflexivity|].
    replace j with (a + (j - a)) by lia. rewrite P, P2 by lia. reflexivity.
Qed.

(** The model without interruption *)
Lemma generateT_generate {S : Type} (func : S -> list A -> res (S * A)) n : forall st mem a args st' mem',
  generateT (lift func) n st mem a args = (st', mem', Ok tt) <-> generate func n st mem a args = Ok (st', mem').
Proof.
  induction n as [|n IH]; intros st mem a args st' mem'; cbn [generateT generate].
  - split; intros E; [injection E as <- <-|injection E as <- <-]; reflexivity.
  - destruct (readArgs mem args) as [xs|e|]; cbn [bind]; [|split; discriminate|split; discriminate].
    unfold lift at 1. destruct (func st xs) as [[s1 y]|e|]; cbn [bind fst snd]; [|split; discriminate|split; discriminate].
    destruct (zset mem a y) as [m|e|]; cbn [bind]; [apply IH|split; discriminate|split; discriminate].
Qed.

Lemma transformT_transform2 (op : A -> A -> res A) n : forall i mem a b mem',
  transformT (fun xs => match xs with [x; y] => op x y | _ => UB end) (fun k => [a + k; b + k]) (zrange i (i + Z.of_nat n - 1)) mem a = (mem', Ok tt) <->
  transform2 op n mem (a + i) (b + i) = Ok mem'.
Proof.
  induction n as [|n IH]; intros i mem a b mem'.
  - replace (zrange i (i + Z.of_nat 0 - 1)) with (@nil Z) by (unfold zrange; replace (Z.to_nat (i + Z.of_nat 0 - 1 - i + 1)) with O by lia; reflexivity).
    cbn. split; intros E; injection E as <-; reflexivity.
  - assert (E : zrange i (i + Z.of_nat (S n) - 1) = i :: zrange (i + 1) (i + 1 + Z.of_nat n - 1)).
    { unfold zrange. replace (Z.to_nat (i + Z.of_nat (S n) - 1 - i + 1)) with (S n) by lia. replace (Z.to_nat (i + 1 + Z.of_nat n - 1 - (i + 1) + 1)) with n by lia.
      cbn [seq map]. f_equal; [lia|]. rewrite <- seq_shift, map_map. apply map_ext. intros. lia. }
    rewrite E. cbn [transformT transform2 readArgs]. destruct (zget mem (a + i)) as [x|e|]; cbn [bind]; [|split; discriminate|split; discriminate].
    destruct (zget mem (b + i)) as [y|e|]; cbn [bind]; [|split; discriminate|split; discriminate].
    destruct (op x y) as [z|e|]; cbn [bind]; [|split; discriminate|split; discriminate].
    destruct (zset mem (a + i) z) as [m|e|]; cbn [bind]; [|split; discriminate|split; discriminate].
    rewrite IH. replace (a + (i + 1)) with (a + i + 1) by lia. replace (b + (i + 1)) with (b + i + 1) by lia. reflexivity.
Qed.
End Proofs.

(** Witnesses *)
Definition increment (xs : list Z) : res Z := match xs with [x] => Ok (x + 1) | _ => UB end.
Definition incrementBelow (limit : Z) (xs : list Z) : res Z := match xs with [x] => if x <? limit then Ok (x + 1) else Throw EGeneric | _ => UB end.

Lemma inplace_witness : exists (op : list Z -> res Z) reads order n mem mem' a e, Permutation order (zrange 0 (Z.of_nat n - 1)) /\ Allocated mem a n /\ (forall k, reads k = [a + k]) /\
  transformT op reads order mem a = (mem', Throw e) /\ mem' <> mem.
Proof.
  exists (incrementBelow 3), (fun k => [0 + k]), [0; 1; 2], 3%nat, [1; 2; 3], [2; 3; 3], 0, EGeneric.
  split; [apply Permutation_refl|]. split; [split; cbn; lia|]. split; [reflexivity|]. split; [reflexivity|discriminate].
Qed.

Lemma retry_witness : exists (f g : unit -> list Z -> unit * res Z) n mem mem1 m1 m2 a e, Allocated mem a n /\
  (forall xs y, snd (f tt xs) = Ok y -> snd (g tt xs) = Ok y) /\
  applyT f n tt mem a [] = (tt, mem1, Throw e) /\ applyT g n tt mem a [] = (tt, m1, Ok tt) /\ applyT g n tt mem1 a [] = (tt, m2, Ok tt) /\ m1 <> m2.
Proof.
  exists (fun _ xs => (tt, incrementBelow 3 xs)), (fun _ xs => (tt, increment xs)), 3%nat, [1; 2; 3], [2; 3; 3], [2; 3; 4], [3; 4; 4], 0, EGeneric.
  split; [split; cbn; lia|]. split; [|split; [reflexivity|split; [reflexivity|split; [reflexivity|discriminate]]]].
  intros [|x [|x' xs]] y; cbn; try discriminate. destruct (x <? 3); [auto|discriminate].
Qed.
