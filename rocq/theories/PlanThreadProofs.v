(** Proofs for PropsPlanThread.v. *)
From Verif Require Import Res Lemmas AlignedModel AlignedSpec AlignedProofs DftModel DftSpec DftProofs PlanModel PlanSpec PlanProofs PlanUseProofs PlanThreadModel PlanThreadSpec.

(** * Programs alone *)
Lemma alone_local f p : Within f p -> forall m m', (forall a, InArrays f a -> m a = m' a) ->
  accesses p m = accesses p m' /\ forall a, InArrays f a -> alone p m a = alone p m' a.
Proof.
  induction 1 as [|b k Hb Hk IH|b v k Hb Hk IH]; intros m m' E; cbn [accesses alone]; [auto| |].
  - rewrite (E b Hb). destruct (IH (m' b) m m' E) as [-> X]. auto.
  - destruct (IH (upd m b v) (upd m' b v)) as [-> X]; [|auto]. intros a Ha. unfold upd. destruct (a =? b); auto.
Qed.

Lemma alone_outside f p : Within f p -> forall m a, ~ InArrays f a -> alone p m a = m a.
Proof.
  induction 1 as [|b k Hb Hk IH|b v k Hb Hk IH]; intros m a N; cbn [alone]; [reflexivity|auto|].
  rewrite IH by exact N. unfold upd. destruct (Z.eqb_spec a b); [subst; contradiction|reflexivity].
Qed.

(** * One access *)
Definition Separate (fs : list fftw) : Prop := forall i j f g, nth_error fs i = Some f -> nth_error fs j = Some g -> i <> j -> Apart f g.
Definition Each (fs : list fftw) (ps : list program) : Prop :=
  length fs = length ps /\ forall i f p, nth_error fs i = Some f -> nth_error ps i = Some p -> Within f p.

Lemma Forall2_each fs ps : Forall2 Within fs ps -> Each fs ps.
Proof.
  induction 1 as [|f p fs ps H _ [L IH]]; [split; [reflexivity|intros [|i]; discriminate]|]. split; [cbn; lia|].
  intros [|i] g q; cbn; [intros [= <-] [= <-]; exact H|apply IH].
Qed.

Lemma at_plan fs ps i p : Each fs ps -> nth_error ps i = Some p -> exists f, nth_error fs i = Some f /\ Within f p.
Proof.
  intros [L W] H. destruct (nth_error fs i) as [f|] eqn:E; [eauto|]. apply nth_error_None in E.
  assert (i < length ps)%nat by (apply nth_error_Some; congruence). lia.
Qed.

Lemma total_one i q m m' : forall ps p, nth_error ps i = Some p ->
  (forall j x, j <> i -> nth_error ps j = Some x -> accesses x m' = accesses x m) -> accesses p m = S (accesses q m') ->
  total ps m = S (total (replace ps i q) m').
Proof.
  induction i as [|i IH]; intros [|x ps] p H E EQ; try discriminate; cbn [replace total fold_right nth_error] in *.
  - injection H as ->. rewrite EQ. cbn. f_equal. f_equal.
    assert (X : forall j y, nth_error ps j = Some y -> accesses y m' = accesses y m) by (intros j y; apply (E (S j)); lia).
    clear - X. induction ps as [|y ps IH]; cbn; [reflexivity|]. rewrite (X 0%nat y eq_refl), IH; [reflexivity|]. intros j; apply (X (S j)).
  - rewrite (E 0%nat x ltac:(lia) eq_refl). fold (total ps m). fold (total (replace ps i q) m').
    rewrite (IH ps p H); [lia| |exact EQ]. intros j y N. apply (E (S j)). lia.
Qed.

Lemma advance_one fs s i s1 : Separate fs -> Each fs (threads s) -> advance s i = Some s1 ->
  Each fs (threads s1) /\ total (threads s) (pmem s) = S (total (threads s1) (pmem s1)) /\
  (forall j f p p1 a, nth_error fs j = Some f -> nth_error (threads s) j = Some p -> nth_error (threads s1) j = Some p1 -> InArrays f a ->
     alone p1 (pmem s1) a = alone p (pmem s) a) /\
  (forall a, (forall f, In f fs -> ~ InArrays f a) -> pmem s1 a = pmem s a).
Proof.
  intros SP EA H. unfold advance in H. destruct (nth_error (threads s) i) as [p|] eqn:Ep; [|discriminate].
  destruct (at_plan _ _ _ _ EA Ep) as (f & Ef & W).
  assert (GEN : forall q m', s1 = mkPool m' (replace (threads s) i q) -> Within f q -> accesses p (pmem s) = S (accesses q m') ->
    (forall a, InArrays f a -> alone q m' a = alone p (pmem s) a) -> (forall a, ~ InArrays f a -> m' a = pmem s a) ->
    Each fs (threads s1) /\ total (threads s) (pmem s) = S (total (threads s1) (pmem s1)) /\
    (forall j f p p1 a, nth_error fs j = Some f -> nth_error (threads s) j = Some p -> nth_error (threads s1) j = Some p1 -> InArrays f a ->
       alone p1 (pmem s1) a = alone p (pmem s) a) /\
    (forall a, (forall f, In f fs -> ~ InArrays f a) -> pmem s1 a = pmem s a)).
  { intros q m' -> Wq Ac Al Out. cbn [threads pmem]. destruct EA as [L WA].
    assert (LOC : forall j g x, j <> i -> nth_error fs j = Some g -> nth_error (threads s) j = Some x ->
      accesses x m' = accesses x (pmem s) /\ forall a, InArrays g a -> alone x m' a = alone x (pmem s) a).
    { intros j g x N Eg Ex. apply (alone_local g x (WA j g x Eg Ex)). intros a Ha. apply Out. exact (SP j i g f Eg Ef N a Ha). }
    split; [|split; [|split]].
    - split; [rewrite replace_length; exact L|]. intros j g x Eg Ex. apply nth_error_replace_inv in Ex as [(-> & -> & _)|[N Ex]]; [congruence|eauto].
    - apply (total_one i q (pmem s) m' (threads s) p Ep); [|exact Ac]. intros j x N Ex. destruct (at_plan fs (threads s) j x (conj L WA) Ex) as (g & Eg & _).
      exact (proj1 (LOC j g x N Eg Ex)).
    - intros j g x x1 a Eg Ex Ex1 Ha. apply nth_error_replace_inv in Ex1 as [(-> & -> & _)|[N Ex1]].
      + assert (x = p) by congruence. assert (g = f) by congruence. subst. apply Al. exact Ha.
      + assert (x1 = x) by congruence. subst x1. apply (LOC j g x N Eg Ex). exact Ha.
    - intros a N. apply Out. apply N. eapply nth_error_In. exact Ef. }
  destruct p as [|a k|a v k]; [discriminate| |]; injection H as <-.
  - inversion W as [|? ? Ha Wk|]; subst. eapply GEN; [reflexivity|apply Wk|reflexivity|reflexivity|reflexivity].
  - inversion W as [| |? ? ? Ha Wk]; subst. eapply GEN; [reflexivity|exact Wk|reflexivity|reflexivity|].
    intros b N. unfold upd. destruct (Z.eqb_spec b a); [subst; contradiction|reflexivity].
Qed.

(** * Interleavings *)
Lemma interleaving_inv fs sched : Separate fs -> forall s s', Each fs (threads s) -> interleaving s sched s' ->
  Each fs (threads s') /\ total (threads s) (pmem s) = (length sched + total (threads s') (pmem s'))%nat /\
  (forall j f p p1 a, nth_error fs j = Some f -> nth_error (threads s) j = Some p -> nth_error (threads s') j = Some p1 -> InArrays f a ->
     alone p1 (pmem s') a = alone p (pmem s) a) /\
  (forall a, (forall f, In f fs -> ~ InArrays f a) -> pmem s' a = pmem s a).
Proof.
  intros SP. induction sched as [|i sched IH]; intros s s' EA H; inversion H as [|? s1 ? ? H1 H2]; subst.
  - split; [exact EA|]. split; [reflexivity|]. split; [|reflexivity]. intros j f p p1 a _ E1 E2. congruence.
  - destruct (advance_one fs s i s1 SP EA H1) as (EA1 & T1 & A1 & O1). destruct (IH s1 s' EA1 H2) as (EA2 & T2 & A2 & O2).
    split; [exact EA2|]. split; [rewrite T1, T2; reflexivity|]. split.
    + intros j f p p2 a Ef Ep Ep2 Ha. destruct (nth_error (threads s1) j) as [p1|] eqn:E1.
      * rewrite (A2 j f p1 p2 a Ef E1 Ep2 Ha). exact (A1 j f p p1 a Ef Ep E1 Ha).
      * apply nth_error_None in E1. destruct EA1 as [L1 _]. assert (j < length fs)%nat by (apply nth_error_Some; congruence). lia.
    + intros a N. rewrite O2, O1 by exact N. reflexivity.
Qed.

Lemma separate_no_race fs s : Separate fs -> Each fs (threads s) -> ~ Race s.
Proof.
  intros SP EA (i & j & p & q & a & w & w' & N & Ep & Eq & Np & Nq & _).
  destruct (at_plan _ _ _ _ EA Ep) as (f & Ef & Wf). destruct (at_plan _ _ _ _ EA Eq) as (g & Eg & Wg).
  assert (X : forall h r c, Within h r -> next r = Some (a, c) -> InArrays h a) by (intros h r c []; cbn [next]; congruence).
  exact (SP i j f g Ef Eg N a (X _ _ _ Wf Np) (X _ _ _ Wg Nq)).
Qed.

Lemma finishes fs : Separate fs -> forall n s, Each fs (threads s) -> total (threads s) (pmem s) = n -> exists sched s', interleaving s sched s' /\ Finished s'.
Proof.
  intros SP. induction n as [|n IH]; intros s EA E.
  - exists [], s. split; [constructor|]. unfold Finished. clear EA. generalize dependent (pmem s). intros m. induction (threads s) as [|p ps IHp]; cbn; intros E; [constructor|].
    constructor; [|apply IHp; fold (total ps m) in E; lia]. destruct p; cbn in E; [reflexivity|discriminate|discriminate].
  - assert (X : exists i s1, advance s i = Some s1).
    { assert (Y : forall m ps, total ps m <> 0%nat -> exists i p, nth_error ps i = Some p /\ p <> Done).
      { clear. induction ps as [|p ps IH]; cbn; [lia|]. intros N. destruct p; [|exists 0%nat; eexists; split; [reflexivity|discriminate] ..].
        destruct IH as (i & q & H); [exact N|]. exists (S i), q. exact H. }
      destruct (Y (pmem s) (threads s)) as (i & p & H & N); [lia|]. exists i. unfold advance. rewrite H. destruct p; [congruence|eauto|eauto]. }
    destruct X as (i & s1 & H). destruct (advance_one fs s i s1 SP EA H) as (EA1 & T1 & _). destruct (IH s1 EA1) as (sched & s' & R & F); [lia|].
    exists (i :: sched), s'. split; [econstructor; eassumption|exact F].
Qed.

Lemma parallel fs ps m : Forall2 Within fs ps -> (forall i j f g, nth_error fs i = Some f -> nth_error fs j = Some g -> i <> j -> Apart f g) ->
  Independent fs ps m.
Proof.
  intros W SP sched s H. assert (EA : Each fs (threads (mkPool m ps))) by (apply Forall2_each; exact W).
  destruct (interleaving_inv fs sched SP _ _ EA H) as (EA' & T & A & O). cbn [threads pmem] in *.
  split; [eapply separate_no_race; eassumption|]. split; [lia|]. split; [eapply finishes; [exact SP|exact EA'|reflexivity]|].
  intros F. assert (Z0 : total (threads s) (pmem s) = 0%nat).
  { clear - F. unfold Finished in F. induction F as [|p l E F IH]; [reflexivity|]. subst p. exact IH. }
  split; [lia|]. split; [|exact O]. intros i f p a Ef Ep Ha. destruct (nth_error (threads s) i) as [q|] eqn:Eq.
  - rewrite <- (A i f p q a Ef Ep Eq Ha). unfold Finished in F. rewrite Forall_forall in F. rewrite (F q (nth_error_In _ _ Eq)). reflexivity.
  - apply nth_error_None in Eq. destruct EA' as [L _]. assert (i < length fs)%nat by (apply nth_error_Some; congruence). lia.
Qed.

(** * Races *)
Lemma interleaving_app s l1 s1 l2 s2 : interleaving s l1 s1 -> interleaving s1 l2 s2 -> interleaving s (l1 ++ l2) s2.
Proof. intros H. revert l2 s2. induction H as [|i s s1 l s2 H1 H2 IH]; intros l2 s3 H3; [exact H3|]. cbn. econstructor; [exact H1|]. apply IH. exact H3. Qed.

(** Thread [i] runs until its access to byte [a]. *)
Lemma run_until i a w l : forall s p, nth_error (threads s) i = Some p -> Performs p l -> In (a, w) l ->
  exists sched s' p', interleaving s sched s' /\ nth_error (threads s') i = Some p' /\ next p' = Some (a, w) /\
    forall j, j <> i -> nth_error (threads s') j = nth_error (threads s) j.
Proof.
  assert (LT : forall (s : pool) p, nth_error (threads s) i = Some p -> (i < length (threads s))%nat) by (intros s p H; apply nth_error_Some; congruence).
  induction l as [|[b c] l IH]; intros s p Ep P HI; [destruct HI|].
  assert (HERE : forall x, next p = Some x -> x = (a, w) -> exists sched s' p', interleaving s sched s' /\ nth_error (threads s') i = Some p' /\ next p' = Some (a, w) /\
    forall j, j <> i -> nth_error (threads s') j = nth_error (threads s) j).
  { intros x Hx ->. exists [], s, p. split; [constructor|]. auto. }
  destruct HI as [E|HI]; [inversion P; subst; (eapply HERE; [reflexivity|congruence])|].
  assert (MOVE : forall q m', advance s i = Some (mkPool m' (replace (threads s) i q)) -> Performs q l -> exists sched s' p', interleaving s sched s' /\ nth_error (threads s') i = Some p' /\ next p' = Some (a, w) /\
    forall j, j <> i -> nth_error (threads s') j = nth_error (threads s) j).
  { intros q m' H Pq. destruct (IH (mkPool m' (replace (threads s) i q)) q) as (sched & s' & p' & R & E1 & E2 & E3); [cbn [threads]; apply nth_error_replace_eq; eapply LT; exact Ep|exact Pq|exact HI|].
    exists (i :: sched), s', p'. split; [econstructor; [exact H|exact R]|]. split; [exact E1|]. split; [exact E2|]. intros j N. rewrite (E3 j N). cbn [threads]. apply nth_error_replace_neq. auto. }
  inversion P as [|? k ? Pk|? v k ? Pk]; subst.
  - apply (MOVE (k (pmem s b)) (pmem s)); [unfold advance; rewrite Ep; reflexivity|apply Pk].
  - apply (MOVE k (upd (pmem s) b v)); [unfold advance; rewrite Ep; reflexivity|exact Pk].
Qed.

Lemma conflict_races m ps i j p q lp lq a w w' : nth_error ps i = Some p -> nth_error ps j = Some q -> i <> j -> Performs p lp -> Performs q lq ->
  In (a, w) lp -> In (a, w') lq -> w || w' = true -> exists sched s, interleaving (mkPool m ps) sched s /\ Race s.
Proof.
  intros Ep Eq N Pp Pq Ip Iq C. destruct (run_until i a w lp (mkPool m ps) p Ep Pp Ip) as (l1 & s1 & p1 & R1 & E1 & N1 & F1).
  assert (Eq1 : nth_error (threads s1) j = Some q) by (rewrite F1 by auto; exact Eq).
  destruct (run_until j a w' lq s1 q Eq1 Pq Iq) as (l2 & s2 & q2 & R2 & E2 & N2 & F2).
  exists (l1 ++ l2), s2. split; [eapply interleaving_app; eassumption|].
  exists i, j, p1, q2, a, w, w'. split; [exact N|]. split; [rewrite F2 by exact N; exact E1|]. auto.
Qed.

(** * The plans *)
(** The allocated blocks are apart. *)
Definition BlocksApart (m : state) : Prop :=
  forall p n q k, In (p, n) (live m) -> In (q, k) (live m) -> (p, n) = (q, k) \/ p + Z.max 1 n <= q \/ q + Z.max 1 k <= p.

Lemma apart_malloc l n p l' : (forall p n q k, In (p, n) l -> In (q, k) l -> (p, n) = (q, k) \/ p + Z.max 1 n <= q \/ q + Z.max 1 k <= p) -> malloc l n p l' ->
  (forall p n q k, In (p, n) l' -> In (q, k) l' -> (p, n) = (q, k) \/ p + Z.max 1 n <= q \/ q + Z.max 1 k <= p).
Proof.
  intros A M. apply malloc_spec in M as [[_ ->]|(_ & -> & _ & _ & F)]; [exact A|].
  intros a b c d [E|H] [E'|H'].
  - left. congruence.
  - injection E as <- <-. specialize (F _ _ H'). lia.
  - injection E' as <- <-. specialize (F _ _ H). lia.
  - apply A; assumption.
Qed.
Lemma apart_sub (l l' : list (Z * Z)) : (forall x, In x l' -> In x l) -> (forall p n q k, In (p, n) l -> In (q, k) l -> (p, n) = (q, k) \/ p + Z.max 1 n <= q \/ q + Z.max 1 k <= p) ->
  (forall p n q k, In (p, n) l' -> In (q, k) l' -> (p, n) = (q, k) \/ p + Z.max 1 n <= q \/ q + Z.max 1 k <= p).
Proof. intros S A p n q k H H'. apply A; auto. Qed.
Lemma free_sub l p l' : free l p = Ok l' -> forall x, In x l' -> In x l.
Proof. intros H [q n] X. apply (free_spec _ _ _ H) in X. tauto. Qed.
Lemma reset_sub l b c l' : resetBuf l b = Ok (c, l') -> forall x, In x l' -> In x l.
Proof.
  unfold resetBuf. destruct (owns b); [|intros [= <- <-]; auto]. destruct (free l (bcont b)) eqn:E; cbn [bind]; try discriminate. intros [= <- <-]. eapply free_sub; exact E.
Qed.
Lemma apart_construct elt l size data align b l' : (forall p n q k, In (p, n) l -> In (q, k) l -> (p, n) = (q, k) \/ p + Z.max 1 n <= q \/ q + Z.max 1 k <= p) ->
  construct elt l size data align (Ok (b, l')) ->
  (forall p n q k, In (p, n) l' -> In (q, k) l' -> (p, n) = (q, k) \/ p + Z.max 1 n <= q \/ q + Z.max 1 k <= p).
Proof.
  intros A H. remember (Ok (b, l')) as r eqn:Er. destruct H as [N|p l1 N M].
  - destruct (isAligned _ _) as [[]| |]; cbn [bind] in Er; try discriminate. injection Er as <- <-. exact A.
  - injection Er as <- <-. eapply apart_malloc; eassumption.
Qed.

Lemma apart_step elt s o s' : BlocksApart s -> step elt s o (Ok s') -> BlocksApart s'.
Proof.
  intros A H. unfold BlocksApart in *. remember (Ok s') as r0 eqn:Er.
  destruct H as [size data align r H|i b r Hi H|i b Hi|i b Hi|i j b c p l' N Hi Hj Ho M|i j b c N Hi Hj Ho|i b Hi|i j b c N Hi Hj|i b Hi|i b Hi|i b Hi|p Hp].
  - destruct r as [[b l']| |]; try discriminate; injection Er as <-; [eapply apart_construct; eassumption|exact A].
  - destruct r as [[b' l']| |]; try discriminate; injection Er as <-; [eapply apart_construct; eassumption|exact A].
  - destruct (resetBuf _ _) as [[c l']| |] eqn:E; cbn [bind] in Er; try discriminate. injection Er as <-. cbn [live snd]. eapply apart_sub; [eapply reset_sub; exact E|exact A].
  - injection Er as <-. exact A.
  - injection Er as <-. eapply apart_malloc; eassumption.
  - injection Er as <-. exact A.
  - injection Er as <-. exact A.
  - destruct (resetBuf _ _) as [[d l']| |] eqn:E; cbn [bind] in Er; try discriminate. injection Er as <-. cbn [live snd]. eapply apart_sub; [eapply reset_sub; exact E|exact A].
  - injection Er as <-. exact A.
  - destruct (resetBuf _ _) as [[d l']| |] eqn:E; cbn [bind] in Er; try discriminate. injection Er as <-. cbn [live snd]. eapply apart_sub; [eapply reset_sub; exact E|exact A].
  - destruct (resetBuf _ _) as [[d l']| |] eqn:E; cbn [bind] in Er; try discriminate. injection Er as <-. cbn [live snd]. eapply apart_sub; [eapply reset_sub; exact E|exact A].
  - destruct (free _ _) as [l| |] eqn:E; cbn [bind] in Er; try discriminate. injection Er as <-. cbn [live]. eapply apart_sub; [eapply free_sub; exact E|exact A].
Qed.
Lemma apart_run elt ops : forall s s', BlocksApart s -> run elt s ops (Ok s') -> BlocksApart s'.
Proof.
  induction ops as [|o ops IH]; intros s s' A H; inversion H as [|? s1 ? ? H1 H2|? ? ? H1 H2]; subst; [exact A|eapply IH; [eapply apart_step; eassumption|exact H2]|].
  destruct (H2 s' eq_refl).
Qed.

(** The buffers of plans which own their data are aligned and sized as constructed. *)
Definition Sized (s : pstate) (p : dplan) : Prop :=
  forall k b, k = din p \/ k = dout p -> alive (mem s) k b ->
    (owns b = true -> bas b = 64) /\ (PlanShape (dshape p) -> 0 <= bsize b /\ 8 * bsize b + 63 < 2 ^ 64).
Definition AllSized (s : pstate) : Prop := forall i p, planAt s i p -> Sized s p.

Lemma sized_frame s o s' i p : PInv s -> pstep s o (Ok s') -> planAt s i p -> ~ PTouches s o (din p) -> ~ PTouches s o (dout p) -> Sized s p -> Sized s' p.
Proof.
  intros HI H Hp Ti To S k b Ek Hb. apply (S k b Ek). destruct Ek as [->| ->].
  - destruct (pi_in _ HI _ _ Hp) as [c Hc]. assert (X : alive (mem s') (din p) c) by (eapply frame_buffer; eassumption). rewrite (alive_fun _ _ _ _ Hb X). exact Hc.
  - destruct (pi_out _ HI _ _ Hp) as [c Hc]. assert (X : alive (mem s') (dout p) c) by (eapply frame_buffer; eassumption). rewrite (alive_fun _ _ _ _ Hb X). exact Hc.
Qed.

Lemma newPlan_sized s t shape i o s' p : newPlan s t shape i o (Ok s') -> planAt s' (length (plans s)) p -> Sized s' p.
Proof.
  intros H Hp. destruct (newPlan_ok_form _ _ _ _ _ _ H) as (m1 & ci & co & inS & outS & dims & h & Hi & Ho & Hd & H1 & H2 & Eb & Eb1 & Ep & _).
  unfold planAt in Hp. rewrite Ep, nth_error_app2, Nat.sub_diag in Hp by lia. cbn in Hp. injection Hp as <-. cbn [din dout dshape].
  destruct (step_new_form _ _ _ _ H1) as (d1 & E1 & S1 & _ & X1). destruct (step_new_form _ _ _ _ H2) as (d2 & E2 & S2 & _ & X2).
  rewrite Eb1 in E1. apply app_inv_head in E1. injection E1 as <-.
  rewrite Eb, Eb1, <- app_assoc in E2. cbn [app] in E2. apply app_inv_head in E2. injection E2 as <-.
  intros k b Ek Hb. cbn [din dout dshape] in *. unfold alive in Hb. rewrite Eb in Hb.
  assert (W : 1 <= inWidth t <= 2 /\ 1 <= outWidth t <= 2) by (destruct t; cbn; lia).
  destruct Ek as [->| ->].
  - rewrite nth_error_app2, Nat.sub_diag in Hb by lia. cbn in Hb. injection Hb as <-. split.
    + intros O. destruct X1 as [(_ & _ & _ & X & _)|(_ & X & _)]; [apply owns_spec in O; contradiction|exact X].
    + intros PS. destruct (shape_extents t shape inS outS dims PS Hi Ho Hd) as (_ & _ & B1 & B2 & U1 & U2). destruct PS as [_ PB]. rewrite S1, U1. nia.
  - rewrite nth_error_app2 in Hb by lia. replace (S (length (bufs (mem s))) - length (bufs (mem s)))%nat with 1%nat in Hb by lia. cbn in Hb. injection Hb as <-. split.
    + intros O. destruct X2 as [(_ & _ & _ & X & _)|(_ & X & _)]; [apply owns_spec in O; contradiction|exact X].
    + intros PS. destruct (shape_extents t shape inS outS dims PS Hi Ho Hd) as (_ & _ & B1 & B2 & U1 & U2). destruct PS as [_ PB]. rewrite S2, U2. nia.
Qed.

(** An emptied buffer meets the invariant. *)
Lemma emptied_sized P : (owns (mkBuffer 0 1 0 0) = true -> bas (mkBuffer 0 1 0 0) = 64) /\ (P -> 0 <= bsize (mkBuffer 0 1 0 0) /\ 8 * bsize (mkBuffer 0 1 0 0) + 63 < 2 ^ 64).
Proof. split; [discriminate|]. intros _. cbn. lia. Qed.

Lemma sized_step s o s' : PInv s -> AllSized s -> pstep s o (Ok s') -> ~ Reassigns s o -> AllSized s'.
Proof.
  intros HI HS H R. assert (H0 := H). remember (Ok s') as r0 eqn:Er.
  assert (NEW : forall t shape a b, newPlan s t shape a b (Ok s') -> (forall k, ~ PTouches s o k) -> pstep s o (Ok s') -> AllSized s').
  { intros t shape a b X T P k p Hp. destruct (newPlan_ok_form _ _ _ _ _ _ X) as (m1 & ci & co & inS & outS & dims & h & _ & _ & _ & _ & _ & _ & _ & Ep & _).
    assert (Hp' := Hp). unfold planAt in Hp. rewrite Ep in Hp. apply nth_error_snoc in Hp as [Hp|[-> _]].
    - eapply sized_frame; [exact HI|exact P|exact Hp|apply T|apply T|]. eapply HS. exact Hp.
    - eapply newPlan_sized; eassumption. }
  destruct H as [t shape i o r H|i p bi bo r Hp Hbi Hbo H|i p bo t shape r Hp Hbo H|i p r Hp H|i p Hp|i j p q r N Hp Hq Ht H|i p Hp|i p r Hp H|o r Hn H|k b Hk].
  - subst r. eapply NEW; [exact H|cbn; auto|exact H0].
  - subst r. eapply NEW; [exact H|cbn; auto|exact H0].
  - subst r. eapply NEW; [exact H|cbn; auto|exact H0].
  - destruct r as [m| |]; cbn [bind] in Er, H0; try discriminate. injection Er as <-.
    destruct (move_form s i p m HI Hp H) as (bi & bo & Hbi & Hbo & EL & EB). assert (NS := pi_self _ HI _ _ Hp).
    assert (EN : forall k, nth_error (bufs m) (length (bufs (mem s)) + k) = nth_error [Some (mkBuffer (bsize bi) (bas bi) 0 (bdata bi)); Some (mkBuffer (bsize bo) (bas bo) 0 (bdata bo))] k).
    { intros k. rewrite EB, nth_error_app2 by (rewrite !replace_length; lia). rewrite !replace_length. f_equal. lia. }
    intros k x Hx. assert (Hx' := Hx). unfold planAt in Hx. cbn [plans] in Hx. apply nth_error_snoc in Hx as [Hx|[_ [= <-]]].
    + apply nth_error_replace_inv in Hx as [(_ & [= <-] & _)|[Nk Hx]].
      * intros j b Ej Hb. cbn [din dout dshape mem] in *. unfold alive in Hb. rewrite EB in Hb.
        assert (L1 := alive_lt _ _ _ Hbi). assert (L2 := alive_lt _ _ _ Hbo). rewrite nth_error_app1 in Hb by (rewrite !replace_length; destruct Ej; subst; assumption).
        assert (b = mkBuffer 0 1 0 0).
        { destruct Ej as [->| ->]; [rewrite nth_error_replace_neq in Hb by auto|]; rewrite nth_error_replace_eq in Hb by (rewrite ?replace_length; assumption); congruence. }
        subst b. apply emptied_sized.
      * destruct (pi_sep _ HI _ _ _ _ Hx Hp Nk) as (N1 & N2 & N3 & N4).
        eapply sized_frame; [exact HI|exact H0|exact Hx| | |eapply HS; exact Hx]; cbn [PTouches]; intros (y & Hy & E); rewrite (planAt_fun _ _ _ _ Hy Hp) in E; intuition congruence.
    + intros j b Ej Hb. cbn [din dout dshape mem] in *. unfold alive in Hb. destruct (HS _ _ Hp (din p) bi (or_introl eq_refl) Hbi) as [_ SI]. destruct (HS _ _ Hp (dout p) bo (or_intror eq_refl) Hbo) as [_ SO].
      destruct Ej as [->| ->].
      * replace (length (bufs (mem s))) with (length (bufs (mem s)) + 0)%nat in Hb by lia. rewrite EN in Hb. cbn in Hb. injection Hb as <-. split; [discriminate|exact SI].
      * replace (S (length (bufs (mem s)))) with (length (bufs (mem s)) + 1)%nat in Hb by lia. rewrite EN in Hb. cbn in Hb. injection Hb as <-. split; [discriminate|exact SO].
  - injection Er as <-. exact HS.
  - destruct r as [m| |]; cbn [bind] in Er, H0; try discriminate. injection Er as <-.
    destruct (move_assign_form s i j p q m HI N Hp Hq H) as (bi & bo & Hbi & Hbo & EL & EB).
    destruct (pi_sep _ HI _ _ _ _ Hp Hq N) as (M1 & M2 & M3 & M4). assert (M5 := pi_self _ HI _ _ Hp). assert (M6 := pi_self _ HI _ _ Hq).
    destruct (pi_in _ HI _ _ Hp) as [di Di]. destruct (pi_out _ HI _ _ Hp) as [do Do].
    assert (L1 := alive_lt _ _ _ Di). assert (L2 := alive_lt _ _ _ Do). assert (L3 := alive_lt _ _ _ Hbi). assert (L4 := alive_lt _ _ _ Hbo).
    intros k x Hx. unfold planAt in Hx. cbn [plans] in Hx.
    apply nth_error_replace_inv in Hx as [(_ & [= <-] & _)|[Nj Hx]].
    { intros c b Ec Hb. cbn [din dout dshape mem] in *. unfold alive in Hb. rewrite EB in Hb. assert (b = mkBuffer 0 1 0 0).
      { destruct Ec as [->| ->].
        - rewrite (nth_error_replace_neq _ (dout q)) in Hb by auto. rewrite (nth_error_replace_neq _ (dout p)) in Hb by auto. rewrite nth_error_replace_eq in Hb by (rewrite ?replace_length; assumption). congruence.
        - rewrite nth_error_replace_eq in Hb by (rewrite ?replace_length; assumption). congruence. }
      subst b. apply emptied_sized. }
    apply nth_error_replace_inv in Hx as [(_ & [= <-] & _)|[Ni Hx]].
    + intros c b Ec Hb. cbn [din dout dshape mem] in *. unfold alive in Hb. rewrite EB in Hb. destruct Ec as [->| ->].
      * rewrite (nth_error_replace_neq _ (dout q)) in Hb by auto. rewrite (nth_error_replace_neq _ (dout p)) in Hb by auto.
        rewrite (nth_error_replace_neq _ (din q)) in Hb by auto. rewrite nth_error_replace_eq in Hb by assumption. injection Hb as <-. exact (HS _ _ Hq (din q) bi (or_introl eq_refl) Hbi).
      * rewrite (nth_error_replace_neq _ (dout q)) in Hb by auto. rewrite nth_error_replace_eq in Hb by (rewrite ?replace_length; assumption). injection Hb as <-. exact (HS _ _ Hq (dout q) bo (or_intror eq_refl) Hbo).
    + destruct (pi_sep _ HI _ _ _ _ Hx Hp Ni) as (N1 & N2 & N3 & N4). destruct (pi_sep _ HI _ _ _ _ Hx Hq Nj) as (N5 & N6 & N7 & N8).
      eapply sized_frame; [exact HI|exact H0|exact Hx| | |eapply HS; exact Hx]; cbn [PTouches];
        intros (_ & y & [Hy|Hy] & E); [rewrite (planAt_fun _ _ _ _ Hy Hp) in E|rewrite (planAt_fun _ _ _ _ Hy Hq) in E|rewrite (planAt_fun _ _ _ _ Hy Hp) in E|rewrite (planAt_fun _ _ _ _ Hy Hq) in E]; intuition congruence.
  - destruct (execute _ _ _); cbn [bind] in Er; try discriminate. injection Er as <-. exact HS.
  - intros k x Hx.
    assert (Hx' : k <> i /\ planAt s k x).
    { destruct (destroyFftw (dhandle p) (fftws s)) as [fs| |]; cbn [bind] in Er; try discriminate. destruct r as [m| |]; cbn [bind] in Er; try discriminate. injection Er as <-.
      apply planAt_replace in Hx as [(_ & X & _)|X]; [discriminate|exact X]. }
    destruct Hx' as [Nk Hk]. destruct (pi_sep _ HI _ _ _ _ Hk Hp Nk) as (N1 & N2 & N3 & N4). rewrite Er in H0.
    eapply sized_frame; [exact HI|exact H0|exact Hk| | |eapply HS; exact Hk]; cbn [PTouches]; intros (y & Hy & E); rewrite (planAt_fun _ _ _ _ Hy Hp) in E; intuition congruence.
  - destruct r as [m| |]; cbn [bind] in Er, H0; try discriminate. injection Er as <-. cbn [Reassigns] in R.
    intros k x Hx. assert (Hk : planAt s k x) by exact Hx.
    eapply sized_frame; [exact HI|exact H0|exact Hk| | |eapply HS; exact Hk]; cbn [PTouches]; intros T; apply R; eexists; (split; [|exact T]); exists k, x; auto.
  - destruct ((bsize b =? 0) || _); [|discriminate]. injection Er as <-. exact HS.
Qed.

Lemma history_sized ops s i p : runAll (fun s o => ~ Reassigns s o) pstart ops s -> planAt s i p -> Sized s p.
Proof.
  intros H. assert (X : forall ops s0, PInv s0 -> AllSized s0 -> runAll (fun s o => ~ Reassigns s o) s0 ops s -> AllSized s).
  { clear. induction ops as [|o ops IH]; intros s0 HI HS H; inversion H as [|? s1 ? ? H1 C H2]; subst; [exact HS|].
    eapply IH; [eapply pstep_inv; eassumption|eapply sized_step; eassumption|exact H2]. }
  refine (fun Hp => X ops pstart PInv_start _ H i p Hp). intros k q Hq. destruct k; discriminate.
Qed.

(** The arrays of a plan which owns them are in its blocks. *)
Lemma owned_range s k b n : Inv 8 (mem s) -> alive (mem s) k b -> owns b = true -> bas b = 64 -> n = 8 * bsize b -> 0 <= bsize b -> 8 * bsize b + 63 < 2 ^ 64 ->
  In (bcont b, blockSize 8 (bsize b) (bas b)) (live (mem s)) /\ bcont b <= bdata b /\ bdata b + n <= bcont b + blockSize 8 (bsize b) (bas b).
Proof.
  intros HI Hb Ho Ea -> S0 S1. destruct (inv_block _ _ HI k b Hb Ho) as [B D]. split; [exact B|]. rewrite Ea in *.
  assert (E : blockSize 8 (bsize b) 64 = 8 * bsize b + 63) by (unfold blockSize; rewrite u64_small by lia; lia). rewrite E in *.
  destruct (inv_live _ _ HI _ _ B) as [Hp Hend]. rewrite D. destruct (alignUp_spec (bcont b) 6 ltac:(lia) ltac:(lia) ltac:(lia)) as [_ Bd]. change (2 ^ 6) with 64 in Bd. lia.
Qed.

Lemma own_apart ops s i j f g : runAll (fun s o => ~ Reassigns s o) pstart ops s -> i <> j -> OwnPlan s i f -> OwnPlan s j g -> Apart f g.
Proof.
  intros H N (p & n & bi & bo & Hp & PS & Eh & Ef & Hbi & Obi & Hbo & Obo) (q & n' & ci & co & Hq & PS' & Eh' & Eg & Hci & Oci & Hco & Oco).
  assert (Hr := runAll_prun _ _ _ _ H). assert (HI := history_inv _ _ Hr). assert (IM := pi_mem _ HI).
  assert (BA : BlocksApart (mem s)).
  { destruct (history_memory _ _ Hr) as [[mops R] _]. eapply apart_run; [|exact R]. intros ? ? ? ? []. }
  destruct (history_synced _ _ _ _ H Hp n f bi bo Eh Ef Hbi Hbo) as (F1 & F2 & F3). destruct (F3 PS) as [F4 F5].
  destruct (history_synced _ _ _ _ H Hq n' g ci co Eh' Eg Hci Hco) as (G1 & G2 & G3). destruct (G3 PS') as [G4 G5].
  destruct (history_sized _ _ _ _ H Hp (din p) bi (or_introl eq_refl) Hbi) as [A1 B1]. destruct (history_sized _ _ _ _ H Hp (dout p) bo (or_intror eq_refl) Hbo) as [A2 B2].
  destruct (history_sized _ _ _ _ H Hq (din q) ci (or_introl eq_refl) Hci) as [A3 B3]. destruct (history_sized _ _ _ _ H Hq (dout q) co (or_intror eq_refl) Hco) as [A4 B4].
  destruct (owned_range s _ bi _ IM Hbi Obi (A1 Obi) F4 ltac:(apply B1; exact PS) ltac:(apply B1; exact PS)) as (I1 & R1 & R1').
  destruct (owned_range s _ bo _ IM Hbo Obo (A2 Obo) F5 ltac:(apply B2; exact PS) ltac:(apply B2; exact PS)) as (I2 & R2 & R2').
  destruct (owned_range s _ ci _ IM Hci Oci (A3 Oci) G4 ltac:(apply B3; exact PS') ltac:(apply B3; exact PS')) as (I3 & R3 & R3').
  destruct (owned_range s _ co _ IM Hco Oco (A4 Oco) G5 ltac:(apply B4; exact PS') ltac:(apply B4; exact PS')) as (I4 & R4 & R4').
  destruct (pi_sep _ HI _ _ _ _ Hp Hq N) as (N1 & N2 & N3 & N4).
  assert (D1 := inv_distinct _ _ IM _ _ _ _ Hbi Hci N1 Obi). assert (D2 := inv_distinct _ _ IM _ _ _ _ Hbi Hco N2 Obi).
  assert (D3 := inv_distinct _ _ IM _ _ _ _ Hbo Hci N3 Obo). assert (D4 := inv_distinct _ _ IM _ _ _ _ Hbo Hco N4 Obo).
  assert (X : forall a b c d, a <> c -> In (a, b) (live (mem s)) -> In (c, d) (live (mem s)) -> a + b <= c \/ c + d <= a).
  { intros a b c d Na Ia Ib. destruct (BA a b c d Ia Ib) as [E|E]; [congruence|]. lia. }
  assert (Y1 := X _ _ _ _ D1 I1 I3). assert (Y2 := X _ _ _ _ D2 I1 I4). assert (Y3 := X _ _ _ _ D3 I2 I3). assert (Y4 := X _ _ _ _ D4 I2 I4).
  clear - F1 F2 F4 F5 G1 G2 G4 G5 R1 R1' R2 R2' R3 R3' R4 R4' Y1 Y2 Y3 Y4. intros a [Ha|Ha] [Hb|Hb]; lia.
Qed.

Lemma own_parallel ops s is fs ps m : runAll (fun s o => ~ Reassigns s o) pstart ops s -> NoDup is -> Forall2 (OwnPlan s) is fs -> Forall2 Within fs ps ->
  Independent fs ps m.
Proof.
  intros H ND O W. apply parallel; [exact W|]. intros i j f g Ef Eg N.
  assert (X : forall k h, nth_error fs k = Some h -> exists x, nth_error is k = Some x /\ OwnPlan s x h).
  { clear - O. induction O as [|x h is fs H _ IH]; intros [|k] h'; cbn; try discriminate; [intros [= <-]; eauto|apply IH]. }
  destruct (X i f Ef) as (x & Ex & Ox). destruct (X j g Eg) as (y & Ey & Oy). eapply own_apart; [exact H| |exact Ox|exact Oy].
  intros E. subst y. apply N. eapply NoDup_nth_error; [exact ND|apply nth_error_Some; congruence|congruence].
Qed.

(** * A plan and its inverse *)
Lemma own_backed ops s i f p : runAll (fun s o => ~ Reassigns s o) pstart ops s -> OwnPlan s i f -> planAt s i p ->
  BackedPlan s i (din p) (dout p) /\ exists n bi bo, dhandle p = Handle n /\ nth_error (fftws s) n = Some (Some f) /\ PlanShape (dshape p) /\
    alive (mem s) (din p) bi /\ alive (mem s) (dout p) bo /\ fwIn f = bdata bi /\ fwOut f = bdata bo.
Proof.
  intros H (p' & n & bi & bo & Hp' & PS & Eh & Ef & Hbi & Obi & Hbo & Obo) Hp. rewrite (planAt_fun _ _ _ _ Hp' Hp) in *. clear Hp' p'.
  assert (Hr := runAll_prun _ _ _ _ H). assert (HI := history_inv _ _ Hr). assert (IM := pi_mem _ HI).
  destruct (history_synced _ _ _ _ H Hp n f bi bo Eh Ef Hbi Hbo) as (F1 & F2 & F3). destruct (F3 PS) as [F4 F5].
  destruct (history_sized _ _ _ _ H Hp (din p) bi (or_introl eq_refl) Hbi) as [A1 B1]. destruct (history_sized _ _ _ _ H Hp (dout p) bo (or_intror eq_refl) Hbo) as [A2 B2].
  destruct (owned_range s _ bi _ IM Hbi Obi (A1 Obi) F4 ltac:(apply B1; exact PS) ltac:(apply B1; exact PS)) as (I1 & R1 & R1').
  destruct (owned_range s _ bo _ IM Hbo Obo (A2 Obo) F5 ltac:(apply B2; exact PS) ltac:(apply B2; exact PS)) as (I2 & R2 & R2').
  split.
  - exists p, n, f. split; [exact Hp|]. split; [exact Eh|]. split; [exact Ef|]. split; [exists bi|exists bo]; rewrite ?F1, ?F2; auto 6.
  - exists n, bi, bo. auto 8.
Qed.

Lemma inverse_arrays ops s i f s' q n g : runAll (fun s o => ~ Reassigns s o) pstart ops s -> OwnPlan s i f -> pstep s (PInverse i) (Ok s') ->
  planAt s' (length (plans s)) q -> dhandle q = Handle n -> nth_error (fftws s') n = Some (Some g) ->
  fwIn g = fwOut f /\ fwOut g = fwIn f /\ fwInBytes g = fwOutBytes f /\ fwOutBytes g = fwInBytes f /\ 0 < fwInBytes f /\ 0 < fwOutBytes f.
Proof.
  intros H O P Hq Eh Eg. assert (X : exists p, planAt s i p) by (destruct O as (p & n0 & bi & bo & Hp & _); eauto). destruct X as [p Hp].
  assert (Hr := runAll_prun _ _ _ _ H). destruct (own_backed _ _ _ _ _ H O Hp) as [B (n0 & bi & bo & Eh0 & Ef & PS & Hbi & Hbo & F1 & F2)].
  assert (B' := inverse_backed _ _ _ _ _ n Hr Hp B P (ex_intro _ q (conj Hq Eh))).
  destruct B' as (q' & n' & g' & Hq' & Eh' & Eg' & (ci & Hci & _ & _ & _ & Di) & (co & Hco & _ & _ & _ & Do)). rewrite (planAt_fun _ _ _ _ Hq' Hq) in *.
  assert (g' = g) by congruence. subst g'.
  inversion P as [|? p' ei eo r Hp' Hei Heo HN| | | | | | | |]; subst. rewrite (planAt_fun _ _ _ _ Hp' Hp) in *.
  assert (FR : forall k b, alive (mem s) k b -> alive (mem s') k b) by (intros k b; apply (newPlan_frame _ _ _ _ _ _ _ _ HN)).
  rewrite (alive_fun _ _ _ _ Hci (FR _ _ Hbo)) in Di. rewrite (alive_fun _ _ _ _ Hco (FR _ _ Hbi)) in Do.
  destruct (plan_fftw _ _ _ _ _ _ Hr Hp Eh0 Ef) as (dims & Hd & Ni & No).
  assert (Hr' : prun pstart (ops ++ [PInverse i]) (Ok s')).
  { clear - Hr P. revert Hr. generalize pstart. induction ops as [|o ops IH]; intros s0 H; cbn [app].
    - inversion H; subst. eapply prun_ok; [exact P|constructor].
    - destruct (prun_cons _ _ _ _ H) as (s1 & X & Y). eapply prun_ok; [exact X|]. apply IH. exact Y. }
  destruct (plan_fftw _ _ _ _ _ _ Hr' Hq Eh Eg) as (dims' & Hd' & Ni' & No').
  destruct (newPlan_ok_form _ _ _ _ _ _ HN) as (m1 & di & do & inS & outS & dims2 & h & Hi2 & Ho2 & Hd2 & H1 & H2 & Eb & Eb1 & Ep & EH).
  assert (Eq : q = mkDplan (inverseTransform (dtransform p)) (dshape p) (length (bufs (mem s))) (S (length (bufs (mem s)))) h).
  { unfold planAt in Hq. rewrite Ep, nth_error_app2, Nat.sub_diag in Hq by lia. cbn in Hq. congruence. }
  rewrite Eq in Hd', Ni', No'. cbn [dtransform dshape] in Hd', Ni', No'.
  destruct (inverse_shapes (dtransform p) (dshape p)) as (_ & _ & E & _). assert (dims' = dims) by congruence. subst dims'.
  destruct (inverse_extents (dtransform p) dims) as (X1 & X2 & X3 & X4). rewrite X1, X3 in Ni'. rewrite X2, X4 in No'.
  destruct (shape_extents _ _ inS outS dims PS Hi2 Ho2 Hd') as (Y1 & Y2 & Z1 & Z2 & U1 & U2). rewrite X1, U1 in Y1. rewrite X2, U2 in Y2.
  assert (W : 1 <= inWidth (dtransform p) /\ 1 <= outWidth (dtransform p)) by (destruct (dtransform p); cbn; lia).
  repeat split; try congruence; rewrite ?Ni, ?No; nia.
Qed.

(** Programs which copy the first byte of the input to the output race: both results are possible. *)
Lemma inverse_race ops s i f s' q n g m : runAll (fun s o => ~ Reassigns s o) pstart ops s -> OwnPlan s i f -> pstep s (PInverse i) (Ok s') ->
  planAt s' (length (plans s)) q -> dhandle q = Handle n -> nth_error (fftws s') n = Some (Some g) ->
  Within f (firstByte f) /\ Within g (firstByte g) /\ exists sched s1, interleaving (mkPool m [firstByte f; firstByte g]) sched s1 /\ Race s1.
Proof.
  intros H O P Hq Eh Eg. destruct (inverse_arrays _ _ _ _ _ _ _ _ H O P Hq Eh Eg) as (E1 & E2 & E3 & E4 & B1 & B2).
  assert (W : forall h, 0 < fwInBytes h -> 0 < fwOutBytes h -> Within h (firstByte h)).
  { intros h X Y. constructor; [left; lia|]. intros v. constructor; [right; lia|constructor]. }
  split; [apply W; assumption|]. split; [apply W; lia|].
  assert (PF : forall h, Performs (firstByte h) [(fwIn h, false); (fwOut h, true)]) by (intros h; constructor; intros v; constructor; constructor).
  eapply (conflict_races m [firstByte f; firstByte g] 0 1 _ _ _ _ (fwOut f) true false); [reflexivity|reflexivity|discriminate|apply PF|apply PF|cbn; auto|left; congruence|reflexivity].
Qed.

(** * Examples *)
Lemma shape23 : PlanShape [2; 3].
Proof. split; [split; [discriminate|]|reflexivity]. repeat constructor; cbn; lia. Qed.
Lemma two_history : runAll (fun s o => ~ Reassigns s o) pstart [newReal; newReal] twoPlans.
Proof. eapply runAll_cons; [exact one_step|cbn; auto|]. eapply runAll_cons; [exact two_step|cbn; auto|]. apply runAll_nil. Qed.
Lemma one_history : runAll (fun s o => ~ Reassigns s o) pstart [newReal] onePlan.
Proof. eapply runAll_cons; [exact one_step|cbn; auto|]. apply runAll_nil. Qed.
Lemma one_own : OwnPlan onePlan 0 (mkFftw 4160 48 8256 96).
Proof. do 4 eexists. repeat (split; [first [exact shape23|reflexivity]|]). reflexivity. Qed.
Lemma two_own : OwnPlan twoPlans 0 (mkFftw 4160 48 8256 96) /\ OwnPlan twoPlans 1 (mkFftw 12352 48 16448 96).
Proof. split; do 4 eexists; repeat (split; [first [exact shape23|reflexivity]|]); reflexivity. Qed.
Lemma first_within f : 0 < fwInBytes f -> 0 < fwOutBytes f -> Within f (firstByte f).
Proof. intros X Y. constructor; [left; lia|]. intros v. constructor; [right; lia|constructor]. Qed.

(** The first bytes are swapped, while one of them is copied to the other one if a plan is executed after the other one. *)
Lemma swapped : exists ops s i s' f g, runAll (fun s o => ~ Reassigns s o) pstart ops s /\ OwnPlan s i f /\ pstep s (PInverse i) (Ok s') /\
  fftws s' = [Some f; Some g] /\ Within f (firstByte f) /\ Within g (firstByte g) /\
  forall m, m (fwIn f) <> m (fwIn g) -> exists sched s1, interleaving (mkPool m [firstByte f; firstByte g]) sched s1 /\ Finished s1 /\
    pmem s1 (fwOut f) = m (fwIn f) /\ pmem s1 (fwOut g) = m (fwIn g) /\
    alone (firstByte g) (alone (firstByte f) m) (fwOut g) = m (fwIn f) /\ alone (firstByte f) (alone (firstByte g) m) (fwOut f) = m (fwIn g).
Proof.
  exists [newReal], onePlan, 0%nat, withInverse, (mkFftw 4160 48 8256 96), (mkFftw 8256 96 4160 48).
  split; [exact one_history|]. split; [exact one_own|]. split; [exact inverse_step|]. split; [reflexivity|].
  split; [apply first_within; reflexivity|]. split; [apply first_within; reflexivity|].
  intros m _. exists [0; 1; 0; 1]%nat, (mkPool (upd (upd m 8256 (m 4160)) 4160 (m 8256)) [Done; Done]).
  split; [do 4 (eapply inter_cons; [reflexivity|cbn [threads pmem]]); apply inter_nil|]. split; [repeat constructor|]. repeat split.
Qed.
