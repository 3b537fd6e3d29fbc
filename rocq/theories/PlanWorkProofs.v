(** Proofs for PropsPlanWork.v. *)
From Verif Require Import Res Lemmas AlignedModel AlignedSpec AlignedProofs DftModel DftSpec DftProofs PlanModel PlanSpec PlanProofs PlanUseProofs PlanThreadModel PlanThreadSpec.
From Verif Require PlanThreadProofs.
From Verif Require Import PlanWorkModel PlanWorkSpec.

(** * Programs alone *)
Lemma alone_local f p : WithinSet f p -> forall m m', (forall a, f a -> m a = m' a) ->
  accesses p m = accesses p m' /\ forall a, f a -> alone p m a = alone p m' a.
Proof.
  induction 1 as [|b k Hb Hk IH|b v k Hb Hk IH]; intros m m' E; cbn [accesses alone]; [auto| |].
  - rewrite (E b Hb). destruct (IH (m' b) m m' E) as [-> X]. auto.
  - destruct (IH (upd m b v) (upd m' b v)) as [-> X]; [|auto]. intros a Ha. unfold upd. destruct (a =? b); auto.
Qed.

Lemma alone_outside f p : WithinSet f p -> forall m a, ~ f a -> alone p m a = m a.
Proof.
  induction 1 as [|b k Hb Hk IH|b v k Hb Hk IH]; intros m a N; cbn [alone]; [reflexivity|auto|].
  rewrite IH by exact N. unfold upd. destruct (Z.eqb_spec a b); [subst; contradiction|reflexivity].
Qed.

(** * One access *)
Definition Separate (fs : list (Z -> Prop)) : Prop := forall i j f g, nth_error fs i = Some f -> nth_error fs j = Some g -> i <> j -> (forall a, f a -> ~ g a).
Definition Each (fs : list (Z -> Prop)) (ps : list program) : Prop :=
  length fs = length ps /\ forall i f p, nth_error fs i = Some f -> nth_error ps i = Some p -> WithinSet f p.

Lemma Forall2_each fs ps : Forall2 WithinSet fs ps -> Each fs ps.
Proof.
  induction 1 as [|f p fs ps H _ [L IH]]; [split; [reflexivity|intros [|i]; discriminate]|]. split; [cbn; lia|].
  intros [|i] g q; cbn; [intros [= <-] [= <-]; exact H|apply IH].
Qed.

Lemma at_plan fs ps i p : Each fs ps -> nth_error ps i = Some p -> exists f, nth_error fs i = Some f /\ WithinSet f p.
Proof.
  intros [L W] H. destruct (nth_error fs i) as [f|] eqn:E; [eauto|]. apply nth_error_None in E.
  assert (i < length ps)%nat by (apply nth_error_Some; congruence). lia.
Qed.

Lemma total_one i q m m' : forall ps p, nth_error ps i = Some p ->
  (forall j x, j <> i -> nth_error ps j = Some x -> accesses x m' = accesses x m) -> accesses p m = S (accesses q m') ->
  total ps m = S (total (replace ps i q) m').
Proof.
  induction i as [|i IH]; intros [|x ps] p H E EQ; try discriminate; cbn [replace total fold_right nth_error] in *.
  - injection H as ->. rewrite EQ. cbn. f_equal. f_equal.
    assert (X : forall j y, nth_error ps j = Some y -> accesses y m' = accesses y m) by (intros j y; apply (E (S j)); lia).
    clear - X. induction ps as [|y ps IH]; cbn; [reflexivity|]. rewrite (X 0%nat y eq_refl), IH; [reflexivity|]. intros j; apply (X (S j)).
  - rewrite (E 0%nat x ltac:(lia) eq_refl). fold (total ps m). fold (total (replace ps i q) m').
    rewrite (IH ps p H); [lia| |exact EQ]. intros j y N. apply (E (S j)). lia.
Qed.

Lemma advance_one fs s i s1 : Separate fs -> Each fs (threads s) -> advance s i = Some s1 ->
  Each fs (threads s1) /\ total (threads s) (pmem s) = S (total (threads s1) (pmem s1)) /\
  (forall j f p p1 a, nth_error fs j = Some f -> nth_error (threads s) j = Some p -> nth_error (threads s1) j = Some p1 -> f a ->
     alone p1 (pmem s1) a = alone p (pmem s) a) /\
  (forall a, (forall f, In f fs -> ~ f a) -> pmem s1 a = pmem s a).
Proof.
  intros SP EA H. unfold advance in H. destruct (nth_error (threads s) i) as [p|] eqn:Ep; [|discriminate].
  destruct (at_plan _ _ _ _ EA Ep) as (f & Ef & W).
  assert (GEN : forall q m', s1 = mkPool m' (replace (threads s) i q) -> WithinSet f q -> accesses p (pmem s) = S (accesses q m') ->
    (forall a, f a -> alone q m' a = alone p (pmem s) a) -> (forall a, ~ f a -> m' a = pmem s a) ->
    Each fs (threads s1) /\ total (threads s) (pmem s) = S (total (threads s1) (pmem s1)) /\
    (forall j f p p1 a, nth_error fs j = Some f -> nth_error (threads s) j = Some p -> nth_error (threads s1) j = Some p1 -> f a ->
       alone p1 (pmem s1) a = alone p (pmem s) a) /\
    (forall a, (forall f, In f fs -> ~ f a) -> pmem s1 a = pmem s a)).
  { intros q m' -> Wq Ac Al Out. cbn [threads pmem]. destruct EA as [L WA].
    assert (LOC : forall j g x, j <> i -> nth_error fs j = Some g -> nth_error (threads s) j = Some x ->
      accesses x m' = accesses x (pmem s) /\ forall a, g a -> alone x m' a = alone x (pmem s) a).
    { intros j g x N Eg Ex. apply (alone_local g x (WA j g x Eg Ex)). intros a Ha. apply Out. exact (SP j i g f Eg Ef N a Ha). }
    split; [|split; [|split]].
    - split; [rewrite replace_length; exact L|]. intros j g x Eg Ex. apply nth_error_replace_inv in Ex as [(-> & -> & _)|[N Ex]]; [congruence|eauto].
    - apply (total_one i q (pmem s) m' (threads s) p Ep); [|exact Ac]. intros j x N Ex. destruct (at_plan fs (threads s) j x (conj L WA) Ex) as (g & Eg & _).
      exact (proj1 (LOC j g x N Eg Ex)).
    - intros j g x x1 a Eg Ex Ex1 Ha. apply nth_error_replace_inv in Ex1 as [(-> & -> & _)|[N Ex1]].
      + assert (x = p) by congruence. assert (g = f) by congruence. subst. apply Al. exact Ha.
      + assert (x1 = x) by congruence. subst x1. apply (LOC j g x N Eg Ex). exact Ha.
    - intros a N. apply Out. apply N. eapply nth_error_In. exact Ef. }
  destruct p as [|a k|a v k]; [discriminate| |]; injection H as <-.
  - inversion W as [|? ? Ha Wk|]; subst. eapply GEN; [reflexivity|apply Wk|reflexivity|reflexivity|reflexivity].
  - inversion W as [| |? ? ? Ha Wk]; subst. eapply GEN; [reflexivity|exact Wk|reflexivity|reflexivity|].
    intros b N. unfold upd. destruct (Z.eqb_spec b a); [subst; contradiction|reflexivity].
Qed.

(** * Interleavings *)
Lemma interleaving_inv fs sched : Separate fs -> forall s s', Each fs (threads s) -> interleaving s sched s' ->
  Each fs (threads s') /\ total (threads s) (pmem s) = (length sched + total (threads s') (pmem s'))%nat /\
  (forall j f p p1 a, nth_error fs j = Some f -> nth_error (threads s) j = Some p -> nth_error (threads s') j = Some p1 -> f a ->
     alone p1 (pmem s') a = alone p (pmem s) a) /\
  (forall a, (forall f, In f fs -> ~ f a) -> pmem s' a = pmem s a).
Proof.
  intros SP. induction sched as [|i sched IH]; intros s s' EA H; inversion H as [|? s1 ? ? H1 H2]; subst.
  - split; [exact EA|]. split; [reflexivity|]. split; [|reflexivity]. intros j f p p1 a _ E1 E2. congruence.
  - destruct (advance_one fs s i s1 SP EA H1) as (EA1 & T1 & A1 & O1). destruct (IH s1 s' EA1 H2) as (EA2 & T2 & A2 & O2).
    split; [exact EA2|]. split; [rewrite T1, T2; reflexivity|]. split.
    + intros j f p p2 a Ef Ep Ep2 Ha. destruct (nth_error (threads s1) j) as [p1|] eqn:E1.
      * rewrite (A2 j f p1 p2 a Ef E1 Ep2 Ha). exact (A1 j f p p1 a Ef Ep E1 Ha).
      * apply nth_error_None in E1. destruct EA1 as [L1 _]. assert (j < length fs)%nat by (apply nth_error_Some; congruence). lia.
    + intros a N. rewrite O2, O1 by exact N. reflexivity.
Qed.

Lemma separate_no_race fs s : Separate fs -> Each fs (threads s) -> ~ Race s.
Proof.
  intros SP EA (i & j & p & q & a & w & w' & N & Ep & Eq & Np & Nq & _).
  destruct (at_plan _ _ _ _ EA Ep) as (f & Ef & Wf). destruct (at_plan _ _ _ _ EA Eq) as (g & Eg & Wg).
  assert (X : forall h r c, WithinSet h r -> next r = Some (a, c) -> h a) by (intros h r c []; cbn [next]; congruence).
  exact (SP i j f g Ef Eg N a (X _ _ _ Wf Np) (X _ _ _ Wg Nq)).
Qed.

Lemma finishes fs : Separate fs -> forall n s, Each fs (threads s) -> total (threads s) (pmem s) = n -> exists sched s', interleaving s sched s' /\ Finished s'.
Proof.
  intros SP. induction n as [|n IH]; intros s EA E.
  - exists [], s. split; [constructor|]. unfold Finished. clear EA. generalize dependent (pmem s). intros m. induction (threads s) as [|p ps IHp]; cbn; intros E; [constructor|].
    constructor; [|apply IHp; fold (total ps m) in E; lia]. destruct p; cbn in E; [reflexivity|discriminate|discriminate].
  - assert (X : exists i s1, advance s i = Some s1).
    { assert (Y : forall m ps, total ps m <> 0%nat -> exists i p, nth_error ps i = Some p /\ p <> Done).
      { clear. induction ps as [|p ps IH]; cbn; [lia|]. intros N. destruct p; [|exists 0%nat; eexists; split; [reflexivity|discriminate] ..].
        destruct IH as (i & q & H); [exact N|]. exists (S i), q. exact H. }
      destruct (Y (pmem s) (threads s)) as (i & p & H & N); [lia|]. exists i. unfold advance. rewrite H. destruct p; [congruence|eauto|eauto]. }
    destruct X as (i & s1 & H). destruct (advance_one fs s i s1 SP EA H) as (EA1 & T1 & _). destruct (IH s1 EA1) as (sched & s' & R & F); [lia|].
    exists (i :: sched), s'. split; [econstructor; eassumption|exact F].
Qed.

Lemma parallel fs ps m : Forall2 WithinSet fs ps -> (forall i j f g, nth_error fs i = Some f -> nth_error fs j = Some g -> i <> j -> (forall a, f a -> ~ g a)) ->
  IndependentSets fs ps m.
Proof.
  intros W SP sched s H. assert (EA : Each fs (threads (mkPool m ps))) by (apply Forall2_each; exact W).
  destruct (interleaving_inv fs sched SP _ _ EA H) as (EA' & T & A & O). cbn [threads pmem] in *.
  split; [eapply separate_no_race; eassumption|]. split; [lia|]. split; [eapply finishes; [exact SP|exact EA'|reflexivity]|].
  intros F. assert (Z0 : total (threads s) (pmem s) = 0%nat).
  { clear - F. unfold Finished in F. induction F as [|p l E F IH]; [reflexivity|]. subst p. exact IH. }
  split; [lia|]. split; [|exact O]. intros i f p a Ef Ep Ha. destruct (nth_error (threads s) i) as [q|] eqn:Eq.
  - rewrite <- (A i f p q a Ef Ep Eq Ha). unfold Finished in F. rewrite Forall_forall in F. rewrite (F q (nth_error_In _ _ Eq)). reflexivity.
  - apply nth_error_None in Eq. destruct EA' as [L _]. assert (i < length fs)%nat by (apply nth_error_Some; congruence). lia.
Qed.


(** * Tasks *)
Lemma within_weaken (A B : Z -> Prop) p : (forall a, A a -> B a) -> WithinSet A p -> WithinSet B p.
Proof. intros H. induction 1; constructor; auto. Qed.

Lemma within_follow A p q : WithinSet A p -> WithinSet A q -> WithinSet A (follow p q).
Proof. intros H Hq. induction H; cbn [follow]; [exact Hq|constructor; auto|constructor; auto]. Qed.

Lemma within_work A l : Forall (fun t => WithinSet A (snd t)) l -> WithinSet A (work l).
Proof. induction 1 as [|t l Ht _ IH]; [constructor|]. cbn [work fold_right]. apply within_follow; assumption. Qed.

Lemma work_alone l : forall m, alone (work l) m = fold_left (fun m t => alone (snd t) m) l m.
Proof.
  induction l as [|t l IH]; intros m; [reflexivity|]. cbn [work fold_right fold_left]. rewrite <- IH. fold (work l). generalize (work l) as q. intros q.
  generalize (snd t) as p. intros p. revert m. induction p as [|a k IHp|a v k IHp]; intros m; cbn [follow alone]; [reflexivity|apply IHp|apply IHp].
Qed.

Lemma employs_within s globals is l : Employs s globals is l -> WithinSet (bytesOfAll globals l) (work l).
Proof.
  intros H. apply within_work. apply Forall_forall. intros t Ht. unfold Employs in H. rewrite Forall_forall in H. destruct (H t Ht) as [W _].
  eapply within_weaken; [|exact W]. intros a Ha. exists t. auto.
Qed.

Lemma nodup_concat {A} (ls : list (list A)) : NoDup (concat ls) -> forall i j l l' x, nth_error ls i = Some l -> nth_error ls j = Some l' -> In x l -> In x l' -> i = j.
Proof.
  induction ls as [|k ls IH]; intros N i j l l' x Ei Ej Hl Hl'; [destruct i; discriminate|]. cbn [concat] in N.
  assert (D : forall y, In y k -> ~ In y (concat ls)).
  { clear - N. induction k as [|z k IHk]; cbn in N; [intros y []|]. inversion N as [|? ? Nz Nk]; subst. intros y [<-|Hy]; [intros H; apply Nz, in_or_app; auto|apply IHk; assumption]. }
  assert (T : NoDup (concat ls)) by (clear - N; induction k as [|z k IHk]; [exact N|]; inversion N; subst; auto).
  assert (C : forall n m, nth_error ls n = Some m -> In x m -> In x (concat ls)) by (intros n m En Hm; apply in_concat; exists m; split; [eapply nth_error_In; exact En|exact Hm]).
  destruct i as [|i], j as [|j]; cbn [nth_error] in Ei, Ej.
  - reflexivity.
  - injection Ei as <-. destruct (D x Hl (C j l' Ej Hl')).
  - injection Ej as <-. destruct (D x Hl' (C i l Ei Hl)).
  - f_equal. eapply IH; eassumption.
Qed.

Lemma works_parallel ops s globals owners jobs m : runAll (fun s o => ~ Reassigns s o) pstart ops s -> NoDup (concat owners) ->
  Forall2 (Employs s globals) owners jobs -> OnePlanner jobs -> Elsewhere s globals ->
  IndependentSets (map (bytesOfAll globals) jobs) (map work jobs) m.
Proof.
  intros R N E P G. apply parallel.
  - clear - E. induction E as [|is l owners jobs H E IH]; [constructor|]. cbn [map]. constructor; [eapply employs_within; exact H|exact IH].
  - assert (AT : forall i l, nth_error jobs i = Some l -> exists is, nth_error owners i = Some is /\ Employs s globals is l).
    { clear - E. induction E as [|is l owners jobs H E IH]; intros [|i] x Ex; try discriminate; cbn [nth_error] in *; [injection Ex as <-; eauto|apply IH; exact Ex]. }
    intros i j f g Ef Eg Nij a Fa Ga. rewrite nth_error_map in Ef, Eg. destruct (nth_error jobs i) as [l|] eqn:El; [|discriminate].
    destruct (nth_error jobs j) as [l'|] eqn:El'; [|discriminate]. cbn [option_map] in Ef, Eg. injection Ef as <-. injection Eg as <-.
    destruct (AT i l El) as (is & Ei & Hl). destruct (AT j l' El') as (js & Ej & Hl'). unfold Employs in Hl, Hl'. rewrite Forall_forall in Hl, Hl'.
    destruct Fa as (t & Ht & Bt). destruct Ga as (t' & Ht' & Bt').
    destruct (Hl t Ht) as (_ & x & fx & Hx & Ox & Sx). destruct (Hl' t' Ht') as (_ & y & fy & Hy & Oy & Sy).
    destruct Bt as [Bt|[Gt Bt]], Bt' as [Bt'|[Gt' Bt']].
    + assert (x <> y). { intros ->. apply Nij. eapply nodup_concat; eassumption. }
      exact (PlanThreadProofs.own_apart ops s x y fx fy R H Ox Oy a (Sx a Bt) (Sy a Bt')).
    + exact (G x fx a Ox (Sx a Bt) Bt').
    + exact (G y fy a Oy (Sy a Bt') Bt).
    + apply Nij. exact (P i j l l' t t' El El' Ht Ht' Gt Gt').
Qed.

(** * Refutations *)
Lemma planners_race (globals : Z -> Prop) g f f' m : globals g ->
  WithinSet (bytesOf globals (Planning f)) (counting g) /\ WithinSet (bytesOf globals (Planning f')) (counting g) /\
  (exists sched s, interleaving (mkPool m [work [(Planning f, counting g)]; work [(Planning f', counting g)]]) sched s /\ Race s) /\
  exists sched s, interleaving (mkPool m [work [(Planning f, counting g)]; work [(Planning f', counting g)]]) sched s /\ Finished s /\ pmem s g = m g + 1 /\
    alone (counting g) (alone (counting g) m) g = m g + 2.
Proof.
  intros G. assert (W : forall f, WithinSet (bytesOf globals (Planning f)) (counting g)).
  { intros h. constructor; [right; split; [exact Logic.I|exact G]|]. intros v. constructor; [right; split; [exact Logic.I|exact G]|constructor]. }
  split; [apply W|]. split; [apply W|]. split.
  - eapply (PlanThreadProofs.conflict_races m _ 0%nat 1%nat _ _ [(g, false); (g, true)] [(g, false); (g, true)] g true false); [reflexivity|reflexivity|discriminate| | |right; left; reflexivity|left; reflexivity|reflexivity];
      (constructor; intros v; cbn [follow]; constructor; constructor).
  - exists [0; 1; 0; 1]%nat. eexists. split; [do 4 (eapply inter_cons; [reflexivity|cbn [threads pmem replace]]); apply inter_nil|].
    split; [repeat constructor|]. cbn [pmem alone counting]. unfold upd. rewrite !Z.eqb_refl. lia.
Qed.

Lemma inverse_bytes ops s i f s' q n g : runAll (fun s o => ~ Reassigns s o) pstart ops s -> OwnPlan s i f ->
  pstep s (PInverse i) (Ok s') -> planAt s' (length (plans s)) q -> dhandle q = Handle n -> nth_error (fftws s') n = Some (Some g) ->
  forall a, InArrays g a <-> InArrays f a.
Proof.
  intros R O S P D G a. destruct (PlanThreadProofs.inverse_arrays ops s i f s' q n g R O S P D G) as (E1 & E2 & E3 & E4 & _).
  unfold InArrays. rewrite E1, E2, E3, E4. tauto.
Qed.

Lemma within_arrays globals f t p : planOf t = f -> Within f p -> WithinSet (bytesOf globals t) p.
Proof.
  intros E. induction 1 as [|a k Ha _ IH|a v k Ha _ IH]; constructor; auto; left; rewrite E; exact Ha.
Qed.

Lemma inverse_planning ops s i f s' q n g m globals : runAll (fun s o => ~ Reassigns s o) pstart ops s -> OwnPlan s i f ->
  pstep s (PInverse i) (Ok s') -> planAt s' (length (plans s)) q -> dhandle q = Handle n -> nth_error (fftws s') n = Some (Some g) ->
  let executes := (Transform f, firstByte f) in let plans := (Planning g, firstByte g) in
  WithinSet (bytesOf globals (fst executes)) (snd executes) /\ WithinSet (bytesOf globals (fst plans)) (snd plans) /\
  exists sched s1, interleaving (mkPool m [work [executes]; work [plans]]) sched s1 /\ Race s1.
Proof.
  intros R O S P D G. cbn zeta. cbn [fst snd].
  destruct (PlanThreadProofs.inverse_race ops s i f s' q n g m R O S P D G) as (W1 & W2 & X).
  split; [eapply within_arrays; [reflexivity|exact W1]|]. split; [eapply within_arrays; [reflexivity|exact W2]|exact X].
Qed.

Definition f0 := mkFftw 4160 48 8256 96.
Definition f1 := mkFftw 12352 48 16448 96.
Lemma two_employ : Forall2 (Employs twoPlans (eq 1)) [[0]; [1]]%nat
  [[(Planning f0, counting 1); (Rasters f0, Store 4160 7 Done); (Transform f0, firstByte f0)]; [(Transform f1, firstByte f1); (Rasters f1, Load 16448 (fun _ => Done))]].
Proof.
  destruct PlanThreadProofs.two_own as [O0 O1].
  assert (W : forall f, 0 < fwInBytes f -> 0 < fwOutBytes f -> Within f (firstByte f)).
  { intros f H1 H2. constructor; [left; lia|]. intros v. constructor; [right; lia|constructor]. }
  constructor; [|constructor; [|constructor]].
  - apply Forall_forall. intros t Ht. split; [|exists 0%nat, f0; split; [left; reflexivity|]; split; [exact O0|]; destruct Ht as [<-|[<-|[<-|[]]]]; intros a Ha; exact Ha].
    destruct Ht as [<-|[<-|[<-|[]]]]; cbn [fst snd].
    + constructor; [right; split; [exact Logic.I|reflexivity]|]. intros v. constructor; [right; split; [exact Logic.I|reflexivity]|constructor].
    + constructor; [left; left; cbn; lia|constructor].
    + eapply within_arrays; [reflexivity|]. apply W; cbn; lia.
  - apply Forall_forall. intros t Ht. split; [|exists 1%nat, f1; split; [left; reflexivity|]; split; [exact O1|]; destruct Ht as [<-|[<-|[]]]; intros a Ha; exact Ha].
    destruct Ht as [<-|[<-|[]]]; cbn [fst snd].
    + eapply within_arrays; [reflexivity|]. apply W; cbn; lia.
    + constructor; [left; right; cbn; lia|]. intros v. constructor.
Qed.

Lemma two_elsewhere : Elsewhere twoPlans (eq 1).
Proof.
  intros i f a O Ha <-. destruct O as (p & n & bi & bo & Hp & PS & Hh & Hf & _).
  destruct i as [|[|[|i]]]; cbn in Hp; try discriminate; injection Hp as <-; cbn [dhandle] in Hh; injection Hh as <-; cbn in Hf; injection Hf as <-; unfold InArrays in Ha; cbn in Ha; lia.
Qed.

Lemma two_planner : OnePlanner [[(Planning f0, counting 1); (Rasters f0, Store 4160 7 Done); (Transform f0, firstByte f0)];
  [(Transform f1, firstByte f1); (Rasters f1, Load 16448 (fun _ => Done))]].
Proof.
  assert (X : forall i l t, nth_error [[(Planning f0, counting 1); (Rasters f0, Store 4160 7 Done); (Transform f0, firstByte f0)];
    [(Transform f1, firstByte f1); (Rasters f1, Load 16448 (fun _ => Done))]] i = Some l -> In t l -> Global (fst t) -> i = 0%nat).
  { intros [|[|i]] l t E H G; [reflexivity| |destruct i; discriminate]. injection E as <-. destruct H as [<-|[<-|[]]]; destruct G. }
  intros i j l l' t t' E E' H H' G G'. rewrite (X i l t E H G), (X j l' t' E' H' G'). reflexivity.
Qed.
