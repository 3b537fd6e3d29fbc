(** Lazy pipelines used by several threads. *)
From Verif Require Import Res Lemmas PipelineSpec PipeThreadModel PipeThreadSpec.

Lemma split_app {A} (l1 l2 : list A) : forall a x b, l1 ++ l2 = a ++ x :: b ->
  (exists b', l1 = a ++ x :: b' /\ b = b' ++ l2) \/ (exists a', a = l1 ++ a' /\ l2 = a' ++ x :: b).
Proof.
  induction l1 as [|y l1 IH]; intros a x b E; cbn [app] in *.
  - right. exists a. split; [reflexivity|exact E].
  - destruct a as [|z a]; cbn [app] in E; injection E as Ey E.
    + left. exists l1. cbn [app]. split; congruence.
    + destruct (IH a x b E) as [(b' & -> & ->)|(a' & -> & ->)].
      * left. exists b'. cbn [app]. split; congruence.
      * right. exists a'. cbn [app]. split; congruence.
Qed.

Lemma isIn_spec s m : isIn s m = true <-> In s m.
Proof.
  unfold isIn. rewrite existsb_exists. split.
  - intros (x & Hx & E). apply Nat.eqb_eq in E. congruence.
  - intros H. exists s. split; [exact H|apply Nat.eqb_refl].
Qed.

Section Threads.
Context {D V : Type}.
Variable pre : nat -> list nat.
Variable doEvaluate : nat -> D -> D.
Variable doGet : nat -> D -> V.
Variable rank : nat -> nat.
Hypothesis Acyc : Acyclic pre rank.
Notation shared := (@shared D V).
Notation pstep := (pstep pre doEvaluate doGet).
Notation prun := (prun pre doEvaluate doGet).
Notation Needs := (Needs pre).
Notation About := (About pre).

Lemma about_needs s t : Needs s t <-> exists u, In u (pre s) /\ About u t.
Proof.
  split.
  - intros H. destruct H as [s t H|s t u H1 H2].
    + exists t. split; [exact H|left; reflexivity].
    + exists t. split; [exact H1|right; exact H2].
  - intros (u & H1 & [->|H2]); [apply Needs_direct; exact H1|eapply Needs_trans; eauto].
Qed.

Lemma prun_app a : forall g b, prun g (a ++ b) = match prun g a with Some g' => prun g' b | None => None end.
Proof. induction a as [|i a IH]; intros g b; cbn [app PipeThreadModel.prun]; [reflexivity|]. destruct (pstep g i); [apply IH|reflexivity]. Qed.

Lemma threads_eq {A} (l : list A) i a b : nth_error l i = Some a -> nth_error (replace l i b) i = Some b.
Proof. intros H. apply nth_error_replace_eq. apply nth_error_Some. congruence. Qed.

(** Weights: each step makes the total weight smaller *)
Fixpoint wt (fuel : nat) (s : nat) : nat :=
  match fuel with O => 5 | S f => 5 + list_sum (map (wt f) (pre s)) end.
Definition weight (s : nat) : nat := wt (S (rank s)) s.

Lemma wt_fuel : forall f s f', (rank s < f)%nat -> (rank s < f')%nat -> wt f s = wt f' s.
Proof.
  induction f as [|f IH]; intros s f' H H'; [lia|]. destruct f' as [|f']; [lia|]. cbn [wt]. f_equal. f_equal. apply map_ext_in.
  intros t Ht. pose proof (Acyc s t Ht). apply IH; lia.
Qed.

Lemma weight_eq s : weight s = (5 + list_sum (map weight (pre s)))%nat.
Proof.
  unfold weight at 1. cbn [wt]. f_equal. f_equal. apply map_ext_in. intros t Ht. pose proof (Acyc s t Ht). apply wt_fuel; lia.
Qed.

Definition itemWeight (x : item) : nat := match x with Get _ s => weight s | Check _ _ => 4 | _ => 1 end.
Definition listWeight (l : list item) : nat := list_sum (map itemWeight l).
Definition threadWeight (g : shared) (i : nat) : nat := match nth_error (sthreads g) i with Some t => listWeight (todo t) | None => 0 end.

Lemma listWeight_app l m : listWeight (l ++ m) = (listWeight l + listWeight m)%nat.
Proof. unfold listWeight. rewrite map_app. apply list_sum_app. Qed.

Lemma gets_weight b ss : listWeight (map (Get b) ss) = list_sum (map weight ss).
Proof. unfold listWeight. rewrite map_map. reflexivity. Qed.

Lemma step_inv g i g' : pstep g i = Some g' -> exists x r vs l vs', nth_error (sthreads g) i = Some (mkPthread (x :: r) vs) /\
  sthreads g' = replace (sthreads g) i (mkPthread l vs') /\ (listWeight l < listWeight (x :: r))%nat.
Proof.
  unfold PipeThreadModel.pstep. destruct (nth_error (sthreads g) i) as [[[|x r] vs]|] eqn:E; [discriminate| |discriminate].
  intros H. exists x, r, vs. destruct x as [top s|top s|s|s|top s]; injection H as <-; cbn [sthreads]; do 2 eexists; (split; [reflexivity|]); (split; [reflexivity|]).
  - rewrite listWeight_app, gets_weight. unfold listWeight, list_sum. cbn [map itemWeight fold_right]. rewrite weight_eq. unfold list_sum. lia.
  - unfold listWeight, list_sum. destruct (isIn s (smap g)); cbn [map itemWeight fold_right]; lia.
  - unfold listWeight, list_sum. cbn [map itemWeight fold_right]. lia.
  - unfold listWeight, list_sum. cbn [map itemWeight fold_right]. lia.
  - unfold listWeight, list_sum. cbn [map itemWeight fold_right]. lia.
Qed.

Lemma step_weight g i g' : pstep g i = Some g' -> (threadWeight g' i < threadWeight g i)%nat /\ forall j, j <> i -> nth_error (sthreads g') j = nth_error (sthreads g) j.
Proof.
  intros H. destruct (step_inv g i g' H) as (x & r & vs & l & vs' & E & E' & L). split.
  - unfold threadWeight. rewrite E, E'. rewrite (threads_eq _ _ _ _ E). exact L.
  - intros j N. rewrite E'. apply nth_error_replace_neq. congruence.
Qed.

Lemma alone_weight n : forall g i g', prun g (repeat i n) = Some g' -> (threadWeight g' i + n <= threadWeight g i)%nat /\ forall j, j <> i -> nth_error (sthreads g') j = nth_error (sthreads g) j.
Proof.
  induction n as [|n IH]; intros g i g' H; cbn [repeat PipeThreadModel.prun] in H.
  - injection H as <-. split; [lia|auto].
  - destruct (pstep g i) as [g1|] eqn:E; [|discriminate]. destruct (step_weight g i g1 E) as [W O]. destruct (IH g1 i g' H) as [W' O']. split; [lia|].
    intros j N. rewrite O', O by exact N. reflexivity.
Qed.

Definition totalWeight (g : shared) : nat := list_sum (map (fun t => listWeight (todo t)) (sthreads g)).

Lemma sum_replace {A} (f : A -> nat) (l : list A) i a b : nth_error l i = Some a -> (list_sum (map f (replace l i b)) + f a = list_sum (map f l) + f b)%nat.
Proof.
  revert i. induction l as [|x l IH]; intros [|i] H; cbn [nth_error] in H; try discriminate.
  - injection H as ->. unfold list_sum. cbn [replace map fold_right]. lia.
  - specialize (IH i H). unfold list_sum in *. cbn [replace map fold_right]. lia.
Qed.

(** All the executions are finite. *)
Lemma schedules_finite sched : forall g g', prun g sched = Some g' -> (totalWeight g' + length sched <= totalWeight g)%nat.
Proof.
  induction sched as [|i sched IH]; intros g g' H; cbn [PipeThreadModel.prun length] in *; [injection H as <-; lia|].
  destruct (pstep g i) as [g1|] eqn:E; [|discriminate]. specialize (IH g1 g' H). destruct (step_inv g i g1 E) as (x & r & vs & l & vs' & Ei & E' & L).
  unfold totalWeight in *. rewrite E' in IH. pose proof (sum_replace (fun t => listWeight (todo t)) _ _ _ (mkPthread l vs') Ei) as S. cbn [todo] in S. lia.
Qed.

Lemma not_finished (g : shared) : Finished g \/ exists i x r vs, nth_error (sthreads g) i = Some (mkPthread (x :: r) vs).
Proof.
  unfold Finished. destruct g as [d m c ts]. cbn [sthreads]. induction ts as [|[l vs] ts IH].
  - left. intros [|i] t H; discriminate.
  - destruct l as [|x r].
    + destruct IH as [IH|(i & x & r & vs' & H)].
      * left. intros [|i] t H; [injection H as <-; reflexivity|exact (IH i t H)].
      * right. exists (S i), x, r, vs'. exact H.
    + right. exists 0%nat, x, r, vs. reflexivity.
Qed.

Lemma can_finish g : exists sched g', prun g sched = Some g' /\ Finished g'.
Proof.
  remember (totalWeight g) as w eqn:Ew. revert g Ew. induction w as [w IH] using lt_wf_ind. intros g Ew.
  destruct (not_finished g) as [F|(i & x & r & vs & H)]; [exists [], g; split; [reflexivity|exact F]|].
  destruct (pstep g i) as [g1|] eqn:E.
  - pose proof (schedules_finite [i] g g1) as L. cbn [PipeThreadModel.prun] in L. rewrite E in L. specialize (L eq_refl). cbn [length] in L.
    destruct (IH (totalWeight g1)) with (g := g1) as (sched & g' & R & F); [lia|reflexivity|]. exists (i :: sched), g'. split; [|exact F]. cbn [PipeThreadModel.prun]. rewrite E. exact R.
  - exfalso. unfold PipeThreadModel.pstep in E. rewrite H in E. discriminate.
Qed.

Lemma threads_finite g : (exists most, forall sched g', prun g sched = Some g' -> (length sched <= most)%nat) /\
  exists sched g', prun g sched = Some g' /\ Finished g'.
Proof.
  split; [|apply can_finish]. exists (totalWeight g). intros sched g' H. pose proof (schedules_finite sched g g' H). lia.
Qed.

(** Read only: all the steps are evaluated *)
Definition Ready (m : list nat) (x : item) : Prop :=
  match x with
  | Get _ s => forall t, About s t -> In t m
  | Check _ s => In s m
  | Value _ _ => True
  | Run _ | Insert _ => False
  end.
Fixpoint tops (l : list item) : list nat :=
  match l with
  | [] => []
  | (Get true s | Check true s | Value true s) :: l' => s :: tops l'
  | _ :: l' => tops l'
  end.

Lemma tops_app l m : tops (l ++ m) = tops l ++ tops m.
Proof. induction l as [|x l IH]; [reflexivity|]. cbn [app tops]. destruct x as [[] ?|[] ?|?|?|[] ?]; cbn [app]; congruence. Qed.
Lemma tops_false ss : tops (map (Get false) ss) = [].
Proof. induction ss as [|s ss IH]; [reflexivity|exact IH]. Qed.
Lemma tops_true ss : tops (map (Get true) ss) = ss.
Proof. induction ss as [|s ss IH]; [reflexivity|]. cbn [map tops]. congruence. Qed.

Definition Calm (d : D) (m : list nat) (calls : list nat) (wanted : list (list V)) (g : shared) : Prop :=
  sdata g = d /\ smap g = m /\ scalls g = calls /\
  forall i t, nth_error (sthreads g) i = Some t -> Forall (Ready m) (todo t) /\ nth_error wanted i = Some (got t ++ map (fun s => doGet s d) (tops (todo t))).

Lemma calm_step d m calls wanted g i g' : Calm d m calls wanted g -> pstep g i = Some g' -> Calm d m calls wanted g' /\ length (sthreads g') = length (sthreads g).
Proof.
  intros (Hd & Hm & Hc & Ht) H. unfold PipeThreadModel.pstep in H. destruct (nth_error (sthreads g) i) as [[[|x r] vs]|] eqn:E; [discriminate| |discriminate].
  destruct (Ht i _ E) as [Fr W]. cbn [todo got] in Fr, W. inversion Fr as [|? ? Rx Rr]; subst.
  assert (K : forall l vs', Forall (Ready (smap g)) l -> vs' ++ map (fun s => doGet s (sdata g)) (tops l) = vs ++ map (fun s => doGet s (sdata g)) (tops (x :: r)) ->
    Calm (sdata g) (smap g) (scalls g) wanted (mkShared (sdata g) (smap g) (scalls g) (replace (sthreads g) i (mkPthread l vs'))) /\
    length (replace (sthreads g) i (mkPthread l vs')) = length (sthreads g)).
  { intros l vs' Fl El. split; [|apply replace_length]. split; [reflexivity|]. split; [reflexivity|]. split; [reflexivity|]. cbn [sthreads]. intros j t Hj.
    destruct (Nat.eq_dec j i) as [->|n].
    - rewrite (threads_eq _ _ _ _ E) in Hj. injection Hj as <-. cbn [todo got]. split; [exact Fl|]. rewrite El. exact W.
    - rewrite nth_error_replace_neq in Hj by congruence. exact (Ht j t Hj). }
  destruct x as [top s|top s|s|s|top s]; cbn [Ready] in Rx; injection H as <-; cbn [sthreads].
  - apply K.
    + apply Forall_app. split; [|constructor; [apply Rx; left; reflexivity|exact Rr]]. apply Forall_forall. intros y Hy. apply in_map_iff in Hy. destruct Hy as (u & <- & Hu).
      intros t At. apply Rx. right. apply about_needs. exists u. split; assumption.
    + rewrite tops_app, tops_false. destruct top; reflexivity.
  - apply isIn_spec in Rx. rewrite Rx. apply K; [constructor; [exact I|exact Rr]|]. destruct top; reflexivity.
  - destruct Rx.
  - destruct Rx.
  - apply K; [exact Rr|]. destruct top; cbn [tops map]; [|reflexivity]. rewrite <- app_assoc. reflexivity.
Qed.

Lemma calm_run sched : forall d m calls wanted g g', Calm d m calls wanted g -> prun g sched = Some g' -> Calm d m calls wanted g' /\ length (sthreads g') = length (sthreads g).
Proof.
  induction sched as [|i sched IH]; intros d m calls wanted g g' C H; cbn [PipeThreadModel.prun] in H; [injection H as <-; auto|].
  destruct (pstep g i) as [g1|] eqn:E; [|discriminate]. destruct (calm_step _ _ _ _ _ _ _ C E) as [C1 L1]. destruct (IH _ _ _ _ _ _ C1 H) as [C2 L2]. split; [exact C2|congruence].
Qed.

Lemma calm_not_racy d m calls wanted g : Calm d m calls wanted g -> ~ racy g.
Proof.
  intros (_ & _ & _ & H) (i & j & x & y & r & r' & vs & vs' & _ & Ei & Ej & K). destruct (H i _ Ei) as [Fi _]. destruct (H j _ Ej) as [Fj _].
  cbn [todo] in Fi, Fj. apply Forall_inv in Fi, Fj. destruct x, y; cbn [Ready clash] in *; try discriminate; contradiction.
Qed.

Lemma calm_start d m calls requests : (forall i s t, Requests requests i s -> About s t -> In t m) ->
  Calm d m calls (map (map (fun s => doGet s d)) requests) (mkShared d m calls (asking requests)).
Proof.
  intros H. split; [reflexivity|]. split; [reflexivity|]. split; [reflexivity|]. cbn [sthreads]. intros i t E. unfold asking in E. rewrite nth_error_map in E.
  destruct (nth_error requests i) as [ss|] eqn:Es; [|discriminate]. cbn [option_map] in E. injection E as <-. cbn [todo got]. split.
  - apply Forall_forall. intros x Hx. apply in_map_iff in Hx. destruct Hx as (s & <- & Hs). intros t At. apply (H i s t); [|exact At]. exists ss. split; assumption.
  - rewrite nth_error_map, Es. cbn [option_map app]. rewrite tops_true. reflexivity.
Qed.

Lemma threads_read_only d m calls requests : (forall i s t, Requests requests i s -> About s t -> In t m) ->
  forall sched g', prun (mkShared d m calls (asking requests)) sched = Some g' ->
  ~ racy g' /\ sdata g' = d /\ smap g' = m /\ scalls g' = calls /\
  (Finished g' -> map got (sthreads g') = map (map (fun s => doGet s d)) requests).
Proof.
  intros H sched g' R. destruct (calm_run sched _ _ _ _ _ _ (calm_start d m calls requests H) R) as [C L]. split; [exact (calm_not_racy _ _ _ _ _ C)|].
  destruct C as (Hd & Hm & Hc & Ht). split; [exact Hd|]. split; [exact Hm|]. split; [exact Hc|]. intros F.
  cbn [sthreads] in L. unfold asking in L. rewrite map_length in L.
  assert (X : forall i, nth_error (map got (sthreads g')) i = nth_error (map (map (fun s => doGet s d)) requests) i).
  { intros i. destruct (nth_error (sthreads g') i) as [t|] eqn:E.
    - destruct (Ht i t E) as [_ W]. rewrite (F i t E) in W. cbn [tops map] in W. rewrite app_nil_r in W. rewrite W, nth_error_map, E. reflexivity.
    - rewrite nth_error_map, E. symmetry. cbn [option_map]. apply nth_error_None. apply nth_error_None in E. rewrite map_length. lia. }
  revert X. generalize (map got (sthreads g')), (map (map (fun s => doGet s d)) requests). clear. intros l m. revert m.
  induction l as [|x l IH]; intros [|y m] X.
  - reflexivity.
  - specialize (X 0%nat). discriminate.
  - specialize (X 0%nat). discriminate.
  - f_equal; [specialize (X 0%nat); cbn in X; congruence|]. apply IH. intros i. exact (X (S i)).
Qed.

(** Races *)
Definition Hot (m : list nat) (x : item) : Prop :=
  match x with
  | Get _ s => exists t, About s t /\ ~ In t m
  | Check _ s => ~ In s m
  | Insert _ => True
  | _ => False
  end.

Lemma to_insert : forall w g i l vs, threadWeight g i = w -> nth_error (sthreads g) i = Some (mkPthread l vs) -> Exists (Hot (smap g)) l ->
  exists n g' s r vs', prun g (repeat i n) = Some g' /\ nth_error (sthreads g') i = Some (mkPthread (Insert s :: r) vs').
Proof.
  induction w as [w IH] using lt_wf_ind. intros g i l vs Ew E H. destruct l as [|x r]; [inversion H|].
  assert (Go : forall g1 l1 vs1, pstep g i = Some g1 -> nth_error (sthreads g1) i = Some (mkPthread l1 vs1) -> Exists (Hot (smap g1)) l1 ->
    exists n g' s r vs', prun g (repeat i n) = Some g' /\ nth_error (sthreads g') i = Some (mkPthread (Insert s :: r) vs')).
  { intros g1 l1 vs1 S1 E1 H1. destruct (step_weight g i g1 S1) as [W _].
    destruct (IH (threadWeight g1 i)) with (g := g1) (i := i) (l := l1) (vs := vs1) as (n & g' & s & r' & vs' & R & E'); [lia|reflexivity|exact E1|exact H1|].
    exists (S n), g', s, r', vs'. split; [|exact E']. cbn [repeat PipeThreadModel.prun]. rewrite S1. exact R. }
  assert (Er := threads_eq (sthreads g) i (mkPthread (x :: r) vs)). destruct x as [top s|top s|s|s|top s].
  - eapply Go; [unfold PipeThreadModel.pstep; rewrite E; reflexivity|cbn [sthreads]; apply Er, E|]. cbn [smap]. apply Exists_app. apply Exists_cons in H. destruct H as [(t & [->|At] & Nt)|H].
    + right. apply Exists_cons_hd. exact Nt.
    + left. apply about_needs in At. destruct At as (u & Hu & Au). apply Exists_exists. exists (Get false u). split; [apply in_map, Hu|]. exists t. split; assumption.
    + right. apply Exists_cons_tl. exact H.
  - eapply Go; [unfold PipeThreadModel.pstep; rewrite E; reflexivity|cbn [sthreads]; apply Er, E|]. cbn [smap]. destruct (isIn s (smap g)) eqn:Is.
    + apply isIn_spec in Is. apply Exists_cons in H. destruct H as [H|H]; [contradiction|]. apply Exists_cons_tl. exact H.
    + apply Exists_cons_tl, Exists_cons_hd. exact I.
  - eapply Go; [unfold PipeThreadModel.pstep; rewrite E; reflexivity|cbn [sthreads]; apply Er, E|]. cbn [smap]. apply Exists_cons in H. destruct H as [[]|H]. exact H.
  - exists 0%nat, g, s, r, vs. split; [reflexivity|exact E].
  - eapply Go; [unfold PipeThreadModel.pstep; rewrite E; reflexivity|cbn [sthreads]; apply Er, E|]. cbn [smap]. apply Exists_cons in H. destruct H as [[]|H]. exact H.
Qed.

Lemma to_check : forall w g j top s r vs, threadWeight g j = w -> nth_error (sthreads g) j = Some (mkPthread (Get top s :: r) vs) ->
  exists n g' top' s' r', prun g (repeat j n) = Some g' /\ smap g' = smap g /\ nth_error (sthreads g') j = Some (mkPthread (Check top' s' :: r') vs).
Proof.
  induction w as [w IH] using lt_wf_ind. intros g j top s r vs Ew E.
  remember (mkShared (sdata g) (smap g) (scalls g) (replace (sthreads g) j (mkPthread (map (Get false) (pre s) ++ Check top s :: r) vs))) as g1 eqn:Eg.
  assert (S1 : pstep g j = Some g1) by (unfold PipeThreadModel.pstep; rewrite E, Eg; reflexivity).
  assert (E1 : nth_error (sthreads g1) j = Some (mkPthread (map (Get false) (pre s) ++ Check top s :: r) vs)) by (rewrite Eg; cbn [sthreads]; apply (threads_eq _ _ _ _ E)).
  assert (M1 : smap g1 = smap g) by (rewrite Eg; reflexivity).
  destruct (pre s) as [|u us] eqn:Ep.
  - exists 1%nat, g1, top, s, r. split; [cbn [repeat PipeThreadModel.prun]; rewrite S1; reflexivity|]. split; [exact M1|exact E1].
  - destruct (step_weight g j g1 S1) as [W _]. cbn [map app] in E1.
    destruct (IH (threadWeight g1 j)) with (g := g1) (j := j) (top := false) (s := u) (r := map (Get false) us ++ Check top s :: r) (vs := vs) as (n & g' & top' & s' & r' & R & M & E'); [lia|reflexivity|exact E1|].
    exists (S n), g', top', s', r'. split; [cbn [repeat PipeThreadModel.prun]; rewrite S1; exact R|]. split; [congruence|exact E'].
Qed.

Lemma threads_race d m calls requests i j s t : i <> j -> Requests requests i s -> About s t -> ~ In t m -> (exists u, Requests requests j u) ->
  exists sched g', prun (mkShared d m calls (asking requests)) sched = Some g' /\ racy g'.
Proof.
  intros N (ss & Ei & Hs) At Nt (u & us & Ej & Hu). destruct us as [|u0 us]; [destruct Hu|].
  set (g := mkShared d m calls (asking requests)).
  assert (Tj : nth_error (sthreads g) j = Some (mkPthread (Get true u0 :: map (Get true) us) [])) by (cbn [g sthreads]; unfold asking; rewrite nth_error_map, Ej; reflexivity).
  assert (Ti : nth_error (sthreads g) i = Some (mkPthread (map (Get true) ss) [])) by (cbn [g sthreads]; unfold asking; rewrite nth_error_map, Ei; reflexivity).
  destruct (to_check _ g j true u0 _ [] eq_refl Tj) as (n & g1 & top & s' & r' & R1 & M1 & E1).
  destruct (alone_weight n g j g1 R1) as [_ O1]. rewrite <- (O1 i N) in Ti.
  destruct (to_insert _ g1 i _ [] eq_refl Ti) as (n2 & g2 & s2 & r2 & vs2 & R2 & E2).
  { rewrite M1. apply Exists_exists. exists (Get true s). split; [apply in_map, Hs|]. exists t. split; assumption. }
  destruct (alone_weight n2 g1 i g2 R2) as [_ O2].
  exists (repeat j n ++ repeat i n2), g2. split; [rewrite prun_app, R1; exact R2|].
  exists i, j, (Insert s2), (Check top s'), r2, r', vs2, []. split; [exact N|]. split; [exact E2|]. split; [rewrite O2 by congruence; exact E1|reflexivity].
Qed.

(** One at a time *)
Definition Closed (m : list nat) : Prop := forall s t, In s m -> Needs s t -> In t m.

Definition Made (i : nat) (g g1 : shared) (l : list nat) : Prop :=
  scalls g1 = scalls g ++ l /\ NoDup l /\ (forall t, In t l -> ~ In t (smap g)) /\ InOrder pre (smap g) l /\
  (forall t, In t (smap g1) <-> In t (smap g) \/ In t l).

Lemma made_nil i g g1 : scalls g1 = scalls g -> smap g1 = smap g -> Made i g g1 [].
Proof.
  intros C M. split; [rewrite app_nil_r; exact C|]. split; [constructor|]. split; [intros t []|]. split; [intros a s b E; destruct a; discriminate|].
  intros t. rewrite M. cbn [In]. tauto.
Qed.

Lemma made_app i g g1 g2 l1 l2 : Made i g g1 l1 -> Made i g1 g2 l2 -> Made i g g2 (l1 ++ l2).
Proof.
  intros (C1 & N1 & F1 & O1 & M1) (C2 & N2 & F2 & O2 & M2). split; [rewrite C2, C1, app_assoc; reflexivity|]. split; [|split; [|split]].
  - clear - N1 N2 F2 M1. induction l1 as [|x l1 IH]; [exact N2|]. inversion N1 as [|? ? Hx Hl]; subst. cbn [app].
    assert (Fx : ~ In x l2) by (intros Hi; apply (F2 x Hi), M1; right; left; reflexivity).
    assert (G : forall l, (forall t, In t l -> ~ In t l2) -> NoDup l -> NoDup (l ++ l2)).
    { clear - N2. induction l as [|y l IH]; intros H Hl; [exact N2|]. inversion Hl as [|? ? Hy Hl']; subst. cbn [app]. constructor.
      - intros Hi. apply in_app_or in Hi. destruct Hi as [Hi|Hi]; [exact (Hy Hi)|]. exact (H y (or_introl eq_refl) Hi).
      - apply IH; [|exact Hl']. intros t Ht. apply H. right. exact Ht. }
    apply (G (x :: l1)); [|exact N1]. intros t Ht Hi. apply (F2 t Hi), M1. right. exact Ht.
  - intros t Hi. apply in_app_or in Hi. destruct Hi as [Hi|Hi]; [exact (F1 t Hi)|]. intros Hm. apply (F2 t Hi), M1. left. exact Hm.
  - intros a s b E t Ht. apply split_app in E. destruct E as [(b' & -> & _)|(a' & -> & E)]; [exact (O1 a s b' eq_refl t Ht)|].
    specialize (O2 a' s b E t Ht). apply in_app_or in O2. apply in_or_app. destruct O2 as [O2|O2]; [|right; apply in_or_app; right; exact O2].
    apply M1 in O2. destruct O2 as [O2|O2]; [left; exact O2|right; apply in_or_app; left; exact O2].
  - intros t. rewrite M2, M1. rewrite in_app_iff. tauto.
Qed.

Lemma made_closed i g g1 l : Made i g g1 l -> Closed (smap g) -> Closed (smap g1).
Proof.
  intros (_ & _ & _ & O & M) C s t Hs Ht. apply M. apply M in Hs. destruct Hs as [Hs|Hs]; [left; exact (C s t Hs Ht)|].
  apply in_split in Hs. destruct Hs as (a & b & E). specialize (O a s b E t Ht). apply in_app_or in O. destruct O as [O|O]; [left; exact O|right].
  rewrite E. apply in_or_app. left. exact O.
Qed.

Lemma made_mono i g g1 l t : Made i g g1 l -> In t (smap g) -> In t (smap g1).
Proof. intros (_ & _ & _ & _ & M) H. apply M. left. exact H. Qed.

Definition Whole (i : nat) (g : shared) (r : list item) (vs : list V) (about : nat -> Prop) (g1 : shared) : Prop :=
  exists n l, prun g (repeat i n) = Some g1 /\ nth_error (sthreads g1) i = Some (mkPthread r vs) /\ Made i g g1 l /\
    (forall t, In t l -> about t) /\ (forall t, about t -> In t (smap g1)).

Lemma repeat_plus {A} (a : A) n m : repeat a (n + m) = repeat a n ++ repeat a m.
Proof. induction n as [|n IH]; [reflexivity|]. cbn [Nat.add repeat app]. congruence. Qed.

Lemma whole_get : forall R s, (rank s < R)%nat -> forall g i top r vs, Closed (smap g) -> nth_error (sthreads g) i = Some (mkPthread (Get top s :: r) vs) ->
  exists g1, Whole i g r (if top then vs ++ [doGet s (sdata g1)] else vs) (About s) g1.
Proof.
  induction R as [|R IH]; intros s HR g i top r vs C E; [lia|].
  (* the prerequisites *)
  assert (Many : forall ss, (forall u, In u ss -> (rank u < R)%nat) -> forall g r, Closed (smap g) -> nth_error (sthreads g) i = Some (mkPthread (map (Get false) ss ++ r) vs) ->
    exists g1, Whole i g r vs (fun t => exists u, In u ss /\ About u t) g1).
  { induction ss as [|u ss IHs]; intros Hr g0 r0 C0 E0; cbn [map app] in E0.
    - exists g0, 0%nat, []. split; [reflexivity|]. split; [exact E0|]. split; [apply made_nil; reflexivity|]. split; [intros t []|]. intros t (u & [] & _).
    - destruct (IH u (Hr u (or_introl eq_refl)) g0 i false _ vs C0 E0) as (g1 & n1 & l1 & R1 & E1 & M1 & A1 & B1).
      destruct (IHs (fun v Hv => Hr v (or_intror Hv)) g1 r0 (made_closed _ _ _ _ M1 C0) E1) as (g2 & n2 & l2 & R2 & E2 & M2 & A2 & B2).
      exists g2, (n1 + n2)%nat, (l1 ++ l2). split; [rewrite repeat_plus, prun_app, R1; exact R2|]. split; [exact E2|]. split; [exact (made_app _ _ _ _ _ _ M1 M2)|]. split.
      + intros t Ht. apply in_app_or in Ht. destruct Ht as [Ht|Ht]; [exists u; split; [left; reflexivity|exact (A1 t Ht)]|].
        destruct (A2 t Ht) as (v & Hv & Av). exists v. split; [right; exact Hv|exact Av].
      + intros t (v & [<-|Hv] & Av); [exact (made_mono _ _ _ _ _ M2 (B1 t Av))|]. apply B2. exists v. split; assumption. }
  remember (mkShared (sdata g) (smap g) (scalls g) (replace (sthreads g) i (mkPthread (map (Get false) (pre s) ++ Check top s :: r) vs))) as g0 eqn:Eg.
  assert (S0 : pstep g i = Some g0) by (unfold PipeThreadModel.pstep; rewrite E, Eg; reflexivity).
  assert (E0 : nth_error (sthreads g0) i = Some (mkPthread (map (Get false) (pre s) ++ Check top s :: r) vs)) by (rewrite Eg; cbn [sthreads]; apply (threads_eq _ _ _ _ E)).
  assert (M0 : Made i g g0 []) by (apply made_nil; rewrite Eg; reflexivity).
  destruct (Many (pre s)) with (g := g0) (r := Check top s :: r) as (g1 & n1 & l1 & R1 & E1 & M1 & A1 & B1).
  { intros u Hu. pose proof (Acyc s u Hu). lia. }
  { exact (made_closed _ _ _ _ M0 C). }
  { exact E0. }
  assert (C1 : Closed (smap g1)) by exact (made_closed _ _ _ _ M1 (made_closed _ _ _ _ M0 C)).
  assert (Need : forall t, Needs s t -> In t (smap g1)) by (intros t Ht; apply B1, about_needs, Ht).
  assert (M01 : Made i g g1 l1) by exact (made_app _ _ _ _ _ _ M0 M1).
  assert (R01 : prun g (repeat i (S n1)) = Some g1) by (cbn [repeat PipeThreadModel.prun]; rewrite S0; exact R1).
  assert (A01 : forall t, In t l1 -> About s t) by (intros t Ht; right; apply about_needs; exact (A1 t Ht)).
  destruct (isIn s (smap g1)) eqn:Is.
  - (* already evaluated *)
    set (g2 := mkShared (sdata g1) (smap g1) (scalls g1) (replace (sthreads g1) i (mkPthread (Value top s :: r) vs))).
    assert (S2 : pstep g1 i = Some g2) by (unfold PipeThreadModel.pstep; rewrite E1, Is; reflexivity).
    assert (E2 : nth_error (sthreads g2) i = Some (mkPthread (Value top s :: r) vs)) by (cbn [g2 sthreads]; apply (threads_eq _ _ _ _ E1)).
    set (g3 := mkShared (sdata g2) (smap g2) (scalls g2) (replace (sthreads g2) i (mkPthread r (if top then vs ++ [doGet s (sdata g2)] else vs)))).
    assert (S3 : pstep g2 i = Some g3) by (unfold PipeThreadModel.pstep; rewrite E2; reflexivity).
    exists g3, (S n1 + 2)%nat, (l1 ++ []). split; [rewrite repeat_plus, prun_app, R01; cbn [repeat PipeThreadModel.prun]; rewrite S2, S3; reflexivity|].
    split; [cbn [g3 sthreads]; apply (threads_eq _ _ _ _ E2)|]. split; [exact (made_app _ _ _ _ _ _ M01 (made_nil i g1 g3 eq_refl eq_refl))|]. rewrite app_nil_r. split; [exact A01|].
    intros t [->|Ht]; [apply isIn_spec, Is|exact (Need t Ht)].
  - set (g2 := mkShared (sdata g1) (smap g1) (scalls g1) (replace (sthreads g1) i (mkPthread (Run s :: Insert s :: Value top s :: r) vs))).
    assert (S2 : pstep g1 i = Some g2) by (unfold PipeThreadModel.pstep; rewrite E1, Is; reflexivity).
    assert (E2 : nth_error (sthreads g2) i = Some (mkPthread (Run s :: Insert s :: Value top s :: r) vs)) by (cbn [g2 sthreads]; apply (threads_eq _ _ _ _ E1)).
    set (g3 := mkShared (doEvaluate s (sdata g2)) (smap g2) (scalls g2 ++ [s]) (replace (sthreads g2) i (mkPthread (Insert s :: Value top s :: r) vs))).
    assert (S3 : pstep g2 i = Some g3) by (unfold PipeThreadModel.pstep; rewrite E2; reflexivity).
    assert (E3 : nth_error (sthreads g3) i = Some (mkPthread (Insert s :: Value top s :: r) vs)) by (cbn [g3 sthreads]; apply (threads_eq _ _ _ _ E2)).
    set (g4 := mkShared (sdata g3) (s :: smap g3) (scalls g3) (replace (sthreads g3) i (mkPthread (Value top s :: r) vs))).
    assert (S4 : pstep g3 i = Some g4) by (unfold PipeThreadModel.pstep; rewrite E3; reflexivity).
    assert (E4 : nth_error (sthreads g4) i = Some (mkPthread (Value top s :: r) vs)) by (cbn [g4 sthreads]; apply (threads_eq _ _ _ _ E3)).
    set (g5 := mkShared (sdata g4) (smap g4) (scalls g4) (replace (sthreads g4) i (mkPthread r (if top then vs ++ [doGet s (sdata g4)] else vs)))).
    assert (S5 : pstep g4 i = Some g5) by (unfold PipeThreadModel.pstep; rewrite E4; reflexivity).
    assert (Ns : ~ In s (smap g1)) by (intros H; apply isIn_spec in H; congruence).
    exists g5, (S n1 + 4)%nat, (l1 ++ [s]). split; [rewrite repeat_plus, prun_app, R01; cbn [repeat PipeThreadModel.prun]; rewrite S2, S3, S4, S5; reflexivity|].
    split; [cbn [g5 sthreads]; apply (threads_eq _ _ _ _ E4)|]. split; [|split].
    + apply (made_app _ _ _ _ _ _ M01). split; [reflexivity|]. split; [constructor; [intros []|constructor]|]. split; [intros t [<-|[]]; exact Ns|]. split.
      * intros a u b Eu t Ht. destruct a as [|? [|? ?]]; try discriminate. injection Eu as <- _. rewrite app_nil_r. exact (Need t Ht).
      * intros t. cbn [g5 g4 g3 g2 smap In]. intuition congruence.
    + intros t Ht. apply in_app_or in Ht. destruct Ht as [Ht|[<-|[]]]; [exact (A01 t Ht)|left; reflexivity].
    + intros t Ht. cbn [g5 g4 g3 g2 smap In]. destruct Ht as [->|Ht]; [left; reflexivity|right; exact (Need t Ht)].
Qed.

Lemma same_time i g n1 n2 g1 g2 r vs1 vs2 : prun g (repeat i n1) = Some g1 -> prun g (repeat i n2) = Some g2 ->
  nth_error (sthreads g1) i = Some (mkPthread r vs1) -> nth_error (sthreads g2) i = Some (mkPthread r vs2) -> g1 = g2.
Proof.
  assert (K : forall n m g g1 g2 vs1 vs2, prun g (repeat i n) = Some g1 -> prun g (repeat i (n + m)) = Some g2 ->
    nth_error (sthreads g1) i = Some (mkPthread r vs1) -> nth_error (sthreads g2) i = Some (mkPthread r vs2) -> g1 = g2).
  { clear g g1 g2 vs1 vs2. intros n m g g1 g2 vs1 vs2 H1 H2 E1 E2. rewrite repeat_plus, prun_app, H1 in H2. destruct (alone_weight m g1 i g2 H2) as [W _].
    unfold threadWeight in W. rewrite E1, E2 in W. cbn [todo] in W. assert (m = 0)%nat by lia. subst m. cbn in H2. congruence. }
  intros H1 H2 E1 E2. destruct (Nat.le_ge_cases n1 n2) as [L|L].
  - apply (K n1 (n2 - n1)%nat g g1 g2 vs1 vs2); try assumption. replace (n1 + (n2 - n1))%nat with n2 by lia. exact H2.
  - symmetry. apply (K n2 (n1 - n2)%nat g g2 g1 vs2 vs1); try assumption. replace (n2 + (n1 - n2))%nat with n1 by lia. exact H1.
Qed.

Lemma serial_made g ss g' : Serial pre doEvaluate doGet g ss g' -> Closed (smap g) ->
  exists l, scalls g' = scalls g ++ l /\ NoDup l /\ (forall t, In t l -> ~ In t (smap g)) /\ InOrder pre (smap g) l /\
    (forall t, In t (smap g') <-> In t (smap g) \/ In t l) /\
    (forall t, In t l -> exists s, In s ss /\ About s t) /\ (forall s t, In s ss -> About s t -> In t (smap g')).
Proof.
  induction 1 as [g|g i s ss vs n g1 vs1 is g2 E R E1 S IH]; intros C.
  - exists []. destruct (made_nil 0%nat g g eq_refl eq_refl) as (H1 & H2 & H3 & H4 & H5). repeat (split; [assumption|]). split; [intros t []|intros s t []].
  - destruct (whole_get (Datatypes.S (rank s)) s (Nat.lt_succ_diag_r _) g i true (map (Get true) ss) vs C E) as (g1' & n' & l1 & R' & E1' & M1 & A1 & B1).
    assert (g1 = g1') by (eapply same_time; eassumption). subst g1'.
    destruct (IH (made_closed _ _ _ _ M1 C)) as (l2 & H1 & H2 & H3 & H4 & H5 & H6 & H7).
    assert (M2 : Made i g1 g2 l2) by (repeat (split; [assumption|]); assumption).
    destruct (made_app _ _ _ _ _ _ M1 M2) as (K1 & K2 & K3 & K4 & K5). exists (l1 ++ l2). repeat (split; [assumption|]). split.
    + intros t Ht. apply in_app_or in Ht. destruct Ht as [Ht|Ht]; [exists s; split; [left; reflexivity|exact (A1 t Ht)]|].
      destruct (H6 t Ht) as (u & Hu & Au). exists u. split; [right; exact Hu|exact Au].
    + intros u t [<-|Hu] At; [exact (made_mono _ _ _ _ _ M2 (B1 t At))|exact (H7 u t Hu At)].
Qed.

Lemma serial_value g i s ss vs n g1 vs1 : Closed (smap g) -> nth_error (sthreads g) i = Some (mkPthread (map (Get true) (s :: ss)) vs) ->
  prun g (repeat i n) = Some g1 -> nth_error (sthreads g1) i = Some (mkPthread (map (Get true) ss) vs1) -> vs1 = vs ++ [doGet s (sdata g1)].
Proof.
  intros C E R E1. destruct (whole_get (Datatypes.S (rank s)) s (Nat.lt_succ_diag_r _) g i true (map (Get true) ss) vs C E) as (g1' & n' & l1 & R' & E1' & _).
  assert (g1 = g1') by (eapply same_time; eassumption). subst g1'. congruence.
Qed.
End Threads.

(** An evaluation may be made twice, even if accesses to the map are atomic *)
Lemma threads_twice {D V} pre doEvaluate doGet (d : D) m calls s : pre s = [] -> ~ In s m ->
  exists sched g', @prun D V pre doEvaluate doGet (mkShared d m calls (asking [[s]; [s]])) sched = Some g' /\ Finished g' /\ scalls g' = calls ++ [s; s].
Proof.
  intros P N. assert (I : isIn s m = false) by (destruct (isIn s m) eqn:E; [apply isIn_spec in E; contradiction|reflexivity]).
  eexists [0; 0; 1; 1; 0; 0; 0; 1; 1; 1]%nat, _. split; [|split].
  - cbn [prun pstep asking map nth_error sthreads]. rewrite P. cbn [app map prun pstep nth_error sthreads replace smap sdata scalls]. rewrite I.
    cbn [app map prun pstep nth_error sthreads replace smap sdata scalls]. rewrite P. cbn [app map prun pstep nth_error sthreads replace smap sdata scalls]. rewrite I.
    cbn [app map prun pstep nth_error sthreads replace smap sdata scalls]. reflexivity.
  - intros [|[|i]] t H; cbn in H; [injection H as <-; reflexivity|injection H as <-; reflexivity|destruct i; discriminate].
  - cbn [scalls]. rewrite <- app_assoc. reflexivity.
Qed.

Lemma threads_refuted : ~ (forall (D V : Type) prerequisites (doEvaluate : nat -> D -> D) (doGet : nat -> D -> V) rank, Acyclic prerequisites rank ->
  forall d requests sched g', prun prerequisites doEvaluate doGet (mkShared d [] [] (asking requests)) sched = Some g' -> ~ racy g' /\ NoDup (scalls g')).
Proof.
  intros H. destruct (@threads_twice (list (nat * nat)) nat diamond exampleEvaluate exampleValue [] [] [] 0%nat eq_refl (fun F => F)) as (sched & g' & R & _ & C).
  assert (A : Acyclic diamond (fun s => s)) by (intros [|[|[|[|s]]]] t Ht; cbn in Ht; lia).
  destruct (H _ _ diamond exampleEvaluate exampleValue (fun s => s) A [] [[0]; [0]]%nat sched g' R) as [_ N]. rewrite C in N. inversion N as [|? ? K _]. apply K. left. reflexivity.
Qed.
