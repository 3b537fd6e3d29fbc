(** Proofs about the tasks of several threads. *)
From Verif Require Import Res VecModel BoxModel RasterModel SubrasterModel LoopModel TaskModel Spec BoxSpec RasterSpec TaskSpec Lemmas IndexProofs BoxIterProofs BoxGeomProofs AccessProofs ViewProofs SubrasterProofs.
Open Scope Z_scope.

Lemma nth_replace {X} (l : list X) i j x y : nth_error (replace l i x) j = Some y -> (i = j /\ y = x) \/ (i <> j /\ nth_error l j = Some y).
Proof.
  destruct (Nat.eq_dec i j) as [->|N]; intros H.
  - left. split; [reflexivity|]. assert (L : (j < length l)%nat) by (rewrite <- (replace_length l j x); apply nth_error_Some; congruence).
    rewrite nth_error_replace_eq in H by exact L. congruence.
  - right. split; [exact N|]. now rewrite nth_error_replace_neq in H by exact N.
Qed.
Lemma nth_replaced {X} (l : list X) i x y : nth_error l i = Some y -> nth_error (replace l i x) i = Some x.
Proof. intros H. apply nth_error_replace_eq. apply nth_error_Some. congruence. Qed.

Section Threads.
Context {A : Type}.
Implicit Types (ts : list (thread A)) (mem : list A).

Definition ready ts mem : Prop :=
  (forall i t, nth_error ts i = Some t -> NoDup (tpending t) /\ (forall k, In k (tpending t) -> exists a, zget mem k = Ok a) /\
     forall a, tread t = Some a -> exists k ks, tpending t = k :: ks /\ zget mem k = Ok a) /\
  (forall i j t u k, i <> j -> nth_error ts i = Some t -> nth_error ts j = Some u -> In k (tpending t) -> In k (tpending u) -> False).

(** The cells which are still to be written. *)
Definition pendingIn ts k : Prop := exists i t, nth_error ts i = Some t /\ In k (tpending t).
Definition isPending ts k : {pendingIn ts k} + {~ pendingIn ts k}.
Proof.
  destruct (in_dec Z.eq_dec k (concat (map (@tpending A) ts))) as [I|I]; [left|right].
  - apply in_concat in I as (l & Il & I). apply in_map_iff in Il as (t & <- & It). apply In_nth_error in It as [i Ei]. exists i, t. auto.
  - intros (i & t & Ei & It). apply I, in_concat. exists (tpending t). split; [|exact It]. apply in_map. exact (nth_error_In _ _ Ei).
Qed.

Lemma step_facts ts mem i t t' mem' : ready ts mem -> nth_error ts i = Some t -> accessStep t mem t' mem' ->
  ready (replace ts i t') mem' /\ tfunc t' = tfunc t /\ length mem' = length mem /\
  (forall k, In k (tpending t') -> In k (tpending t)) /\
  (forall k, In k (tpending t) -> ~ In k (tpending t') -> exists a, zget mem k = Ok a /\ zget mem' k = Ok (tfunc t a)) /\
  (forall k, In k (tpending t') \/ ~ In k (tpending t) -> zget mem' k = zget mem k).
Proof.
  intros [R1 R2] Ei Hs. destruct (R1 i t Ei) as (Nd & Rd & Ld). inversion Hs as [g k ks a m Hg|g k ks a m m' Hz]; subst; cbn [tfunc tpending tread] in *.
  - split; [|split; [reflexivity|split; [reflexivity|split; [auto|split; [intros; contradiction|reflexivity]]]]]. split.
    + intros j u Hj. apply nth_replace in Hj as [[<- ->]|[N Hj]]; [|exact (R1 j u Hj)]. cbn [tpending tread]. split; [exact Nd|]. split; [exact Rd|]. intros b E. injection E as <-. exists k, ks. auto.
    + intros j l u v x N Hj Hl Ij Il. apply nth_replace in Hj as [[<- ->]|[Nj Hj]]; apply nth_replace in Hl as [[<- ->]|[Nl Hl]]; cbn [tpending] in *; try congruence; eapply (R2 _ _ _ _ x N); eauto.
  - destruct (Ld a eq_refl) as (k' & ks' & E & Ga). injection E as <- <-. inversion Nd as [|? ? Nk Nd']; subst.
    split; [|split; [reflexivity|split; [exact (zset_length _ _ _ _ Hz)|split; [intros x Ix; right; exact Ix|split]]]]. split.
    + intros j u Hj. apply nth_replace in Hj as [[<- ->]|[N Hj]]; cbn [tpending tread].
      * split; [exact Nd'|]. split; [|discriminate]. intros x Ix. rewrite (zset_get_neq _ _ _ x _ Hz) by (intros <-; contradiction). apply Rd. right. exact Ix.
      * destruct (R1 j u Hj) as (Nd2 & Rd2 & Ld2). split; [exact Nd2|].
        assert (Nu : forall x, In x (tpending u) -> k <> x) by (intros x Ix <-; exact (R2 i j _ u k N Ei Hj (or_introl eq_refl) Ix)).
        split; [intros x Ix; rewrite (zset_get_neq _ _ _ x _ Hz) by auto; auto|]. intros b Eb. destruct (Ld2 b Eb) as (x & xs & Ex & Gx). exists x, xs. split; [exact Ex|].
        rewrite (zset_get_neq _ _ _ x _ Hz); [exact Gx|]. apply Nu. rewrite Ex. left. reflexivity.
    + intros j l u v x N Hj Hl Ij Il. apply nth_replace in Hj as [[<- ->]|[Nj Hj]]; apply nth_replace in Hl as [[<- ->]|[Nl Hl]]; cbn [tpending] in *; try congruence;
        eapply (R2 _ _ _ _ x N); eauto; cbn [tpending]; right; assumption.
    + intros x [<-|Ix] Nx; [|contradiction]. exists a. split; [exact Ga|]. exact (zset_get_eq _ _ _ _ Hz).
    + intros x Hx. apply (zset_get_neq _ _ _ x _ Hz). intros <-. destruct Hx as [Hx|Hx]; [contradiction|]. apply Hx. left. reflexivity.
Qed.

Lemma no_failure ts mem i t : ready ts mem -> nth_error ts i = Some t -> ~ accessFails t mem.
Proof.
  intros [R1 _] Ei H. destruct (R1 i t Ei) as (_ & Rd & _). inversion H as [g k ks m Hg|g k ks a m Hz]; subst; destruct (Rd k (or_introl eq_refl)) as [b Gb]; [congruence|].
  rewrite zset_ok in Hz by exact (zget_range _ _ _ Gb). discriminate.
Qed.

Lemma no_race ts mem i j t u : ready ts mem -> i <> j -> nth_error ts i = Some t -> nth_error ts j = Some u -> ~ conflict t u.
Proof.
  intros [_ R2] N Ei Ej C. unfold conflict in C. destruct (tpending t) as [|k ks] eqn:Et; [exact C|]. destruct (tpending u) as [|l ls] eqn:Eu; [exact C|]. destruct C as [<- _].
  apply (R2 i j t u k N Ei Ej); rewrite ?Et, ?Eu; left; reflexivity.
Qed.

Lemma run_facts ts mem r : threadsRun ts mem r -> ready ts mem -> exists mem', r = Ok mem' /\ length mem' = length mem /\
  (forall i t k a, nth_error ts i = Some t -> In k (tpending t) -> zget mem k = Ok a -> zget mem' k = Ok (tfunc t a)) /\
  (forall k, ~ pendingIn ts k -> zget mem' k = zget mem k).
Proof.
  induction 1 as [ts mem Hd|ts mem i t t' mem' r Ei Hs Hr IH|ts mem i t Ei Hf|ts mem i j t u N Ei Ej C]; intros R.
  - exists mem. split; [reflexivity|]. split; [reflexivity|]. split; [|reflexivity]. intros i t k a Ei Ik. rewrite Forall_forall in Hd. rewrite (Hd t (nth_error_In _ _ Ei)) in Ik. destruct Ik.
  - destruct (step_facts ts mem i t t' mem' R Ei Hs) as (R' & Ef & Le & Inc & Wr & Un). destruct (IH R') as (m2 & -> & L2 & P2 & Q2).
    exists m2. split; [reflexivity|]. split; [congruence|]. split.
    + intros j u k a Ej Ik Ga. destruct (Nat.eq_dec i j) as [<-|N].
      * replace u with t in * by congruence. destruct (in_dec Z.eq_dec k (tpending t')) as [I|I].
        -- rewrite <- Ef. apply (P2 i t' k a); [exact (nth_replaced _ _ _ _ Ei)|exact I|]. rewrite Un; auto.
        -- destruct (Wr k Ik I) as (b & Gb & Gb'). replace b with a in * by congruence. rewrite Q2; [exact Gb'|]. intros (l & v & El & Il).
           apply nth_replace in El as [[<- ->]|[N El]]; [contradiction|]. exact (proj2 R i l t v k N Ei El Ik Il).
      * apply (P2 j u k a); [rewrite nth_error_replace_neq by exact N; exact Ej|exact Ik|]. rewrite Un; [exact Ga|]. right. intros I. exact (proj2 R i j t u k N Ei Ej I Ik).
    + intros k Nk. rewrite Q2.
      * apply Un. right. intros I. apply Nk. exists i, t. auto.
      * intros (l & v & El & Il). apply Nk. apply nth_replace in El as [[<- ->]|[N El]]; [exists i, t; auto|exists l, v; auto].
  - destruct (no_failure ts mem i t R Ei Hf).
  - destruct (no_race ts mem i j t u R N Ei Ej C).
Qed.

Lemma reach_facts ts mem ts' mem' : threadsReach ts mem ts' mem' -> ready ts mem -> ready ts' mem' /\ length mem' = length mem /\
  (forall k, pendingIn ts' k -> pendingIn ts k) /\
  (forall k a, zget mem k = Ok a -> zget mem' k = Ok a \/ exists i t, nth_error ts i = Some t /\ In k (tpending t) /\ zget mem' k = Ok (tfunc t a)) /\
  (forall i t', nth_error ts' i = Some t' -> exists t, nth_error ts i = Some t /\ tfunc t' = tfunc t /\ forall k, In k (tpending t') -> In k (tpending t) /\ zget mem' k = zget mem k).
Proof.
  intros H R. induction H as [ts mem|ts mem i t t' ts' mem' mem'' Hr IH Ei Hs].
  - split; [exact R|]. split; [reflexivity|]. split; [auto|]. split; [auto|]. intros i t' E. exists t'. auto.
  - destruct (IH R) as (R' & Le & Inc & Va & Th). destruct (step_facts ts' mem' i t t' mem'' R' Ei Hs) as (R'' & Ef & Le' & Inc' & Wr & Un).
    split; [exact R''|]. split; [congruence|]. split; [|split].
    + intros k (l & v & El & Il). apply Inc. apply nth_replace in El as [[<- ->]|[N El]]; [exists i, t; auto|exists l, v; auto].
    + intros k a Ga. destruct (in_dec Z.eq_dec k (tpending t)) as [I|I]; [destruct (in_dec Z.eq_dec k (tpending t')) as [I'|I']|].
      * rewrite Un by auto. exact (Va k a Ga).
      * destruct (Th i t Ei) as (t0 & E0 & Ef0 & P0). destruct (P0 k I) as [I0 G0]. destruct (Wr k I I') as (b & Gb & Gb'). replace b with a in * by congruence. right. exists i, t0. split; [exact E0|]. split; [exact I0|]. congruence.
      * rewrite Un by auto. exact (Va k a Ga).
    + intros j u Ej. apply nth_replace in Ej as [[<- ->]|[N Ej]].
      * destruct (Th i t Ei) as (t0 & E0 & Ef0 & P0). exists t0. split; [exact E0|]. split; [congruence|]. intros k Ik. destruct (P0 k (Inc' k Ik)) as [I0 G0]. split; [exact I0|]. rewrite Un by auto. exact G0.
      * destruct (Th j u Ej) as (t0 & E0 & Ef0 & P0). exists t0. split; [exact E0|]. split; [exact Ef0|]. intros k Ik. destruct (P0 k Ik) as [I0 G0]. split; [exact I0|]. rewrite Un; [exact G0|].
        right. intros I. exact (proj2 R' i j t u k N Ei Ej I Ik).
Qed.

(** Every thread can go on, and the number of accesses to do decreases. *)
Definition accesses (t : thread A) : nat := (2 * length (tpending t) - match tread t with None => 0 | Some _ => 1 end)%nat.
Definition remaining ts : nat := list_sum (map accesses ts).

Lemma step_possible ts mem i t : ready ts mem -> nth_error ts i = Some t -> tpending t <> [] -> exists t' mem', accessStep t mem t' mem' /\ (accesses t' < accesses t)%nat.
Proof.
  intros [R1 _] Ei Hp. destruct (R1 i t Ei) as (_ & Rd & _). destruct t as [g [|k ks] rd]; [contradiction|]. cbn [tpending tread] in *. destruct (Rd k (or_introl eq_refl)) as [a Ga]. destruct rd as [b|].
  - exists (mkThread g ks None), (replace mem (Z.to_nat k) (g b)). split; [constructor; apply zset_ok; exact (zget_range _ _ _ Ga)|]. unfold accesses. cbn [tpending tread length]. lia.
  - exists (mkThread g (k :: ks) (Some a)), mem. split; [constructor; exact Ga|]. unfold accesses. cbn [tpending tread length]. lia.
Qed.

Lemma remaining_replace ts i t t' : nth_error ts i = Some t -> (accesses t' < accesses t)%nat -> (remaining (replace ts i t') < remaining ts)%nat.
Proof.
  unfold remaining. revert i. induction ts as [|u ts IH]; intros [|i] E L; try discriminate; cbn [nth_error replace map list_sum fold_right] in *.
  - injection E as ->. lia.
  - specialize (IH i E L). unfold list_sum in IH. lia.
Qed.

Lemma run_possible ts mem : ready ts mem -> exists r, threadsRun ts mem r.
Proof.
  remember (remaining ts) as k eqn:Ek. revert ts mem Ek. induction k as [k IH] using lt_wf_ind. intros ts mem -> R.
  assert (D : forall t : thread A, {tpending t = []} + {tpending t <> []}) by (intros t; destruct (tpending t); [left; reflexivity|right; discriminate]).
  destruct (Forall_Exists_dec _ D ts) as [F|E].
  - exists (Ok mem). now constructor.
  - apply Exists_exists in E as (t & It & Ht). apply In_nth_error in It as [i Ei]. destruct (step_possible ts mem i t R Ei Ht) as (t' & mem' & Hs & L).
    destruct (IH _ (remaining_replace ts i t t' Ei L) _ mem' eq_refl (proj1 (step_facts ts mem i t t' mem' R Ei Hs))) as [r Hr]. exists r. exact (run_step ts mem i t t' mem' r Ei Hs Hr).
Qed.

(** Two threads with a common pixel may race. *)
Lemma alone ts mem i g ks k ls : (forall j t, nth_error ts j = Some t -> forall x, In x (tpending t) -> 0 <= x < Z.of_nat (length mem)) ->
  nth_error ts i = Some (mkThread g (ks ++ k :: ls) None) ->
  exists mem', length mem' = length mem /\ forall r, threadsRun (replace ts i (mkThread g (k :: ls) None)) mem' r -> threadsRun ts mem r.
Proof.
  revert ts mem. induction ks as [|x ks IH]; intros ts mem B Ei; cbn [app] in *.
  - exists mem. split; [reflexivity|]. intros r H. replace (replace ts i (mkThread g (k :: ls) None)) with ts in H; [exact H|].
    clear - Ei. revert i Ei. induction ts as [|t ts IH]; intros [|i] Ei; try discriminate; cbn [nth_error replace] in *; [congruence|]. f_equal. now apply IH.
  - assert (Bx : 0 <= x < Z.of_nat (length mem)) by (apply (B i _ Ei); left; reflexivity). destruct (zget_in_range mem x Bx) as [a Ga].
    set (t1 := mkThread g (x :: ks ++ k :: ls) (Some a)). set (t2 := mkThread g (ks ++ k :: ls) None). set (m2 := replace mem (Z.to_nat x) (g a)).
    assert (L2 : length m2 = length mem) by apply replace_length.
    assert (Rr : replace (replace ts i t1) i t2 = replace ts i t2).
    { clear. revert i. induction ts as [|t ts IH]; intros [|i]; cbn [replace]; try reflexivity. f_equal. apply IH. }
    destruct (IH (replace ts i t2) m2) as (m3 & L3 & H3).
    + intros j t Ej y Iy. rewrite L2. apply nth_replace in Ej as [[<- ->]|[N Ej]]; [|exact (B j t Ej y Iy)]. apply (B i _ Ei). right. exact Iy.
    + exact (nth_replaced _ _ _ _ Ei).
    + exists m3. split; [congruence|]. intros r H. apply (run_step ts mem i _ t1 mem r Ei); [constructor; exact Ga|]. apply (run_step _ mem i t1 t2 m2 r (nth_replaced _ _ _ _ Ei)); [constructor; apply zset_ok; exact Bx|].
      rewrite Rr. apply H3. assert (R3 : forall t3, replace (replace ts i t2) i t3 = replace ts i t3).
      { clear. revert i. induction ts as [|t ts IH]; intros [|i] t3; cbn [replace]; try reflexivity. f_equal. apply IH. }
      rewrite R3. exact H.
Qed.

Lemma race_possible ts mem i j t u k : (forall j t, nth_error ts j = Some t -> tread t = None /\ forall x, In x (tpending t) -> 0 <= x < Z.of_nat (length mem)) ->
  i <> j -> nth_error ts i = Some t -> nth_error ts j = Some u -> In k (tpending t) -> In k (tpending u) -> threadsRun ts mem UB.
Proof.
  intros B N Ei Ej It Iu. destruct (B i t Ei) as [Rt _]. destruct (B j u Ej) as [Ru _]. destruct t as [g kt rt], u as [h ku ru]. cbn [tpending tread] in *. subst rt ru.
  apply in_split in It as (ks & ls & ->). apply in_split in Iu as (ks' & ls' & ->).
  assert (B0 : forall j t, nth_error ts j = Some t -> forall x, In x (tpending t) -> 0 <= x < Z.of_nat (length mem)) by (intros l t El; exact (proj2 (B l t El))).
  destruct (alone ts mem i g ks k ls B0 Ei) as (m1 & L1 & H1). apply H1. set (ts1 := replace ts i _).
  assert (B1 : forall j t, nth_error ts1 j = Some t -> forall x, In x (tpending t) -> 0 <= x < Z.of_nat (length m1)).
  { intros l t El x Ix. rewrite L1. apply nth_replace in El as [[<- ->]|[Nl El]]; [|exact (B0 l t El x Ix)]. apply (B0 i _ Ei). cbn [tpending] in *. apply in_or_app. right. exact Ix. }
  assert (Ej1 : nth_error ts1 j = Some (mkThread h (ks' ++ k :: ls') None)) by (unfold ts1; rewrite nth_error_replace_neq by exact N; exact Ej).
  destruct (alone ts1 m1 j h ks' k ls' B1 Ej1) as (m2 & L2 & H2). apply H2. set (ts2 := replace ts1 j _).
  assert (E2 : nth_error ts2 j = Some (mkThread h (k :: ls') None)) by exact (nth_replaced _ _ _ _ Ej1).
  assert (E1 : nth_error ts2 i = Some (mkThread g (k :: ls) None)) by (unfold ts2; rewrite nth_error_replace_neq by auto; exact (nth_replaced _ _ _ _ Ei)).
  assert (Bk : 0 <= k < Z.of_nat (length m2)) by (rewrite L2; apply (B1 j _ Ej1); cbn [tpending]; apply in_or_app; right; left; reflexivity).
  destruct (zget_in_range m2 k Bk) as [a Ga].
  apply (run_step ts2 m2 i _ (mkThread g (k :: ls) (Some a)) m2 UB E1); [constructor; exact Ga|].
  apply (run_race _ m2 i j (mkThread g (k :: ls) (Some a)) (mkThread h (k :: ls') None) N (nth_replaced _ _ _ _ E1)); [rewrite nth_error_replace_neq by exact N; exact E2|].
  cbn. split; [reflexivity|]. left. discriminate.
Qed.
End Threads.

(** The offsets of a task are those of its positions. *)
Definition offsetsOf {A} (shape : list Z) (t : task A) (ks : list Z) : Prop :=
  NoDup ks /\ forall k, In k ks <-> exists p, InTask shape t p /\ k = rank shape p.

Lemma task_inside {A} n (r : raster A) (t : task A) p : Positive (rshape r) -> ValidTask n (rshape r) t -> InTask (rshape r) t p -> InDomain (rshape r) p.
Proof.
  intros _ V I. destruct t as [region g|m region g|fr bk g]; cbn in V, I.
  - destruct region as [f b]. destruct V as (Hf & Hb & _). exact (Between_InDomain _ _ _ _ Hf Hb I).
  - destruct region as [f b]. destruct V as (Hf & Hb & _). exact (Between_InDomain _ _ _ _ Hf Hb I).
  - exact (proj1 I).
Qed.

Lemma zrange_NoDup a b : NoDup (zrange a b).
Proof. unfold zrange. apply FinFun.Injective_map_NoDup; [intros x y E; lia|apply seq_NoDup]. Qed.

Lemma slice_offsets n m shape f b : shape <> [] -> (n = -1 \/ n = Z.of_nat (length shape)) -> 1 <= m <= Z.of_nat (length shape) -> InDomain shape f -> InDomain shape b -> Nonempty (mkBox f b) ->
  Contiguous m shape f b -> exists ks, viewOffsets (slice n m shape (mkBox f b)) = Some (Ok ks) /\ NoDup ks /\ forall k, In k ks <-> exists p, InBox (mkBox f b) p /\ k = rank shape p.
Proof.
  intros Hs Hn Hm Hf Hb Hne Hc. destruct (slice_spec n m m shape f b Hs Hn (or_intror eq_refl) Hm Hf Hb Hne) as [H _]. destruct (H Hc) as (v & E & L & Sh & Po & Px). clear H.
  assert (Pv : Positive (vshape v)).
  { rewrite Sh. apply Nonempty_iff in Hne. cbn [bfront bback] in Hne. rewrite boxShape_map2. clear - Hne. generalize (Z.to_nat m). induction Hne as [|x y f b Hxy _ IH]; intros [|k]; cbn [map2 firstn]; constructor; [lia|apply IH]. }
  assert (Nv : vshape v <> []) by (intros E0; rewrite E0 in L; cbn in L; lia).
  unfold viewOffsets. rewrite E. cbn [bind]. eexists. split; [reflexivity|]. split; [apply zrange_NoDup|]. rewrite shapeSize_prod by exact Nv.
  assert (Px' : forall q, InDomain (vshape v) q -> rank shape (vadd f (q ++ repeat 0 (length shape - Z.to_nat m))) = voffset v + rank (vshape v) q).
  { intros q Hq. destruct (Px q Hq) as (i & Ei & Ep & _). rewrite rindex_rank in Ei by (try exact Nv; try (right; lia); exact (InDomain_length _ _ Hq)). injection Ei as <-.
    assert (Dp : InDomain shape (vadd f (q ++ repeat 0 (length shape - Z.to_nat m)))) by (apply (Between_InDomain _ _ _ _ Hf Hb); apply Po; exists q; auto).
    rewrite rindex_rank in Ep by (auto; exact (InDomain_length _ _ Dp)). injection Ep as ->. reflexivity. }
  intros k. rewrite In_zrange. split.
  - intros Hk. assert (Di := unrank_domain (vshape v) (k - voffset v) Pv). eexists. split; [apply Po; eexists; split; [exact Di|reflexivity]|]. rewrite Px' by exact Di. rewrite rank_unrank by (auto; lia). lia.
  - intros (p & Ip & ->). apply Po in Ip as (q & Hq & ->). rewrite Px' by exact Hq. assert (B := rank_bounds _ _ Hq). lia.
Qed.

Lemma task_offsets {A} n (r : raster A) (t : task A) : WF r -> Positive (rshape r) -> n = -1 \/ n = Z.of_nat (length (rshape r)) -> ValidTask n (rshape r) t ->
  exists ks enough, (forall fuel, (enough <= fuel)%nat -> taskOffsets fuel n (rshape r) t = Some (Ok ks)) /\ offsetsOf (rshape r) t ks.
Proof.
  intros W Ps Hn V. destruct t as [[f b] g|m [f b] g|fr bk g]; cbn in V.
  - destruct V as (Hf & Hb & Hne). destruct (sub_iteration n r f b W Hn Hf Hb Hne) as (P & L & (enough & En) & Nd & Ip & F2 & So & _). exists L, enough. split; [exact En|]. split.
    + clear - So. induction So as [|k L So IH Hk]; constructor; [|exact IH]. intros I. rewrite Forall_forall in Hk. specialize (Hk k I). lia.
    + assert (Dp : forall p, In p P -> InDomain (rshape r) p) by (intros p I; apply Ip in I; exact (Between_InDomain _ _ _ _ Hf Hb I)).
      assert (E : L = map (rank (rshape r)) P).
      { assert (Ns := proj1 W). clear - F2 Dp Ns. revert Dp. induction F2 as [|p k P L [Hk _] F IH]; intros Dp; [reflexivity|]. cbn [map]. f_equal; [|apply IH; intros q I; apply Dp; right; exact I].
        rewrite rindex_rank in Hk by (try exact Ns; apply InDomain_length, Dp; left; reflexivity). congruence. }
      intros k. rewrite E, in_map_iff. cbn [InTask]. split; [intros (p & <- & I); exists p; split; [now apply Ip|reflexivity]|intros (p & I & ->); exists p; split; [reflexivity|now apply Ip]].
  - destruct V as (Hf & Hb & Hne & Hm & Hc). destruct (slice_offsets n m (rshape r) f b (proj1 W) Hn Hm Hf Hb Hne Hc) as (ks & E & Of). exists ks, O. split; [intros; exact E|exact Of].
  - destruct V as (En & Hfb & s & l & Es & Hl). rewrite Es in *.
    assert (Pp : Positive s) by (apply Forall_app in Ps as [Ps _]; exact Ps).
    destruct (section_dom s l fr bk Pp Hfb Hl) as (H1 & H2 & H3).
    assert (Hc : Contiguous n (s ++ [l]) (repeat 0 (length s) ++ [fr]) (vsubs s 1 ++ [bk])).
    { replace n with (Z.of_nat (length (repeat 0 (length s))) + 1) by (rewrite En, app_length, repeat_length; cbn; lia). apply Contiguous_split; rewrite ?vsubs_length, ?repeat_length; auto. }
    destruct (slice_offsets n n (s ++ [l]) _ _ ltac:(destruct s; discriminate) Hn ltac:(rewrite En, app_length; cbn; lia) H1 H2 H3 Hc) as (ks & E & Nd & Of).
    exists ks, O. split; [intros fuel _; cbn [taskOffsets]; rewrite section2_region by exact En; exact E|]. split; [exact Nd|].
    intros k. rewrite Of. cbn [InTask]. split; intros (p & Hp & ->); exists p; (split; [|reflexivity]).
    + split; [exact (Between_InDomain _ _ _ _ H1 H2 Hp)|]. unfold InBox in Hp. cbn [bfront bback] in Hp. apply Between_app_inv in Hp as (q & z & -> & _ & Hz); [|now rewrite repeat_length, vsubs_length]. inversion Hz as [|? ? x ? ? ? Hx Hn']; subst. inversion Hn'; subst. exists q, x. auto.
    + destruct Hp as (Dp & q & z & -> & Hz). apply InDomain_app_inv in Dp as (q' & z' & Eq & Dq & Dz). inversion Dz as [|? ? x ? Hx Hn']; subst. inversion Hn'; subst. apply app_inj_tail in Eq as [<- <-].
      assert (Lq := InDomain_length _ _ Dq). apply Between_app; [now rewrite repeat_length|now rewrite vsubs_length|]. split; [|constructor; [lia|constructor]].
      clear - Dq. induction Dq; cbn [length repeat vsubs map]; constructor; auto; lia.
Qed.

Section Tasks.
Context {A : Type}.
Implicit Types (r : raster A) (tasks : list (task A)).
Notation threads tasks offsets := (map (fun '(t, ks) => mkThread (taskFunc t) ks None) (combine tasks offsets)).

Lemma threads_nth tasks offsets i th : length offsets = length tasks -> nth_error (threads tasks offsets) i = Some th <->
  exists t ks, nth_error tasks i = Some t /\ nth_error offsets i = Some ks /\ th = mkThread (taskFunc t) ks None.
Proof.
  revert offsets i. induction tasks as [|t tasks IH]; intros [|ks offsets] i L; try discriminate.
  - destruct i; cbn; (split; [discriminate|intros (t & k & E & _); discriminate]).
  - destruct i as [|i]; cbn [combine map nth_error].
    + split; [intros E; injection E as <-; exists t, ks; auto|]. intros (t' & ks' & E1 & E2 & ->). congruence.
    + apply IH. cbn in L. lia.
Qed.

Lemma all_offsets n r tasks : ValidTasks n r tasks -> exists offsets enough, Forall2 (offsetsOf (rshape r)) tasks offsets /\
  forall fuel, (enough <= fuel)%nat -> forall l, Forall2 (fun t ks => taskOffsets fuel n (rshape r) t = Some (Ok ks)) tasks l <-> l = offsets.
Proof.
  intros (W & Ps & Hn & F). induction F as [|t tasks V _ (offsets & e2 & F2 & H2)].
  - exists [], O. split; [constructor|]. intros fuel _ l. split; [intros H; now inversion H|intros ->; constructor].
  - destruct (task_offsets n r t W Ps Hn V) as (ks & e1 & H1 & O1). exists (ks :: offsets), (Nat.max e1 e2). split; [constructor; auto|]. intros fuel Hf l. split.
    + intros H. inversion H as [|? k ? l' Hk Hl]; subst. rewrite H1 in Hk by lia. injection Hk as <-. f_equal. apply (H2 fuel); [lia|exact Hl].
    + intros ->. constructor; [apply H1; lia|]. apply (H2 fuel); [lia|reflexivity].
Qed.

Lemma offsets_nth shape tasks offsets i t : Forall2 (offsetsOf shape) tasks offsets -> nth_error tasks i = Some t -> exists ks, nth_error offsets i = Some ks /\ offsetsOf shape t ks.
Proof. intros F. revert i. induction F as [|u ks tasks offsets H F IH]; intros [|i] E; try discriminate; cbn [nth_error] in *; [injection E as ->; exists ks; auto|now apply IH]. Qed.

Lemma tasks_ready n r tasks offsets : ValidTasks n r tasks -> DisjointTasks (rshape r) tasks -> Forall2 (offsetsOf (rshape r)) tasks offsets -> ready (threads tasks offsets) (rdata r).
Proof.
  intros (W & Ps & Hn & V) D F. assert (L := eq_sym (Forall2_len _ _ _ F)). rewrite Forall_forall in V. split.
  - intros i th E. apply (threads_nth _ _ _ _ L) in E as (t & ks & Et & Ek & ->). destruct (offsets_nth _ _ _ _ _ F Et) as (ks' & Ek' & Nd & Of). replace ks' with ks in * by congruence. cbn [tpending tread].
    split; [exact Nd|]. split; [|discriminate]. intros k Ik. apply Of in Ik as (p & Ip & ->). apply zget_in_range.
    assert (B := rank_bounds _ _ (task_inside n r t p Ps (V t (nth_error_In _ _ Et)) Ip)). destruct W as (_ & _ & ->). exact B.
  - intros i j u v k N Ei Ej Iu Iv. apply (threads_nth _ _ _ _ L) in Ei as (t & ks & Et & Ek & ->). apply (threads_nth _ _ _ _ L) in Ej as (t' & ks' & Et' & Ek' & ->). cbn [tpending] in *.
    destruct (offsets_nth _ _ _ _ _ F Et) as (x & Ex & _ & Ox). replace x with ks in * by congruence. destruct (offsets_nth _ _ _ _ _ F Et') as (y & Ey & _ & Oy). replace y with ks' in * by congruence.
    apply Ox in Iu as (p & Ip & ->). apply Oy in Iv as (q & Iq & Er).
    apply (rank_inj _ _ _ (task_inside n r t p Ps (V t (nth_error_In _ _ Et)) Ip) (task_inside n r t' q Ps (V t' (nth_error_In _ _ Et')) Iq)) in Er. subst q. exact (D i j t t' p N Et Et' Ip Iq).
Qed.

Lemma get_rank n shape (data : list A) p : shape <> [] -> InDomain shape p -> rget n (mkRaster shape data) p = zget data (rank shape p).
Proof. intros Hs Dp. unfold rget. cbn [rshape rdata]. rewrite rindex_rank by (auto; exact (InDomain_length _ _ Dp)). reflexivity. Qed.

Lemma tasks_result n r tasks : ValidTasks n r tasks -> DisjointTasks (rshape r) tasks -> exists enough, forall fuel, (enough <= fuel)%nat -> exists out,
  (forall o, tasksRun fuel n r tasks o <-> o = Ok out) /\ WF out /\ rshape out = rshape r /\
  (forall t p a, In t tasks -> InTask (rshape r) t p -> rget n r p = Ok a -> rget n out p = Ok (taskFunc t a)) /\
  (forall p, InDomain (rshape r) p -> (forall t, In t tasks -> ~ InTask (rshape r) t p) -> rget n out p = rget n r p).
Proof.
  intros V D. destruct (all_offsets n r tasks V) as (offsets & enough & F & Ho). exists enough. intros fuel Hf.
  assert (R := tasks_ready n r tasks offsets V D F). assert (L := eq_sym (Forall2_len _ _ _ F)). destruct (run_possible _ _ R) as [o0 H0].
  destruct (run_facts _ _ _ H0 R) as (mem & -> & Lm & Pm & Qm). exists (mkRaster (rshape r) mem). pose proof V as (W & Ps & Hn & Vf). rewrite Forall_forall in Vf. destruct W as (Ns & Nn & Ls).
  assert (U : forall o, threadsRun (threads tasks offsets) (rdata r) o -> o = Ok mem).
  { intros o Ho'. destruct (run_facts _ _ _ Ho' R) as (m2 & -> & L2 & P2 & Q2). f_equal. apply zget_ext; [congruence|]. intros k _.
    destruct (isPending (threads tasks offsets) k) as [(i & t & Ei & Ik)|Np]; [|now rewrite Qm, Q2].
    destruct (proj1 (proj2 (proj1 R i t Ei)) k Ik) as [a Ga]. rewrite (Pm i t k a Ei Ik Ga). exact (P2 i t k a Ei Ik Ga). }
  split; [|split; [|split; [reflexivity|split]]].
  - intros o. split.
    + intros H. inversion H as [l o' El Hr]; subst. apply (Ho fuel Hf) in El. subst l. rewrite (U _ Hr). reflexivity.
    + intros ->. apply (tasks_run fuel n r tasks offsets (Ok mem)); [now apply (Ho fuel Hf)|exact H0].
  - split; [exact Ns|]. split; [exact Nn|]. cbn [rshape rdata]. now rewrite Lm.
  - intros t p a It Ip Ga. assert (Dp := task_inside n r t p Ps (Vf t It) Ip). rewrite get_rank by auto. destruct r as [shape data]. cbn [rshape rdata] in *. rewrite get_rank in Ga by auto.
    apply In_nth_error in It as [i Ei]. destruct (offsets_nth _ _ _ _ _ F Ei) as (ks & Ek & _ & Of).
    apply (Pm i (mkThread (taskFunc t) ks None) _ a); [apply (threads_nth _ _ _ _ L); exists t, ks; auto|cbn [tpending]; apply Of; exists p; auto|exact Ga].
  - intros p Dp Nt. rewrite get_rank by auto. destruct r as [shape data]. cbn [rshape rdata] in *. rewrite get_rank by auto. apply Qm. intros (i & th & Ei & Ik).
    apply (threads_nth _ _ _ _ L) in Ei as (t & ks & Et & Ek & ->). cbn [tpending] in Ik. destruct (offsets_nth _ _ _ _ _ F Et) as (x & Ex & _ & Ox). replace x with ks in * by congruence.
    apply Ox in Ik as (q & Iq & Er). assert (It := nth_error_In _ _ Et). apply (rank_inj _ _ _ Dp (task_inside n (mkRaster shape data) t q Ps (Vf t It) Iq)) in Er. subst q. exact (Nt t It Iq).
Qed.

Lemma tasks_moment n r tasks : ValidTasks n r tasks -> DisjointTasks (rshape r) tasks -> exists enough, forall fuel, (enough <= fuel)%nat -> forall ts r', tasksReach fuel n r tasks ts r' ->
  WF r' /\ rshape r' = rshape r /\
  (forall p a, InDomain (rshape r) p -> rget n r p = Ok a -> rget n r' p = Ok a \/ exists t, In t tasks /\ InTask (rshape r) t p /\ rget n r' p = Ok (taskFunc t a)) /\
  (forall i t, nth_error ts i = Some t -> ~ accessFails t (rdata r') /\ (tpending t <> [] -> exists t' mem, accessStep t (rdata r') t' mem)) /\
  (forall i j t u, i <> j -> nth_error ts i = Some t -> nth_error ts j = Some u -> ~ conflict t u).
Proof.
  intros V D. destruct (all_offsets n r tasks V) as (offsets & enough & F & Ho). exists enough. intros fuel Hf ts r' H.
  assert (R := tasks_ready n r tasks offsets V D F). assert (L := eq_sym (Forall2_len _ _ _ F)). inversion H as [l ts' mem El Hr]; subst. apply (Ho fuel Hf) in El. subst l.
  pose proof V as (W & Ps & Hn & Vf). rewrite Forall_forall in Vf. destruct W as (Ns & Nn & Ls).
  destruct (reach_facts _ _ _ _ Hr R) as (R' & Le & _ & Va & _). cbn [rshape rdata]. split; [split; [exact Ns|split; [exact Nn|cbn [rshape rdata]; now rewrite Le]]|]. split; [reflexivity|]. split; [|split].
  - intros p a Dp Ga. rewrite get_rank by auto. destruct r as [shape data]. cbn [rshape rdata] in *. rewrite get_rank in Ga by auto.
    destruct (Va _ _ Ga) as [E|(i & th & Ei & Ik & E)]; [left; exact E|right]. apply (threads_nth _ _ _ _ L) in Ei as (t & ks & Et & Ek & ->). cbn [tpending tfunc] in *.
    destruct (offsets_nth _ _ _ _ _ F Et) as (x & Ex & _ & Ox). replace x with ks in * by congruence. apply Ox in Ik as (q & Iq & Er). assert (It := nth_error_In _ _ Et).
    apply (rank_inj _ _ _ Dp (task_inside n (mkRaster shape data) t q Ps (Vf t It) Iq)) in Er. subst q. exists t. auto.
  - intros i t Ei. split; [exact (no_failure _ _ _ _ R' Ei)|]. intros Hp. destruct (step_possible _ _ _ _ R' Ei Hp) as (t' & m & Hs & _). exists t', m. exact Hs.
  - intros i j t u N Ei Ej. exact (no_race _ _ _ _ _ _ R' N Ei Ej).
Qed.

Lemma tasks_race n r tasks i j t u p : ValidTasks n r tasks -> i <> j -> nth_error tasks i = Some t -> nth_error tasks j = Some u -> InTask (rshape r) t p -> InTask (rshape r) u p ->
  exists enough, forall fuel, (enough <= fuel)%nat -> tasksRun fuel n r tasks UB.
Proof.
  intros V N Et Eu It Iu. destruct (all_offsets n r tasks V) as (offsets & enough & F & Ho). exists enough. intros fuel Hf. assert (L := eq_sym (Forall2_len _ _ _ F)).
  pose proof V as (W & Ps & Hn & Vf). rewrite Forall_forall in Vf. change (@UB (raster A)) with (mem <- @UB (list A) ;; Ok (mkRaster (rshape r) mem)).
  apply (tasks_run fuel n r tasks offsets UB); [now apply (Ho fuel Hf)|].
  destruct (offsets_nth _ _ _ _ _ F Et) as (kt & Ekt & _ & Ot). destruct (offsets_nth _ _ _ _ _ F Eu) as (ku & Eku & _ & Ou).
  apply (race_possible _ (rdata r) i j (mkThread (taskFunc t) kt None) (mkThread (taskFunc u) ku None) (rank (rshape r) p)).
  - intros l th E. apply (threads_nth _ _ _ _ L) in E as (v & ks & Ev & Ek & ->). split; [reflexivity|]. cbn [tpending]. intros x Ix.
    destruct (offsets_nth _ _ _ _ _ F Ev) as (y & Ey & _ & Oy). replace y with ks in * by congruence. apply Oy in Ix as (q & Iq & ->).
    assert (B := rank_bounds _ _ (task_inside n r v q Ps (Vf v (nth_error_In _ _ Ev)) Iq)). destruct W as (_ & _ & ->). exact B.
  - exact N.
  - apply (threads_nth _ _ _ _ L). exists t, kt. auto.
  - apply (threads_nth _ _ _ _ L). exists u, ku. auto.
  - apply Ot. exists p. auto.
  - apply Ou. exists p. auto.
Qed.
End Tasks.

(** For the examples *)
Lemma contiguous_row k a b : Contiguous 1 [3; 4] [a; k] [b; k].
Proof. refine (proj2 (Contiguous_split [] a [k] [] b [k] [] 3 [4] eq_refl eq_refl eq_refl eq_refl) _). auto. Qed.

Lemma three_tasks : let r := mkRaster [3; 4] [1; 2; 3; 4; 5; 6; 7; 8; 9; 10; 11; 12] in
  let tasks := [OnRegion (mkBox [1; 0] [2; 1]) Z.succ; OnSlice 1 (mkBox [0; 2] [1; 2]) (Z.mul 2); OnSection 3 3 Z.opp] in
  ValidTasks 2 r tasks /\ DisjointTasks (rshape r) tasks.
Proof.
  cbv zeta. cbn [rshape]. split.
  - split; [split; [discriminate|split; [repeat constructor; cbn; lia|reflexivity]]|]. split; [repeat constructor; cbn; lia|]. split; [right; reflexivity|].
    constructor; [|constructor; [|constructor; [|constructor]]]; cbn [ValidTask bfront bback rshape].
    + split; [repeat constructor; lia|]. split; [repeat constructor; lia|]. apply Nonempty_iff. repeat constructor; cbn; lia.
    + split; [repeat constructor; lia|]. split; [repeat constructor; lia|]. split; [apply Nonempty_iff; repeat constructor; cbn; lia|]. split; [cbn; lia|]. apply contiguous_row.
    + split; [reflexivity|]. split; [lia|]. exists [3], 4. split; [reflexivity|lia].
  - assert (R : forall f0 f1 b0 b1 p, InBox (mkBox [f0; f1] [b0; b1]) p -> exists x y, p = [x; y] /\ f0 <= x <= b0 /\ f1 <= y <= b1).
    { intros f0 f1 b0 b1 p H. inversion H as [|? ? x ? ? ? Hx H']; subst. inversion H' as [|? ? y ? ? ? Hy H'']; subst. inversion H''; subst. exists x, y. auto. }
    assert (Q : forall p, InDomain [3; 4] p /\ (exists q z, p = q ++ [z] /\ 3 <= z <= 3) -> exists x, p = [x; 3]).
    { intros p (Dp & q & z & -> & Hz). apply (InDomain_app_inv [3] [4]) in Dp as (q' & z' & E & Dq & Dz). inversion Dz as [|? ? w ? Hw Hn']; subst. inversion Hn'; subst. apply app_inj_tail in E as [<- <-].
      inversion Dq as [|? ? ? ? Hx Hq]; subst. inversion Hq; subst. eexists. cbn. do 2 f_equal. lia. }
    intros i j t u p N Ei Ej It Iu. destruct i as [|[|[|i]]], j as [|[|[|j]]]; cbn [nth_error] in Ei, Ej; try congruence; try (now destruct i); try (now destruct j);
      injection Ei as <-; injection Ej as <-; cbn [InTask rshape] in It, Iu;
      repeat match goal with H : InBox _ _ |- _ => apply R in H as (? & ? & ? & ? & ?) | H : _ /\ ex _ |- _ => apply Q in H as (? & ?) end; subst;
      match goal with H : [_; _] = [_; _] |- _ => injection H; intros; subst; lia end.
Qed.

Lemma two_tasks : let r := mkRaster [3; 4] [1; 2; 3; 4; 5; 6; 7; 8; 9; 10; 11; 12] in
  let t := OnRegion (mkBox [1; 0] [2; 2]) Z.succ in let u := OnSlice 1 (mkBox [0; 2] [1; 2]) (Z.mul 2) in
  ValidTasks 2 r [t; u] /\ InTask (rshape r) t [1; 2] /\ InTask (rshape r) u [1; 2].
Proof.
  cbv zeta. cbn [rshape InTask]. split.
  - split; [split; [discriminate|split; [repeat constructor; cbn; lia|reflexivity]]|]. split; [repeat constructor; cbn; lia|]. split; [right; reflexivity|].
    constructor; [|constructor; [|constructor]]; cbn [ValidTask bfront bback rshape].
    + split; [repeat constructor; lia|]. split; [repeat constructor; lia|]. apply Nonempty_iff. repeat constructor; cbn; lia.
    + split; [repeat constructor; lia|]. split; [repeat constructor; lia|]. split; [apply Nonempty_iff; repeat constructor; cbn; lia|]. split; [cbn; lia|]. apply contiguous_row.
  - split; repeat constructor; cbn; lia.
Qed.
