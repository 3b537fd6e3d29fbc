(** Proofs about the lifetimes of the DFT plans. *)
From Verif Require Import Res VecModel Spec Lemmas DftModel DftSpec DftProofs AlignedModel AlignedSpec AlignedProofs PlanModel PlanSpec.

(** Steps of the memory. *)
Lemma run2_ok elt m o1 o2 m' : run elt m [o1; o2] (Ok m') -> exists m1, step elt m o1 (Ok m1) /\ step elt m1 o2 (Ok m').
Proof.
  intros H. inversion H as [|? m1 ? ? H1 H2|? ? ? H1 H2]; subst; [|destruct (H2 m' eq_refl)].
  inversion H2 as [|? m2 ? ? H3 H4|? ? ? H3 H4]; subst; [|destruct (H4 m' eq_refl)]. inversion H4; subst. eauto.
Qed.

Lemma run2_intro elt m o1 o2 m1 m' : step elt m o1 (Ok m1) -> step elt m1 o2 (Ok m') -> run elt m [o1; o2] (Ok m').
Proof. intros. eapply run_ok; [eassumption|]. eapply run_ok; [eassumption|]. constructor. Qed.

Lemma step_new_form m n d m' : step 8 m (ONew n d 0) (Ok m') ->
  exists b, bufs m' = bufs m ++ [Some b] /\ bsize b = n /\ user m' = user m /\
    ((d <> 0 /\ live m' = live m /\ bdata b = d /\ bcont b = 0 /\ bas b = 1) \/
     (d = 0 /\ bas b = 64 /\ malloc (live m) (blockSize 8 n 64) (bcont b) (live m') /\ bdata b = alignUp (bcont b) 64)).
Proof.
  intros H. inversion H as [? ? ? r Hc Er1 Er2| | | | | | | | | | |]; subst. inversion Hc as [Hd E|p l' Hd HM E]; subst.
  - unfold alignAs, isAligned in Er2. cbn [Z.eqb] in Er2. replace (0 =? 2 ^ 64 - 1) with false in Er2 by reflexivity.
    rewrite (proj2 (Z.eqb_neq d 0) Hd) in Er2. cbn in Er2. injection Er2 as <-.
    exists (mkBuffer n 1 0 d). cbn [bufs live user bsize bdata bcont bas]. repeat (split; [reflexivity|]). left. repeat split; auto.
  - change (alignAs 0 0) with 64 in *. injection Er2 as <-. exists (mkBuffer n 64 p (alignUp p 64)).
    cbn [bufs live user bsize bdata bcont bas]. repeat (split; [reflexivity|]). right. repeat split; auto.
Qed.

Lemma step_move_form elt m i m' : step elt m (OMove i) (Ok m') ->
  exists b, alive m i b /\ live m' = live m /\ user m' = user m /\
    bufs m' = replace (bufs m) i (Some (mkBuffer 0 1 0 0)) ++ [Some (mkBuffer (bsize b) (bas b) 0 (bdata b))].
Proof.
  intros H. inversion H; subst. eexists. split; [eassumption|]. repeat split.
Qed.

Lemma step_move_assign_form elt m i j m' : i <> j -> step elt m (OMoveAssign i j) (Ok m') ->
  exists b c, alive m i b /\ alive m j c /\ live m' = live m /\ user m' = user m /\
    bufs m' = replace (replace (bufs m) i (Some c)) j (Some (mkBuffer 0 1 0 0)).
Proof.
  intros N H. inversion H; subst; [congruence|]. eexists. eexists. split; [eassumption|]. split; [eassumption|]. repeat split.
Qed.

Lemma step_destroy_form elt m i m' : step elt m (ODestroy i) (Ok m') ->
  exists b, alive m i b /\ user m' = user m /\ bufs m' = replace (bufs m) i None /\
    (forall q n, In (q, n) (live m') <-> In (q, n) (live m) /\ (owns b = true -> q <> bcont b)).
Proof.
  intros H. remember (Ok m') as r0 eqn:Er. remember (ODestroy i) as o eqn:Eo. destruct H; try discriminate Eo. injection Eo as ->.
  unfold resetBuf in Er. exists b. split; [assumption|]. destruct (owns b) eqn:Ho; cbn [bind fst snd] in Er.
  - destruct (free (live m) (bcont b)) as [l'| |] eqn:Ef; cbn [bind fst snd] in Er; try discriminate.
    injection Er as <-. split; [reflexivity|]. split; [reflexivity|]. intros q n. cbn [live]. rewrite (free_spec _ _ _ Ef q n). tauto.
  - injection Er as <-. split; [reflexivity|]. split; [reflexivity|]. intros q n. cbn [live]. intuition congruence.
Qed.

Lemma step_alive elt m o m' k b : step elt m o (Ok m') -> alive m k b -> o <> ODestroy k -> exists b', alive m' k b'.
Proof.
  intros H Hk N. assert (Hl := alive_lt _ _ _ Hk).
  assert (R : forall l i (c : buffer), nth_error l k = Some (Some b) -> exists b', nth_error (replace l i (Some c)) k = Some (Some b')).
  { intros l i c E. destruct (Nat.eq_dec k i) as [->|D]; [exists c; apply nth_error_replace_eq; apply nth_error_Some; congruence|].
    exists b. rewrite nth_error_replace_neq by auto. exact E. }
  unfold alive in *. remember (Ok m') as r0 eqn:Er.
  destruct H as [size data align r Hc|i b0 r Hi Hc|i b0 Hi|i b0 Hi|i j b0 c p0 l' N' Hi Hj Ho HM|i j b0 c N' Hi Hj Ho|i b0 Hi|i j b0 c N' Hi Hj|i b0 Hi|i b0 Hi|i b0 Hi|p0 Hp].
  - destruct r as [[b' l']| |]; try discriminate; injection Er as <-; cbn [bufs]; eauto using nth_error_snoc_l.
  - destruct r as [[b' l']| |]; try discriminate; injection Er as <-; cbn [bufs]; eauto using nth_error_snoc_l.
  - rewrite resetBuf_shared in Er by reflexivity. injection Er as <-. cbn [bufs fst snd bind].
    destruct (R (bufs m) i (mkBuffer 0 1 0 0) Hk) as [b' E]. exists b'. apply nth_error_snoc_l. exact E.
  - injection Er as <-. eauto.
  - injection Er as <-. cbn [bufs]. auto.
  - injection Er as <-. cbn [bufs]. auto.
  - injection Er as <-. eauto.
  - rewrite resetBuf_shared in Er by reflexivity. injection Er as <-. cbn [bufs fst snd bind].
    destruct (Nat.eq_dec k j) as [->|D].
    + eexists. apply nth_error_replace_eq. rewrite replace_length. apply nth_error_Some. congruence.
    + rewrite nth_error_replace_neq by auto. auto.
  - injection Er as <-. cbn [bufs]. auto.
  - unfold resetBuf in Er. destruct (owns b0); [destruct (free (live m) (bcont b0)); try discriminate|]; injection Er as <-; cbn [bufs fst snd bind]; auto.
  - unfold resetBuf in Er. assert (D : i <> k) by congruence.
    destruct (owns b0); [destruct (free (live m) (bcont b0)); try discriminate|]; injection Er as <-; cbn [bufs fst snd bind];
    exists b; rewrite nth_error_replace_neq by auto; exact Hk.
  - destruct (free (live m) p0); try discriminate. injection Er as <-. cbn [bufs]. eauto.
Qed.

Lemma step_ok elt m o r : Inv elt m -> step elt m o r -> exists m', r = Ok m' /\ Inv elt m'.
Proof. apply step_inv. Qed.

Lemma run2_total elt m o1 o2 : Inv elt m -> Valid m o1 -> (forall m1, step elt m o1 (Ok m1) -> Valid m1 o2) ->
  exists m', run elt m [o1; o2] (Ok m').
Proof.
  intros HI V1 V2. destruct (step_total elt m o1 V1) as [r1 H1]. destruct (step_inv _ _ _ _ HI H1) as (m1 & -> & I1).
  destruct (step_total elt m1 o2 (V2 m1 H1)) as [r2 H2]. destruct (step_inv _ _ _ _ I1 H2) as (m2 & -> & I2).
  exists m2. eapply run2_intro; eassumption.
Qed.

(** The invariant of the histories. *)
Record PInv (s : pstate) : Prop := {
  pi_mem : Inv 8 (mem s);
  pi_in : forall i p, planAt s i p -> exists b, alive (mem s) (din p) b;
  pi_out : forall i p, planAt s i p -> exists b, alive (mem s) (dout p) b;
  pi_self : forall i p, planAt s i p -> din p <> dout p;
  pi_sep : forall i j p q, planAt s i p -> planAt s j q -> i <> j ->
    din p <> din q /\ din p <> dout q /\ dout p <> din q /\ dout p <> dout q;
  pi_live : forall i p n, planAt s i p -> dhandle p = Handle n -> exists f, nth_error (fftws s) n = Some (Some f);
  pi_unique : forall i j p q n, planAt s i p -> planAt s j q -> i <> j -> dhandle p = Handle n -> dhandle q <> Handle n
}.

Lemma PInv_start : PInv pstart.
Proof.
  split; [apply Inv_start|..]; unfold planAt, pstart; cbn; intros i *; destruct i; discriminate.
Qed.

Lemma planAt_lt s i p : planAt s i p -> (i < length (plans s))%nat.
Proof. intros H. apply nth_error_Some. unfold planAt in H. congruence. Qed.

Lemma planAt_fun s i p q : planAt s i p -> planAt s i q -> p = q.
Proof. unfold planAt. congruence. Qed.

(** What the constructor does. *)
Lemma newPlan_ok_form s t shape i o s' : newPlan s t shape i o (Ok s') ->
  exists m1 bi bo inS outS dims h,
    dftInShape t shape = Ok inS /\ dftOutShape t shape = Ok outS /\ planDims t shape = Ok dims /\
    step 8 (mem s) (ONew (inWidth t * u64 (shapeSize inS)) i 0) (Ok m1) /\
    step 8 m1 (ONew (outWidth t * u64 (shapeSize outS)) o 0) (Ok (mem s')) /\
    bufs (mem s') = bufs (mem s) ++ [Some bi; Some bo] /\ bufs m1 = bufs (mem s) ++ [Some bi] /\
    plans s' = plans s ++ [Some (mkDplan t shape (length (bufs (mem s))) (S (length (bufs (mem s)))) h)] /\
    ((h = Null /\ fftws s' = fftws s) \/
     (h = Handle (length (fftws s)) /\ Forall (fun d => 0 < d) dims /\
      fftws s' = fftws s ++ [Some (mkFftw (bdata bi) (8 * inWidth t * fftwIn t dims) (bdata bo) (8 * outWidth t * fftwOut t dims))] /\
      inside (live (mem s')) (bdata bi) (8 * inWidth t * fftwIn t dims) = true /\
      inside (live (mem s')) (bdata bo) (8 * outWidth t * fftwOut t dims) = true)).
Proof.
  intros H. inversion H as [|inS outS dims r|inS outS dims m bi bo r Hi Ho Hd Hm Hbi Hbo Hp E]; subst.
  destruct (run2_ok _ _ _ _ _ Hm) as (m1 & H1 & H2).
  destruct (step_new_form _ _ _ _ H1) as (b1 & E1 & _). destruct (step_new_form _ _ _ _ H2) as (b2 & E2 & _).
  rewrite E1, <- app_assoc in E2. cbn [app] in E2.
  assert (X1 : b1 = bi). { unfold alive in Hbi. rewrite E2, nth_error_app2, Nat.sub_diag in Hbi by lia. cbn in Hbi. congruence. }
  assert (X2 : b2 = bo).
  { unfold alive in Hbo. rewrite E2, nth_error_app2 in Hbo by lia. replace (S (length (bufs (mem s))) - length (bufs (mem s)))%nat with 1%nat in Hbo by lia.
    cbn in Hbo. congruence. }
  subst b1 b2. inversion Hp as [E3|Hpos E3]; subst r.
  - cbn [bind fst snd] in E. injection E as <-. exists m1, bi, bo, inS, outS, dims, Null. cbn [mem fftws plans]. repeat (split; [assumption || reflexivity|]). left; auto.
  - cbv zeta in E. destruct (inside (live m) (bdata bi) (8 * inWidth t * fftwIn t dims)) eqn:I1;
      destruct (inside (live m) (bdata bo) (8 * outWidth t * fftwOut t dims)) eqn:I2; cbn [andb bind fst snd] in E; try discriminate.
    injection E as <-. exists m1, bi, bo, inS, outS, dims, (Handle (length (fftws s))). cbn [mem fftws plans]. repeat (split; [assumption || reflexivity|]). right; auto.
Qed.

Lemma alive_app m k b l x y z : alive (mkState l (bufs m) x) k b -> alive (mkState y (bufs m ++ z) x) k b.
Proof. unfold alive. cbn [bufs]. intros H. rewrite nth_error_app1; [exact H|]. apply nth_error_Some. congruence. Qed.

Lemma nth_error_app_old {A} (l l' : list A) k x : nth_error l k = Some x -> nth_error (l ++ l') k = Some x.
Proof. intros H. rewrite nth_error_app1; [exact H|]. apply nth_error_Some. congruence. Qed.

Lemma newPlan_inv s t shape i o s' : PInv s -> newPlan s t shape i o (Ok s') -> PInv s'.
Proof.
  intros [IM II IO IS ID IL IU] H.
  destruct (newPlan_ok_form _ _ _ _ _ _ H) as (m1 & bi & bo & inS & outS & dims & h & _ & _ & _ & H1 & H2 & Eb & _ & Ep & Eh).
  destruct (step_inv _ _ _ _ IM H1) as (? & [= <-] & I1). destruct (step_inv _ _ _ _ I1 H2) as (? & [= <-] & I2).
  assert (P : forall k p, planAt s' k p -> planAt s k p \/ (k = length (plans s) /\ p = mkDplan t shape (length (bufs (mem s))) (S (length (bufs (mem s)))) h)).
  { intros k p. unfold planAt. rewrite Ep. intros X. apply nth_error_snoc in X as [X|[-> [= <-]]]; auto. }
  assert (A : forall k b, alive (mem s) k b -> alive (mem s') k b) by (intros k b X; unfold alive in *; rewrite Eb; apply nth_error_app_old; exact X).
  assert (L : forall k p, planAt s k p -> (din p < length (bufs (mem s)))%nat /\ (dout p < length (bufs (mem s)))%nat).
  { intros k p X. destruct (II _ _ X) as [b Hb]. destruct (IO _ _ X) as [c Hc]. split; eapply alive_lt; eassumption. }
  assert (F : forall n f, nth_error (fftws s) n = Some f -> nth_error (fftws s') n = Some f).
  { intros n f X. destruct Eh as [[_ ->]|(_ & _ & -> & _)]; [exact X|apply nth_error_app_old; exact X]. }
  split; [exact I2|..].
  - intros k p X. destruct (P _ _ X) as [Y|[-> ->]]; [destruct (II _ _ Y) as [b Hb]; exists b; apply A; exact Hb|].
    exists bi. unfold alive. cbn [din]. rewrite Eb, nth_error_app2, Nat.sub_diag by lia. reflexivity.
  - intros k p X. destruct (P _ _ X) as [Y|[-> ->]]; [destruct (IO _ _ Y) as [b Hb]; exists b; apply A; exact Hb|].
    exists bo. unfold alive. cbn [dout]. rewrite Eb, nth_error_app2 by lia.
    replace (S (length (bufs (mem s))) - length (bufs (mem s)))%nat with 1%nat by lia. reflexivity.
  - intros k p X. destruct (P _ _ X) as [Y|[-> ->]]; [eapply IS; exact Y|cbn [din dout]; lia].
  - intros k j p q X Y N. destruct (P _ _ X) as [X'|[-> ->]]; destruct (P _ _ Y) as [Y'|[-> ->]].
    + eapply ID; eassumption.
    + specialize (L _ _ X'). cbn [din dout]. lia.
    + specialize (L _ _ Y'). cbn [din dout]. lia.
    + congruence.
  - intros k p n X Hn. destruct (P _ _ X) as [X'|[-> ->]].
    + destruct (IL _ _ _ X' Hn) as [f Hf]. exists f. apply F. exact Hf.
    + cbn [dhandle] in Hn. subst h. destruct Eh as [[E _]|(E & _ & -> & _)]; [discriminate|]. injection E as ->.
      eexists. rewrite nth_error_app2, Nat.sub_diag by lia. reflexivity.
  - intros k j p q n X Y N Hn E. destruct (P _ _ X) as [X'|[-> ->]]; destruct (P _ _ Y) as [Y'|[-> ->]].
    + eapply IU; [exact X'|exact Y'|exact N|exact Hn|exact E].
    + cbn [dhandle] in E. destruct (IL _ _ _ X' Hn) as [f Hf]. subst h. destruct Eh as [[E _]|(E & _)]; [discriminate|]. injection E as ->.
      assert (length (fftws s) < length (fftws s))%nat by (apply nth_error_Some; congruence). lia.
    + cbn [dhandle] in Hn. destruct (IL _ _ _ Y' E) as [f Hf]. subst h. destruct Eh as [[E' _]|(E' & _)]; [discriminate|]. injection E' as ->.
      assert (length (fftws s) < length (fftws s))%nat by (apply nth_error_Some; congruence). lia.
    + congruence.
Qed.

(** What moves do. *)
Lemma move_form s i p m : PInv s -> planAt s i p -> run 8 (mem s) [OMove (din p); OMove (dout p)] (Ok m) ->
  exists bi bo, alive (mem s) (din p) bi /\ alive (mem s) (dout p) bo /\ live m = live (mem s) /\
    bufs m = replace (replace (bufs (mem s)) (din p) (Some (mkBuffer 0 1 0 0))) (dout p) (Some (mkBuffer 0 1 0 0)) ++
      [Some (mkBuffer (bsize bi) (bas bi) 0 (bdata bi)); Some (mkBuffer (bsize bo) (bas bo) 0 (bdata bo))].
Proof.
  intros HI Hp H. destruct (run2_ok _ _ _ _ _ H) as (m1 & H1 & H2).
  destruct (step_move_form _ _ _ _ H1) as (bi & A1 & L1 & U1 & B1). destruct (step_move_form _ _ _ _ H2) as (bo & A2 & L2 & U2 & B2).
  destruct (pi_out _ HI _ _ Hp) as [bo' Ho]. assert (N := pi_self _ HI _ _ Hp).
  assert (Hl := alive_lt _ _ _ Ho).
  assert (bo' = bo).
  { apply (alive_fun m1 (dout p)); [|exact A2]. unfold alive. rewrite B1. apply nth_error_app_old. rewrite nth_error_replace_neq by auto. exact Ho. }
  subst bo'. exists bi, bo. repeat split; auto; [congruence|]. rewrite B2, B1.
  assert (R : forall (l l' : list (option buffer)) k x, (k < length l)%nat -> replace (l ++ l') k x = replace l k x ++ l').
  { clear. intros l. induction l as [|y l IH]; intros l' [|k] x Hk; cbn [length] in *; try lia; cbn [app replace]; [reflexivity|]. f_equal. apply IH. lia. }
  rewrite R by (rewrite replace_length; exact Hl). rewrite <- app_assoc. reflexivity.
Qed.

Lemma move_assign_form s i j p q m : PInv s -> i <> j -> planAt s i p -> planAt s j q ->
  run 8 (mem s) [OMoveAssign (din p) (din q); OMoveAssign (dout p) (dout q)] (Ok m) ->
  exists bi bo, alive (mem s) (din q) bi /\ alive (mem s) (dout q) bo /\ live m = live (mem s) /\
    bufs m = replace (replace (replace (replace (bufs (mem s)) (din p) (Some bi)) (din q) (Some (mkBuffer 0 1 0 0)))
      (dout p) (Some bo)) (dout q) (Some (mkBuffer 0 1 0 0)).
Proof.
  intros HI N Hp Hq H. destruct (run2_ok _ _ _ _ _ H) as (m1 & H1 & H2).
  destruct (pi_sep _ HI _ _ _ _ Hp Hq N) as (N1 & N2 & N3 & N4). assert (N5 := pi_self _ HI _ _ Hp). assert (N6 := pi_self _ HI _ _ Hq).
  destruct (step_move_assign_form _ _ _ _ _ N1 H1) as (b1 & c1 & A1 & C1 & L1 & U1 & B1).
  destruct (step_move_assign_form _ _ _ _ _ N4 H2) as (b2 & c2 & A2 & C2 & L2 & U2 & B2).
  destruct (pi_out _ HI _ _ Hq) as [bo Ho].
  assert (c2 = bo). { apply (alive_fun m1 (dout q)); [exact C2|]. unfold alive. rewrite B1, !nth_error_replace_neq by auto. exact Ho. }
  subst c2. exists c1, bo. repeat split; auto; [congruence|]. rewrite B2, B1. reflexivity.
Qed.

Lemma alive_replace m k i (x : buffer) l u : (exists b, alive m k b) -> exists b, alive (mkState l (replace (bufs m) i (Some x)) u) k b.
Proof.
  intros [b H]. unfold alive in *. cbn [bufs]. destruct (Nat.eq_dec i k) as [->|N].
  - exists x. apply nth_error_replace_eq. apply nth_error_Some. congruence.
  - exists b. rewrite nth_error_replace_neq by exact N. exact H.
Qed.

Lemma planAt_replace s fs m i x k q : planAt (mkPstate m fs (replace (plans s) i x)) k q ->
  (k = i /\ x = Some q /\ (i < length (plans s))%nat) \/ (k <> i /\ planAt s k q).
Proof. unfold planAt. cbn [plans]. apply nth_error_replace_inv. Qed.

Lemma pstep_inv s o s' : PInv s -> pstep s o (Ok s') -> PInv s'.
Proof.
  intros HI H. assert (HI' := HI). destruct HI' as [IM II IO IS ID IL IU]. remember (Ok s') as r0 eqn:Er.
  destruct H as [t shape i o r H|i p bi bo r Hp Hbi Hbo H|i p bo t shape r Hp Hbo H|i p r Hp H|i p Hp|i j p q r N Hp Hq Ht H|i p Hp|i p r Hp H|o r Hn H|k b Hk].
  - subst r. eapply newPlan_inv; eassumption.
  - subst r. eapply newPlan_inv; eassumption.
  - subst r. eapply newPlan_inv; eassumption.
  - destruct (run_inv _ _ _ _ IM H) as (m & -> & Im). cbn [bind] in Er. injection Er as <-.
    destruct (move_form s i p m HI Hp H) as (bi & bo & Hbi & Hbo & EL & EB).
    assert (Li := alive_lt _ _ _ Hbi). assert (Lo := alive_lt _ _ _ Hbo). assert (Np := IS _ _ Hp).
    set (p' := mkDplan (dtransform p) (dshape p) (din p) (dout p) Empty) in *.
    set (p2 := mkDplan (dtransform p) (dshape p) (length (bufs (mem s))) (S (length (bufs (mem s)))) (dhandle p)) in *.
    set (s' := mkPstate m (fftws s) (replace (plans s) i (Some p') ++ [Some p2])).
    assert (P : forall k q, planAt s' k q -> (k = i /\ q = p') \/ (k <> i /\ planAt s k q) \/ (k = length (plans s) /\ q = p2)).
    { intros k q X. unfold planAt, s' in X. cbn [plans] in X. apply nth_error_snoc in X as [X|[X [= <-]]].
      - apply nth_error_replace_inv in X as [(-> & [= <-] & _)|[N X]]; auto.
      - rewrite replace_length in X. auto. }
    assert (A : forall k, (exists b, alive (mem s) k b) -> exists b, alive m k b).
    { intros k [b Hb]. unfold alive in *. rewrite EB.
      assert (exists b', nth_error (replace (replace (bufs (mem s)) (din p) (Some (mkBuffer 0 1 0 0))) (dout p) (Some (mkBuffer 0 1 0 0))) k = Some (Some b')) as [b' E].
      { destruct (Nat.eq_dec (dout p) k) as [<-|N1]; [eexists; apply nth_error_replace_eq; rewrite replace_length; exact Lo|].
        rewrite nth_error_replace_neq by exact N1. destruct (Nat.eq_dec (din p) k) as [<-|N2]; [eexists; apply nth_error_replace_eq; exact Li|].
        rewrite nth_error_replace_neq by exact N2. eauto. }
      exists b'. apply nth_error_app_old. exact E. }
    assert (L : forall k q, planAt s k q -> (din q < length (bufs (mem s)))%nat /\ (dout q < length (bufs (mem s)))%nat).
    { intros k q X. destruct (II _ _ X) as [b Hb]. destruct (IO _ _ X) as [c Hc]. split; eapply alive_lt; eassumption. }
    assert (EN : forall k, nth_error (bufs m) (length (bufs (mem s)) + k) = nth_error [Some (mkBuffer (bsize bi) (bas bi) 0 (bdata bi)); Some (mkBuffer (bsize bo) (bas bo) 0 (bdata bo))] k).
    { intros k. rewrite EB, nth_error_app2 by (rewrite !replace_length; lia). rewrite !replace_length. f_equal. lia. }
    split; [exact Im|..].
    + intros k q X. destruct (P _ _ X) as [[-> ->]|[[_ Y]|[-> ->]]]; [apply A; eexists; exact Hbi|apply A; eapply II; exact Y|].
      eexists. unfold alive. cbn [mem s' din p2]. replace (length (bufs (mem s))) with (length (bufs (mem s)) + 0)%nat by lia. rewrite EN. reflexivity.
    + intros k q X. destruct (P _ _ X) as [[-> ->]|[[_ Y]|[-> ->]]]; [apply A; eexists; exact Hbo|apply A; eapply IO; exact Y|].
      eexists. unfold alive. cbn [mem s' dout p2]. replace (S (length (bufs (mem s)))) with (length (bufs (mem s)) + 1)%nat by lia. rewrite EN. reflexivity.
    + intros k q X. destruct (P _ _ X) as [[-> ->]|[[_ Y]|[-> ->]]]; [exact Np|eapply IS; exact Y|cbn [din dout p2]; lia].
    + intros k j q r X Y N.
      destruct (P _ _ X) as [[-> ->]|[[Nk X']|[-> ->]]]; destruct (P _ _ Y) as [[-> ->]|[[Nj Y']|[-> ->]]]; try congruence; cbn [din dout p2 p'].
      * apply (ID _ _ _ _ Hp Y'). congruence.
      * lia.
      * destruct (ID _ _ _ _ X' Hp) as (? & ? & ? & ?); auto.
      * eapply ID; eassumption.
      * specialize (L _ _ X'). lia.
      * lia.
      * specialize (L _ _ Y'). lia.
    + intros k q n X Hn. cbn [fftws s']. destruct (P _ _ X) as [[-> ->]|[[Nk X']|[-> ->]]]; [discriminate|eapply IL; eassumption|].
      cbn [dhandle p2] in Hn. eapply IL; eassumption.
    + intros k j q r n X Y N Hn E.
      destruct (P _ _ X) as [[-> ->]|[[Nk X']|[-> ->]]]; destruct (P _ _ Y) as [[-> ->]|[[Nj Y']|[-> ->]]]; try congruence; cbn [dhandle p2 p'] in *; try discriminate.
      * eapply IU; [exact X'|exact Y'|exact N|exact Hn|exact E].
      * eapply IU; [exact X'|exact Hp|exact Nk|exact Hn|exact E].
      * eapply IU; [exact Y'|exact Hp|exact Nj|exact E|exact Hn].
  - injection Er as <-. exact HI.
  - destruct (run_inv _ _ _ _ IM H) as (m & -> & Im). cbn [bind] in Er. injection Er as <-.
    destruct (move_assign_form s i j p q m HI N Hp Hq H) as (bi & bo & Hbi & Hbo & EL & EB).
    set (p' := mkDplan (dtransform p) (dshape q) (din p) (dout p) (dhandle q)) in *.
    set (q' := mkDplan (dtransform q) (dshape q) (din q) (dout q) Empty) in *.
    set (s' := mkPstate m (fftws s) (replace (replace (plans s) i (Some p')) j (Some q'))).
    assert (P : forall k x, planAt s' k x -> (k = j /\ x = q') \/ (k = i /\ x = p') \/ (k <> i /\ k <> j /\ planAt s k x)).
    { intros k x X. unfold planAt, s' in X. cbn [plans] in X. apply nth_error_replace_inv in X as [(-> & [= <-] & _)|[Nj X]]; auto.
      apply nth_error_replace_inv in X as [(-> & [= <-] & _)|[Ni X]]; auto. }
    assert (A : forall k, (exists b, alive (mem s) k b) -> exists b, alive m k b).
    { intros k X. destruct m as [l bs u]. cbn [bufs] in EB. subst bs.
      assert (R : forall bs : list (option buffer), forall i (x : buffer), (exists b, nth_error bs k = Some (Some b)) -> exists b, nth_error (replace bs i (Some x)) k = Some (Some b)).
      { clear. intros bs i x [b E]. destruct (Nat.eq_dec i k) as [->|N]; [exists x; apply nth_error_replace_eq; apply nth_error_Some; congruence|].
        exists b. rewrite nth_error_replace_neq by exact N. exact E. }
      unfold alive in *. cbn [bufs]. do 4 apply R. exact X. }
    assert (Q : forall k x, planAt s' k x -> exists y, planAt s k y /\ din y = din x /\ dout y = dout x).
    { intros k x X. destruct (P _ _ X) as [[-> ->]|[[-> ->]|(_ & _ & Y)]]; eauto. }
    split; [exact Im|..].
    + intros k x X. destruct (Q _ _ X) as (y & Y & <- & _). apply A. eapply II. exact Y.
    + intros k x X. destruct (Q _ _ X) as (y & Y & _ & <-). apply A. eapply IO. exact Y.
    + intros k x X. destruct (Q _ _ X) as (y & Y & <- & <-). eapply IS. exact Y.
    + intros k k' x x' X X' Nk. destruct (Q _ _ X) as (y & Y & <- & <-). destruct (Q _ _ X') as (y' & Y' & <- & <-). eapply ID; eassumption.
    + intros k x n X Hn. cbn [fftws s']. destruct (P _ _ X) as [[-> ->]|[[-> ->]|(_ & _ & Y)]]; [discriminate|eapply IL; [exact Hq|exact Hn]|eapply IL; eassumption].
    + intros k k' x x' n X X' Nk Hn E.
      destruct (P _ _ X) as [[-> ->]|[[-> ->]|(Ni & Nj & Y)]]; [discriminate|..]; destruct (P _ _ X') as [[-> ->]|[[-> ->]|(Ni' & Nj' & Y')]]; try discriminate; try congruence; cbn [dhandle p'] in *.
      * eapply IU; [exact Hq|exact Y'|congruence|exact Hn|exact E].
      * eapply IU; [exact Hq|exact Y|congruence|exact E|exact Hn].
      * eapply IU; [exact Y|exact Y'|exact Nk|exact Hn|exact E].
  - destruct (execute _ _ _); cbn [bind] in Er; try discriminate. injection Er as <-. exact HI.
  - destruct (run_inv _ _ _ _ IM H) as (m & -> & Im). destruct (destroyFftw (dhandle p) (fftws s)) as [fs| |] eqn:Ef; cbn [bind] in Er; try discriminate.
    injection Er as <-. destruct (run2_ok _ _ _ _ _ H) as (m1 & H1 & H2).
    destruct (step_destroy_form _ _ _ _ H1) as (bo & Ho & _ & B1 & _). destruct (step_destroy_form _ _ _ _ H2) as (bi & Hbi & _ & B2 & _).
    assert (P : forall k x, planAt (mkPstate m fs (replace (plans s) i None)) k x -> k <> i /\ planAt s k x).
    { intros k x X. apply planAt_replace in X as [(_ & X & _)|X]; [discriminate|exact X]. }
    assert (A : forall k b, k <> din p -> k <> dout p -> alive (mem s) k b -> alive m k b).
    { intros k b N1 N2 X. unfold alive in *. rewrite B2, B1, !nth_error_replace_neq by auto. exact X. }
    split; [exact Im|..]; cbn [mem fftws].
    + intros k x X. destruct (P _ _ X) as [N Y]. destruct (II _ _ Y) as [b Hb]. exists b. destruct (ID _ _ _ _ Y Hp N) as (? & ? & _). apply A; auto.
    + intros k x X. destruct (P _ _ X) as [N Y]. destruct (IO _ _ Y) as [b Hb]. exists b. destruct (ID _ _ _ _ Y Hp N) as (_ & _ & ? & ?). apply A; auto.
    + intros k x X. destruct (P _ _ X) as [N Y]. eapply IS; exact Y.
    + intros k k' x x' X X' Nk. destruct (P _ _ X) as [N Y]. destruct (P _ _ X') as [N' Y']. eapply ID; eassumption.
    + intros k x n X Hn. destruct (P _ _ X) as [N Y]. destruct (IL _ _ _ Y Hn) as [f Hf]. exists f.
      unfold destroyFftw in Ef. destruct (dhandle p) as [| |n'] eqn:Eh; [congruence..|].
      destruct (nth_error (fftws s) n') as [[f'|]|]; try discriminate. injection Ef as <-. rewrite nth_error_replace_neq; [exact Hf|].
      intros ->. eapply IU; [exact Y|exact Hp|exact N|exact Hn|exact Eh].
    + intros k k' x x' n X X' Nk Hn. destruct (P _ _ X) as [N Y]. destruct (P _ _ X') as [N' Y']. apply (IU _ _ _ _ _ Y Y' Nk Hn).
  - destruct (step_inv _ _ _ _ IM H) as (m & -> & Im). cbn [bind] in Er. injection Er as <-.
    assert (P : forall k x, planAt (mkPstate m (fftws s) (plans s)) k x -> planAt s k x) by (intros; assumption).
    split; [exact Im|..]; cbn [mem fftws].
    + intros k x X. apply P in X. destruct (II _ _ X) as [b Hb]. eapply step_alive; [exact H|exact Hb|]. intros E. apply (Hn _ E). exists k, x. auto.
    + intros k x X. apply P in X. destruct (IO _ _ X) as [b Hb]. eapply step_alive; [exact H|exact Hb|]. intros E. apply (Hn _ E). exists k, x. auto.
    + intros k x X. eapply IS. apply P. exact X.
    + intros k k' x x' X X'. apply (ID _ _ _ _ (P _ _ X) (P _ _ X')).
    + intros k x n X. apply (IL _ _ _ (P _ _ X)).
    + intros k k' x x' n X X'. apply (IU _ _ _ _ _ (P _ _ X) (P _ _ X')).
  - destruct ((bsize b =? 0) || _); [|discriminate]. injection Er as <-. exact HI.
Qed.

Lemma prun_inv ops : forall s s', PInv s -> prun s ops (Ok s') -> PInv s'.
Proof.
  induction ops as [|o ops IH]; intros s s' HI H; inversion H as [|? s1 ? ? H1 H2|? ? ? H1 H2]; subst; [exact HI| |destruct (H2 s' eq_refl)].
  eapply IH; [|exact H2]. eapply pstep_inv; eassumption.
Qed.

Lemma history_inv ops s : prun pstart ops (Ok s) -> PInv s.
Proof. apply prun_inv, PInv_start. Qed.

(** Outcomes of the operations. *)
Lemma inside_spec s a n : inside (live (mem s)) a n = true <-> Readable s a n.
Proof.
  unfold inside, Readable. rewrite existsb_exists. split.
  - intros ([q m] & Hi & H). cbn [fst snd] in H. exists q, m. split; [exact Hi|]. lia.
  - intros (q & m & Hi & H). exists (q, m). split; [exact Hi|]. cbn [fst snd]. lia.
Qed.

Lemma transform_outcome s i p r : planAt s i p -> pstep s (PTransform i) r <->
  ((Transformable s p /\ r = Ok s) \/ (~ Transformable s p /\ r = UB)).
Proof.
  intros Hp. set (e := execute (live (mem s)) (dhandle p) (fftws s)).
  assert (E : (Transformable s p /\ e = Ok tt) \/ (~ Transformable s p /\ e = UB)).
  { unfold e, execute, Transformable. destruct (dhandle p) as [| |n]; [right; split; [intros (n & f & X & _); discriminate|reflexivity]..|].
    destruct (nth_error (fftws s) n) as [[f|]|] eqn:En; [|right; split; [intros (n' & f' & [= <-] & X & _); congruence|reflexivity]..].
    destruct (inside (live (mem s)) (fwIn f) (fwInBytes f)) eqn:I1; cbn [andb].
    - destruct (inside (live (mem s)) (fwOut f) (fwOutBytes f)) eqn:I2.
      + left. split; [|reflexivity]. exists n, f. repeat split; auto; apply inside_spec; assumption.
      + right. split; [|reflexivity]. intros (n' & f' & [= <-] & X & _ & Y). assert (f' = f) by congruence. subst f'. apply inside_spec in Y. congruence.
    - right. split; [|reflexivity]. intros (n' & f' & [= <-] & X & Y & _). assert (f' = f) by congruence. subst f'. apply inside_spec in Y. congruence. }
  split.
  - intros H. inversion H as [| | | | | |? q Hq Er Es| | |]; subst. rewrite (planAt_fun _ _ _ _ Hq Hp) in *. fold e.
    destruct E as [[T ->]|[T ->]]; cbn [bind]; auto.
  - intros H. assert (X := pstep_transform s i p Hp). fold e in X. destruct H as [[T ->]|[T ->]]; destruct E as [[T' E]|[T' E]]; try tauto; rewrite E in X; exact X.
Qed.

Lemma shapes_cases t shape : (exists a b c, dftInShape t shape = Ok a /\ dftOutShape t shape = Ok b /\ planDims t shape = Ok c) \/
  (dftInShape t shape = UB \/ dftOutShape t shape = UB \/ planDims t shape = UB).
Proof.
  assert (H : (exists a, halved shape = Ok a) \/ halved shape = UB).
  { destruct shape as [|n l]; [right; reflexivity|left]. unfold halved, zget, zset. cbn. eauto. }
  destruct t; cbn [dftInShape dftOutShape planDims bind]; destruct H as [[a Ha]|Ha]; rewrite ?Ha; cbn [bind]; eauto 10.
Qed.

Lemma planner_total l t dims i o fs : exists r, planner l t dims i o fs r.
Proof. eexists. apply planner_null. Qed.

Lemma new_valid m n d : Valid m (ONew n d 0).
Proof. exact I. Qed.

Lemma newPlan_total s t shape i o : PInv s -> exists r, newPlan s t shape i o r.
Proof.
  intros HI. destruct (shapes_cases t shape) as [(a & b & c & Ha & Hb & Hc)|H]; [|eexists; apply newPlan_shape; exact H].
  destruct (run2_total 8 (mem s) (ONew (inWidth t * u64 (shapeSize a)) i 0) (ONew (outWidth t * u64 (shapeSize b)) o 0) (pi_mem _ HI) I (fun _ _ => I)) as [m Hm].
  destruct (run2_ok _ _ _ _ _ Hm) as (m1 & H1 & H2).
  destruct (step_new_form _ _ _ _ H1) as (b1 & E1 & _). destruct (step_new_form _ _ _ _ H2) as (b2 & E2 & _).
  rewrite E1, <- app_assoc in E2. cbn [app] in E2.
  eexists. eapply (newPlan_ok s t shape i o a b c m b1 b2); try eassumption; [| |apply planner_null].
  - unfold alive. rewrite E2, nth_error_app2, Nat.sub_diag by lia. reflexivity.
  - unfold alive. rewrite E2, nth_error_app2 by lia. replace (S (length (bufs (mem s))) - length (bufs (mem s)))%nat with 1%nat by lia. reflexivity.
Qed.

Lemma newPlan_outcome s t shape i o r : newPlan s t shape i o r -> (exists s', r = Ok s') \/ r = UB.
Proof.
  intros H. destruct H as [H|inS outS dims r Hi Ho Hd H N|inS outS dims m bi bo r Hi Ho Hd H Hbi Hbo Hp]; auto.
  destruct Hp as [|Hp]; cbn [bind]; [left; eauto|]. cbv zeta. destruct (inside _ _ _ && inside _ _ _); cbn [bind]; [left; eauto|right; reflexivity].
Qed.

Lemma destroy_handle s i p : PInv s -> planAt s i p -> exists fs, destroyFftw (dhandle p) (fftws s) = Ok fs.
Proof.
  intros HI Hp. unfold destroyFftw. destruct (dhandle p) as [| |n] eqn:E; eauto.
  destruct (pi_live _ HI _ _ _ Hp E) as [f ->]. eauto.
Qed.

Lemma destroy_valid s i p : PInv s -> planAt s i p -> exists m, run 8 (mem s) [ODestroy (dout p); ODestroy (din p)] (Ok m).
Proof.
  intros HI Hp. apply run2_total; [apply (pi_mem _ HI)|exact (pi_out _ HI _ _ Hp)|].
  intros m1 H1. destruct (pi_in _ HI _ _ Hp) as [b Hb]. destruct (step_alive _ _ _ _ _ _ H1 Hb) as [b' Hb']; [|eexists; exact Hb'].
  intros [= E]. apply (pi_self _ HI _ _ Hp). auto.
Qed.

Lemma move_valid s i p : PInv s -> planAt s i p -> exists m, run 8 (mem s) [OMove (din p); OMove (dout p)] (Ok m).
Proof.
  intros HI Hp. apply run2_total; [apply (pi_mem _ HI)|exact (pi_in _ HI _ _ Hp)|].
  intros m1 H1. destruct (pi_out _ HI _ _ Hp) as [b Hb]. destruct (step_alive _ _ _ _ _ _ H1 Hb) as [b' Hb']; [discriminate|eexists; exact Hb'].
Qed.

Lemma move_assign_valid s i j p q : PInv s -> planAt s i p -> planAt s j q ->
  exists m, run 8 (mem s) [OMoveAssign (din p) (din q); OMoveAssign (dout p) (dout q)] (Ok m).
Proof.
  intros HI Hp Hq. apply run2_total; [apply (pi_mem _ HI)|split; [exact (pi_in _ HI _ _ Hp)|exact (pi_in _ HI _ _ Hq)]|].
  intros m1 H1. destruct (pi_out _ HI _ _ Hp) as [b Hb]. destruct (pi_out _ HI _ _ Hq) as [c Hc].
  split; eapply step_alive; try eassumption; discriminate.
Qed.

Lemma history_progress ops s o : prun pstart ops (Ok s) -> PValid s o ->
  (exists r, pstep s o r) /\
  (forall r, pstep s o r -> (exists s', r = Ok s') \/ (r = UB /\ match o with PNew _ _ _ _ | PInverse _ | PCompose _ _ _ | PTransform _ | PAccess _ => True | _ => False end)).
Proof.
  intros Hr V. assert (HI := history_inv _ _ Hr). clear Hr. split.
  - destruct o as [t shape i o|i|i t shape|i|i j|i|i|o|k]; cbn [PValid] in V.
    + destruct (newPlan_total s t shape i o HI) as [r H]. eexists. eapply pstep_new. exact H.
    + destruct V as [p Hp]. destruct (pi_in _ HI _ _ Hp) as [bi Hbi]. destruct (pi_out _ HI _ _ Hp) as [bo Hbo].
      destruct (newPlan_total s (inverseTransform (dtransform p)) (dshape p) (bdata bo) (bdata bi) HI) as [r H]. eexists. eapply pstep_inverse; eassumption.
    + destruct V as [p Hp]. destruct (pi_out _ HI _ _ Hp) as [bo Hbo]. destruct (newPlan_total s t shape (bdata bo) 0 HI) as [r H]. eexists. eapply pstep_compose; eassumption.
    + destruct V as [p Hp]. destruct (move_valid s i p HI Hp) as [m Hm]. eexists. eapply pstep_move; eassumption.
    + destruct V as (p & q & Hp & Hq & Ht). destruct (Nat.eq_dec i j) as [->|N]; [eexists; eapply pstep_move_assign_self; exact Hp|].
      destruct (move_assign_valid s i j p q HI Hp Hq) as [m Hm]. eexists. eapply pstep_move_assign; eassumption.
    + destruct V as [p Hp]. eexists. eapply pstep_transform. exact Hp.
    + destruct V as [p Hp]. destruct (destroy_valid s i p HI Hp) as [m Hm]. eexists. eapply pstep_destroy; eassumption.
    + destruct V as [V N]. destruct (step_total 8 (mem s) o V) as [r H]. eexists. eapply pstep_buffer; eassumption.
    + destruct V as [b Hb]. eexists. eapply pstep_access. exact Hb.
  - intros r H. assert (IM := pi_mem _ HI).
    destruct H as [t shape i o r H|i p bi bo r Hp Hbi Hbo H|i p bo t shape r Hp Hbo H|i p r Hp H|i p Hp|i j p q r N Hp Hq Ht H|i p Hp|i p r Hp H|o r Hn H|k b Hk].
    + destruct (newPlan_outcome _ _ _ _ _ _ H); auto.
    + destruct (newPlan_outcome _ _ _ _ _ _ H); auto.
    + destruct (newPlan_outcome _ _ _ _ _ _ H); auto.
    + destruct (run_inv _ _ _ _ IM H) as (m & -> & _). cbn [bind]. left; eauto.
    + left; eauto.
    + destruct (run_inv _ _ _ _ IM H) as (m & -> & _). cbn [bind]. left; eauto.
    + destruct (proj1 (transform_outcome s i p _ Hp) (pstep_transform s i p Hp)) as [[_ ->]|[_ ->]]; auto. left; eauto.
    + destruct (run_inv _ _ _ _ IM H) as (m & -> & _). destruct (destroy_handle s i p HI Hp) as [fs ->]. cbn [bind]. left; eauto.
    + destruct (step_inv _ _ _ _ IM H) as (m & -> & _). cbn [bind]. left; eauto.
    + destruct ((bsize b =? 0) || _); auto. left; eauto.
Qed.

(** FFTW plans: those which a plan holds are live, and no other plan holds them. *)
Lemma history_handles ops s : prun pstart ops (Ok s) ->
  (forall i n, Holds s i n -> LiveFftw s n) /\ (forall i j n, Holds s i n -> Holds s j n -> i = j).
Proof.
  intros H. assert (HI := history_inv _ _ H). split.
  - intros i n (p & Hp & E). eapply pi_live; eassumption.
  - intros i j n (p & Hp & E) (q & Hq & E'). destruct (Nat.eq_dec i j) as [|N]; [assumption|]. destruct (pi_unique _ HI _ _ _ _ _ Hp Hq N E E').
Qed.

(** Effect of the operations on the FFTW plans. *)
Definition PTidy (s : pstate) : Prop := forall n, LiveFftw s n -> exists i, Holds s i n.

Lemma newPlan_handles s t shape i o s' : newPlan s t shape i o (Ok s') ->
  (forall k p, planAt s k p -> planAt s' k p) /\ (forall n f, nth_error (fftws s) n = Some f -> nth_error (fftws s') n = Some f) /\
  (forall n, LiveFftw s' n -> LiveFftw s n \/ (n = length (fftws s) /\ Holds s' (length (plans s)) n)) /\
  (forall k n, Holds s' k n -> Holds s k n \/ n = length (fftws s)).
Proof.
  intros H. destruct (newPlan_ok_form _ _ _ _ _ _ H) as (m1 & bi & bo & inS & outS & dims & h & _ & _ & _ & _ & _ & _ & _ & Ep & Eh).
  split; [intros k p X; unfold planAt in *; rewrite Ep; apply nth_error_snoc_l; exact X|].
  split; [intros n f X; destruct Eh as [[_ ->]|(_ & _ & -> & _)]; [exact X|apply nth_error_snoc_l; exact X]|]. split.
  - intros n [f X]. destruct Eh as [[_ E]|(Eh & _ & E & _)]; rewrite E in X; [left; exists f; exact X|].
    apply nth_error_snoc in X as [X|[-> _]]; [left; exists f; exact X|]. right. split; [reflexivity|].
    eexists. split; [unfold planAt; rewrite Ep, nth_error_app2, Nat.sub_diag by lia; reflexivity|exact Eh].
  - intros k n (p & Hp & E). unfold planAt in Hp. rewrite Ep in Hp. apply nth_error_snoc in Hp as [Hp|[_ [= <-]]]; [left; exists p; split; assumption|].
    cbn [dhandle] in E. subst h. destruct Eh as [[Eh _]|(Eh & _)]; [discriminate|]. right. congruence.
Qed.

Lemma Holds_mono s s' n : (forall k p, planAt s k p -> planAt s' k p) -> (exists i, Holds s i n) -> exists i, Holds s' i n.
Proof. intros H (i & p & Hp & E). exists i, p. split; [apply H; exact Hp|exact E]. Qed.

Lemma pstep_tidy s o s' : PInv s -> PTidy s -> pstep s o (Ok s') -> ~ Overwrites s o -> PTidy s'.
Proof.
  intros HI HT H C. assert (IM := pi_mem _ HI). remember (Ok s') as r0 eqn:Er.
  assert (NEW : forall t shape i o, newPlan s t shape i o (Ok s') -> PTidy s').
  { intros t shape i o' X n L. destruct (newPlan_handles _ _ _ _ _ _ X) as (A & B & D & _).
    destruct (D n L) as [L'|[-> Hh]]; [apply (Holds_mono s s' n A); apply HT; exact L'|eauto]. }
  destruct H as [t shape i o r H|i p bi bo r Hp Hbi Hbo H|i p bo t shape r Hp Hbo H|i p r Hp H|i p Hp|i j p q r N Hp Hq Ht H|i p Hp|i p r Hp H|o r Hn H|k b Hk].
  - subst r. eapply NEW; exact H.
  - subst r. eapply NEW; exact H.
  - subst r. eapply NEW; exact H.
  - destruct r as [m| |]; cbn [bind] in Er; try discriminate. injection Er as <-. intros n L. destruct (HT n L) as (k & x & Hk & E).
    assert (Lk := planAt_lt _ _ _ Hk). assert (Li := planAt_lt _ _ _ Hp).
    destruct (Nat.eq_dec k i) as [->|Nk].
    + rewrite (planAt_fun _ _ _ _ Hk Hp) in E. exists (length (plans s)). eexists.
      split; [unfold planAt; cbn [plans]; rewrite nth_error_app2 by (rewrite replace_length; lia); rewrite replace_length, Nat.sub_diag; reflexivity|exact E].
    + exists k, x. split; [|exact E]. unfold planAt. cbn [plans]. apply nth_error_snoc_l. rewrite nth_error_replace_neq by auto. exact Hk.
  - injection Er as <-. exact HT.
  - destruct r as [m| |]; cbn [bind] in Er; try discriminate. injection Er as <-. intros n L. destruct (HT n L) as (k & x & Hk & E).
    assert (Li := planAt_lt _ _ _ Hp). assert (Nk : k <> i).
    { intros ->. apply C. split; [exact N|]. exists n, x. split; assumption. }
    destruct (Nat.eq_dec k j) as [->|Nj].
    + rewrite (planAt_fun _ _ _ _ Hk Hq) in E. exists i. eexists. split; [unfold planAt; cbn [plans]; rewrite nth_error_replace_neq by auto; apply nth_error_replace_eq; exact Li|exact E].
    + exists k, x. split; [|exact E]. unfold planAt. cbn [plans]. rewrite !nth_error_replace_neq by auto. exact Hk.
  - destruct (execute _ _ _); cbn [bind] in Er; try discriminate. injection Er as <-. exact HT.
  - destruct (destroyFftw (dhandle p) (fftws s)) as [fs| |] eqn:Ef; cbn [bind] in Er; try discriminate. destruct r as [m| |]; cbn [bind] in Er; try discriminate.
    injection Er as <-. intros n [f L]. cbn [fftws] in L.
    assert (X : nth_error (fftws s) n = Some (Some f) /\ dhandle p <> Handle n).
    { unfold destroyFftw in Ef. destruct (dhandle p) as [| |n']; [split; congruence..|]. destruct (nth_error (fftws s) n') as [[f'|]|]; try discriminate.
      injection Ef as <-. apply nth_error_replace_inv in L as [(_ & L & _)|[N L]]; [discriminate|]. split; [exact L|congruence]. }
    destruct X as [X Y]. destruct (HT n (ex_intro _ f X)) as (k & x & Hk & E). exists k, x. split; [|exact E].
    unfold planAt. cbn [plans]. rewrite nth_error_replace_neq; [exact Hk|]. intros ->. rewrite (planAt_fun _ _ _ _ Hk Hp) in E. contradiction.
  - destruct r as [m| |]; cbn [bind] in Er; try discriminate. injection Er as <-. exact HT.
  - destruct ((bsize b =? 0) || _); [|discriminate]. injection Er as <-. exact HT.
Qed.

Lemma overwrite_lost s o s' : PInv s -> pstep s o (Ok s') -> Overwrites s o -> exists n, Lost s' n.
Proof.
  intros HI H C. destruct o; cbn [Overwrites] in C; try contradiction. destruct C as (N & n & x & Hx & E).
  remember (Ok s') as r0 eqn:Er. remember (PMoveAssign i j) as o eqn:Eo.
  destruct H as [| | | | |i' j' p q r N' Hp Hq Ht Hm| | | |]; try discriminate Eo; injection Eo as Ei Ej; [congruence|]; subst i' j'.
  destruct r as [m| |]; cbn [bind] in Er; try discriminate. injection Er as <-.
  rewrite (planAt_fun _ _ _ _ Hx Hp) in E. exists n. split; [exact (pi_live _ HI _ _ _ Hp E)|].
  intros k (y & Hy & E'). unfold planAt in Hy. cbn [plans] in Hy.
  apply nth_error_replace_inv in Hy as [(_ & [= <-] & _)|[Nj Hy]]; [discriminate|].
  apply nth_error_replace_inv in Hy as [(_ & [= <-] & _)|[Ni Hy]].
  - cbn [dhandle] in E'. exact (pi_unique _ HI _ _ _ _ _ Hp Hq N E E').
  - assert (Ni' : i <> k) by auto. exact (pi_unique _ HI _ _ _ _ _ Hp Hy Ni' E E').
Qed.

Lemma lost_step s o s' n : PInv s -> pstep s o (Ok s') -> Lost s n -> Lost s' n.
Proof.
  intros HI H [[f L] NH]. remember (Ok s') as r0 eqn:Er.
  assert (NEW : forall t shape i o, newPlan s t shape i o (Ok s') -> Lost s' n).
  { intros t shape i o' X. destruct (newPlan_handles _ _ _ _ _ _ X) as (A & B & _ & D). split; [exists f; apply B; exact L|].
    intros k Hk. destruct (D k n Hk) as [Hk'| ->]; [exact (NH k Hk')|].
    assert (length (fftws s) < length (fftws s))%nat by (apply nth_error_Some; congruence). lia. }
  destruct H as [t shape i o r H|i p bi bo r Hp Hbi Hbo H|i p bo t shape r Hp Hbo H|i p r Hp H|i p Hp|i j p q r N Hp Hq Ht H|i p Hp|i p r Hp H|o r Hn H|k b Hk].
  - subst r. eapply NEW; exact H.
  - subst r. eapply NEW; exact H.
  - subst r. eapply NEW; exact H.
  - destruct r as [m| |]; cbn [bind] in Er; try discriminate. injection Er as <-. split; [exists f; exact L|].
    intros k (x & Hk & E). unfold planAt in Hk. cbn [plans] in Hk. apply nth_error_snoc in Hk as [Hk|[_ [= <-]]].
    + apply nth_error_replace_inv in Hk as [(_ & [= <-] & _)|[_ Hk]]; [discriminate|]. apply (NH k). exists x. split; assumption.
    + apply (NH i). exists p. split; assumption.
  - injection Er as <-. split; [exists f; exact L|exact NH].
  - destruct r as [m| |]; cbn [bind] in Er; try discriminate. injection Er as <-. split; [exists f; exact L|].
    intros k (x & Hk & E). unfold planAt in Hk. cbn [plans] in Hk.
    apply nth_error_replace_inv in Hk as [(_ & [= <-] & _)|[_ Hk]]; [discriminate|].
    apply nth_error_replace_inv in Hk as [(_ & [= <-] & _)|[_ Hk]]; [apply (NH j); exists q; split; assumption|apply (NH k); exists x; split; assumption].
  - destruct (execute _ _ _); cbn [bind] in Er; try discriminate. injection Er as <-. split; [exists f; exact L|exact NH].
  - destruct (destroyFftw (dhandle p) (fftws s)) as [fs| |] eqn:Ef; cbn [bind] in Er; try discriminate. destruct r as [m| |]; cbn [bind] in Er; try discriminate.
    injection Er as <-. split.
    + exists f. cbn [fftws]. unfold destroyFftw in Ef. destruct (dhandle p) as [| |n'] eqn:Eh; [congruence..|]. destruct (nth_error (fftws s) n') as [[f'|]|]; try discriminate.
      injection Ef as <-. rewrite nth_error_replace_neq; [exact L|]. intros ->. apply (NH i). exists p. split; assumption.
    + intros k (x & Hk & E). apply planAt_replace in Hk as [(_ & Hk & _)|[_ Hk]]; [discriminate|]. apply (NH k). exists x. split; assumption.
  - destruct r as [m| |]; cbn [bind] in Er; try discriminate. injection Er as <-. split; [exists f; exact L|exact NH].
  - destruct ((bsize b =? 0) || _); [|discriminate]. injection Er as <-. split; [exists f; exact L|exact NH].
Qed.

Lemma prun_cons s o ops s' : prun s (o :: ops) (Ok s') -> exists s1, pstep s o (Ok s1) /\ prun s1 ops (Ok s').
Proof. intros H. inversion H as [|? s1 ? ? H1 H2|? ? ? H1 H2]; subst; [eauto|destruct (H2 s' eq_refl)]. Qed.

Lemma prun_lost ops : forall s s' n, PInv s -> prun s ops (Ok s') -> Lost s n -> Lost s' n.
Proof.
  induction ops as [|o ops IH]; intros s s' n HI H L; [inversion H; subst; exact L|]. destruct (prun_cons _ _ _ _ H) as (s1 & H1 & H2).
  eapply IH; [eapply pstep_inv; eassumption|exact H2|]. eapply lost_step; eassumption.
Qed.

Lemma runSome_lost ops : forall s s', PInv s -> runSome Overwrites s ops s' -> exists n, Lost s' n.
Proof.
  induction ops as [|o ops IH]; intros s s' HI H; inversion H as [? s1 ? ? H1 C H2|? s1 ? ? H1 H2]; subst.
  - destruct (overwrite_lost _ _ _ HI H1 C) as [n L]. exists n. eapply prun_lost; [eapply pstep_inv; eassumption|exact H2|exact L].
  - eapply IH; [eapply pstep_inv; eassumption|exact H2].
Qed.

Lemma Overwrites_dec s o : Overwrites s o \/ ~ Overwrites s o.
Proof.
  destruct o as [| | | |i j| | | |]; cbn [Overwrites]; auto. destruct (Nat.eq_dec i j) as [->|N]; [right; tauto|].
  destruct (nth_error (plans s) i) as [[p|]|] eqn:E; [destruct (dhandle p) as [| |n] eqn:Eh|..];
    try (right; intros (_ & n & q & Hq & Eq); unfold planAt in Hq; congruence).
  left. split; [exact N|]. exists n, p. split; assumption.
Qed.

Lemma prun_split ops : forall s s', prun s ops (Ok s') -> runAll (fun s o => ~ Overwrites s o) s ops s' \/ runSome Overwrites s ops s'.
Proof.
  induction ops as [|o ops IH]; intros s s' H; [inversion H; subst; left; constructor|]. destruct (prun_cons _ _ _ _ H) as (s1 & H1 & H2).
  destruct (Overwrites_dec s o) as [C|C]; [right; eapply runSome_here; eassumption|].
  destruct (IH _ _ H2) as [X|X]; [left; eapply runAll_cons; eassumption|right; eapply runSome_later; eassumption].
Qed.

Lemma runAll_tidy ops : forall s s', PInv s -> PTidy s -> runAll (fun s o => ~ Overwrites s o) s ops s' -> PTidy s'.
Proof.
  induction ops as [|o ops IH]; intros s s' HI HT H; inversion H as [|? s1 ? ? H1 C H2]; subst; [exact HT|].
  eapply IH; [eapply pstep_inv; eassumption|eapply pstep_tidy; eassumption|exact H2].
Qed.

Lemma runAll_prun P ops : forall s s', runAll P s ops s' -> prun s ops (Ok s').
Proof. induction ops as [|o ops IH]; intros s s' H; inversion H; subst; [constructor|]. eapply prun_ok; [eassumption|]. apply IH. assumption. Qed.

Lemma PTidy_start : PTidy pstart.
Proof. intros n [f H]. destruct n; discriminate. Qed.

Lemma fftw_leak_iff ops s : prun pstart ops (Ok s) -> (exists n, Lost s n) <-> runSome Overwrites pstart ops s.
Proof.
  intros H. split.
  - intros (n & L & NH). destruct (prun_split _ _ _ H) as [X|X]; [|exact X].
    destruct (runAll_tidy _ _ _ PInv_start PTidy_start X n L) as [i Hi]. destruct (NH i Hi).
  - apply runSome_lost, PInv_start.
Qed.

Lemma fftw_no_leak ops s : runAll (fun s o => ~ Overwrites s o) pstart ops s ->
  (forall n, LiveFftw s n <-> exists i, Holds s i n) /\ (NoPlan s -> forall n, ~ LiveFftw s n).
Proof.
  intros H. assert (T := runAll_tidy _ _ _ PInv_start PTidy_start H). assert (HI := history_inv _ _ (runAll_prun _ _ _ _ H)). split.
  - intros n. split; [apply T|]. intros (i & p & Hp & E). eapply pi_live; eassumption.
  - intros N n L. destruct (T n L) as (i & p & Hp & _). exact (N i p Hp).
Qed.

(** Frame: the operations do not change the other plans, buffers and FFTW plans. *)
Lemma newPlan_frame s t shape i o s' k b : newPlan s t shape i o (Ok s') -> alive (mem s) k b -> alive (mem s') k b.
Proof.
  intros H X. destruct (newPlan_ok_form _ _ _ _ _ _ H) as (m1 & bi & bo & inS & outS & dims & h & _ & _ & _ & _ & _ & Eb & _).
  unfold alive in *. rewrite Eb. apply nth_error_app_old. exact X.
Qed.

Lemma frame_buffer s o s' k b : PInv s -> pstep s o (Ok s') -> alive (mem s) k b -> ~ PTouches s o k -> alive (mem s') k b.
Proof.
  intros HI H Hk T. remember (Ok s') as r0 eqn:Er.
  destruct H as [t shape i o r H|i p bi bo r Hp Hbi Hbo H|i p bo t shape r Hp Hbo H|i p r Hp H|i p Hp|i j p q r N Hp Hq Ht H|i p Hp|i p r Hp H|o r Hn H|k' b' Hk']; cbn [PTouches] in T.
  - subst r. eapply newPlan_frame; eassumption.
  - subst r. eapply newPlan_frame; eassumption.
  - subst r. eapply newPlan_frame; eassumption.
  - destruct r as [m| |]; cbn [bind] in Er; try discriminate. injection Er as <-. cbn [mem].
    destruct (move_form s i p m HI Hp H) as (bi & bo & Hbi & Hbo & EL & EB). unfold alive in *. rewrite EB. apply nth_error_app_old.
    assert (din p <> k /\ dout p <> k) as [N1 N2] by (split; intros E; apply T; exists p; auto). rewrite !nth_error_replace_neq by auto. exact Hk.
  - injection Er as <-. exact Hk.
  - destruct r as [m| |]; cbn [bind] in Er; try discriminate. injection Er as <-. cbn [mem].
    destruct (move_assign_form s i j p q m HI N Hp Hq H) as (bi & bo & Hbi & Hbo & EL & EB). unfold alive in *. rewrite EB.
    assert (din p <> k /\ dout p <> k) as [N1 N2] by (split; intros E; apply T; split; auto; exists p; auto).
    assert (din q <> k /\ dout q <> k) as [N3 N4] by (split; intros E; apply T; split; auto; exists q; auto).
    rewrite !nth_error_replace_neq by auto. exact Hk.
  - destruct (execute _ _ _); cbn [bind] in Er; try discriminate. injection Er as <-. exact Hk.
  - destruct (destroyFftw (dhandle p) (fftws s)) as [fs| |]; cbn [bind] in Er; try discriminate. destruct r as [m| |]; cbn [bind] in Er; try discriminate.
    injection Er as <-. cbn [mem]. destruct (run2_ok _ _ _ _ _ H) as (m1 & H1 & H2).
    destruct (step_destroy_form _ _ _ _ H1) as (bo & Ho & _ & B1 & _). destruct (step_destroy_form _ _ _ _ H2) as (bi & Hbi & _ & B2 & _).
    assert (din p <> k /\ dout p <> k) as [N1 N2] by (split; intros E; apply T; exists p; auto). unfold alive in *. rewrite B2, B1, !nth_error_replace_neq by auto. exact Hk.
  - destruct r as [m| |]; cbn [bind] in Er; try discriminate. injection Er as <-. cbn [mem]. eapply step_frame; eassumption.
  - destruct ((bsize b' =? 0) || _); [|discriminate]. injection Er as <-. exact Hk.
Qed.

Lemma frame_plan s o s' i p : PInv s -> pstep s o (Ok s') -> planAt s i p -> ~ PAlters o i ->
  planAt s' i p /\ (forall n f, dhandle p = Handle n -> nth_error (fftws s) n = Some (Some f) -> nth_error (fftws s') n = Some (Some f)).
Proof.
  intros HI H Hi T. remember (Ok s') as r0 eqn:Er.
  assert (NEW : forall t shape a b, newPlan s t shape a b (Ok s') ->
    planAt s' i p /\ (forall n f, dhandle p = Handle n -> nth_error (fftws s) n = Some (Some f) -> nth_error (fftws s') n = Some (Some f))).
  { intros t shape a b X. destruct (newPlan_handles _ _ _ _ _ _ X) as (A & B & _). split; [apply A; exact Hi|]. intros n f _ E. apply B. exact E. }
  destruct H as [t shape i' o r H|i' q bi bo r Hp Hbi Hbo H|i' q bo t shape r Hp Hbo H|i' q r Hp H|i' q Hp|i' j q q' r N Hp Hq Ht H|i' q Hp|i' q r Hp H|o r Hn H|k' b' Hk']; cbn [PAlters] in T.
  - subst r. eapply NEW; exact H.
  - subst r. eapply NEW; exact H.
  - subst r. eapply NEW; exact H.
  - destruct r as [m| |]; cbn [bind] in Er; try discriminate. injection Er as <-. split; [|intros; assumption].
    unfold planAt. cbn [plans]. apply nth_error_snoc_l. rewrite nth_error_replace_neq by auto. exact Hi.
  - injection Er as <-. split; [exact Hi|intros; assumption].
  - destruct r as [m| |]; cbn [bind] in Er; try discriminate. injection Er as <-. split; [|intros; assumption].
    assert (i <> i' /\ i <> j) as [N1 N2] by (split; intros E; apply T; auto). unfold planAt. cbn [plans]. rewrite !nth_error_replace_neq by auto. exact Hi.
  - destruct (execute _ _ _); cbn [bind] in Er; try discriminate. injection Er as <-. split; [exact Hi|intros; assumption].
  - destruct (destroyFftw (dhandle q) (fftws s)) as [fs| |] eqn:Ef; cbn [bind] in Er; try discriminate. destruct r as [m| |]; cbn [bind] in Er; try discriminate.
    injection Er as <-. split; [unfold planAt; cbn [plans]; rewrite nth_error_replace_neq by auto; exact Hi|].
    intros n f E L. cbn [fftws]. unfold destroyFftw in Ef. destruct (dhandle q) as [| |n'] eqn:Eh; [congruence..|].
    destruct (nth_error (fftws s) n') as [[f'|]|]; try discriminate. injection Ef as <-. rewrite nth_error_replace_neq; [exact L|].
    intros ->. exact (pi_unique _ HI _ _ _ _ _ Hi Hp T E Eh).
  - destruct r as [m| |]; cbn [bind] in Er; try discriminate. injection Er as <-. split; [exact Hi|intros; assumption].
  - destruct ((bsize b' =? 0) || _); [|discriminate]. injection Er as <-. split; [exact Hi|intros; assumption].
Qed.

(** The FFTW plans read and write the buffers. *)
Lemma prod_halved n l : 0 < n -> Forall (fun d => 0 < d) l -> prod (n / 2 + 1 :: l) <= prod (n :: l).
Proof.
  intros Hn Hl. rewrite !prod_cons. assert (0 < prod l) by (apply prod_pos; exact Hl). assert (n / 2 + 1 <= n); [|nia].
  assert (n / 2 < n) by (apply Z.div_lt; lia). lia.
Qed.

Lemma shape_extents t shape inS outS dims : PlanShape shape -> dftInShape t shape = Ok inS -> dftOutShape t shape = Ok outS -> planDims t shape = Ok dims ->
  fftwIn t dims = u64 (shapeSize inS) /\ fftwOut t dims = u64 (shapeSize outS) /\
  0 < shapeSize inS <= prod shape /\ 0 < shapeSize outS <= prod shape /\ u64 (shapeSize inS) = shapeSize inS /\ u64 (shapeSize outS) = shapeSize outS.
Proof.
  intros [HS HB] Hi Ho Hd. destruct (fftw_extents t shape HS) as (si & so & dims' & Hi' & Ho' & Hd' & Ei & Eo & _ & _).
  assert (si = inS) by congruence. assert (so = outS) by congruence. assert (dims' = dims) by congruence. subst si so dims'.
  destruct HS as [N F]. destruct shape as [|n rest]; [congruence|]. inversion F as [|? ? Hn Fr]; subst.
  assert (P : Forall (fun d => 0 < d) rest) by (eapply Forall_impl; [|exact Fr]; cbn; intros; lia).
  assert (Pr : 0 < prod rest) by (apply prod_pos; exact P).
  assert (Hh : halved (n :: rest) = Ok (n / 2 + 1 :: rest)) by (apply halved_cons; lia).
  assert (B1 := prod_halved n rest ltac:(lia) P). assert (B0 : 0 < prod (n :: rest)) by (rewrite prod_cons; nia).
  assert (B2 : 0 < prod (n / 2 + 1 :: rest)) by (rewrite prod_cons; assert (0 <= n / 2) by (apply Z.div_pos; lia); nia).
  assert (X : inS <> [] /\ outS <> [] /\ 0 < prod inS <= prod (n :: rest) /\ 0 < prod outS <= prod (n :: rest)).
  { destruct t; cbn [dftInShape dftOutShape] in Hi, Ho; rewrite ?Hh in *; injection Hi as <-; injection Ho as <-; repeat split; try discriminate; lia. }
  destruct X as (Ni & No & Bi & Bo). rewrite !shapeSize_prod, !u64_small by (assumption || lia). repeat split; lia.
Qed.

Definition AllSynced (s : pstate) : Prop := forall i p, planAt s i p -> Synced s p.

Lemma synced_frame s o s' i p : PInv s -> pstep s o (Ok s') -> planAt s i p -> ~ PAlters o i -> ~ PTouches s o (din p) -> ~ PTouches s o (dout p) ->
  Synced s p -> Synced s' p.
Proof.
  intros HI H Hp A Ti To S n f bi bo En Ef Hbi Hbo. destruct (frame_plan s o s' i p HI H Hp A) as [_ F].
  destruct (pi_live _ HI _ _ _ Hp En) as [f' Lf]. assert (f = f') by (specialize (F n f' En Lf); congruence). subst f'.
  destruct (pi_in _ HI _ _ Hp) as [ci Ci]. destruct (pi_out _ HI _ _ Hp) as [co Co].
  assert (bi = ci) by (eapply alive_fun; [exact Hbi|eapply frame_buffer; eassumption]). assert (bo = co) by (eapply alive_fun; [exact Hbo|eapply frame_buffer; eassumption]).
  subst ci co. eapply S; eassumption.
Qed.

Lemma newPlan_synced s t shape i o s' p : newPlan s t shape i o (Ok s') -> planAt s' (length (plans s)) p -> Synced s' p.
Proof.
  intros H Hp n f bi bo En Ef Hbi Hbo.
  destruct (newPlan_ok_form _ _ _ _ _ _ H) as (m1 & ci & co & inS & outS & dims & h & Hi & Ho & Hd & H1 & H2 & Eb & Eb1 & Ep & Eh).
  unfold planAt in Hp. rewrite Ep, nth_error_app2, Nat.sub_diag in Hp by lia. cbn in Hp. injection Hp as <-. cbn [dhandle din dout dshape] in *. subst h.
  destruct Eh as [[Eh _]|(Eh & _ & Efs & _)]; [discriminate|]. injection Eh as ->.
  rewrite Efs, nth_error_app2, Nat.sub_diag in Ef by lia. cbn in Ef. injection Ef as <-. cbn [fwIn fwOut fwInBytes fwOutBytes].
  unfold alive in Hbi, Hbo. rewrite Eb, nth_error_app2, Nat.sub_diag in Hbi by lia. cbn in Hbi. injection Hbi as <-.
  rewrite Eb, nth_error_app2 in Hbo by lia. replace (S (length (bufs (mem s))) - length (bufs (mem s)))%nat with 1%nat in Hbo by lia. cbn in Hbo. injection Hbo as <-.
  split; [reflexivity|]. split; [reflexivity|]. intros PS.
  destruct (step_new_form _ _ _ _ H1) as (d1 & E1 & S1 & _). destruct (step_new_form _ _ _ _ H2) as (d2 & E2 & S2 & _).
  rewrite Eb1 in E1. apply app_inv_head in E1. injection E1 as <-.
  rewrite Eb, Eb1, <- app_assoc in E2. cbn [app] in E2. apply app_inv_head in E2. injection E2 as <-.
  destruct (shape_extents t shape inS outS dims PS Hi Ho Hd) as (E1 & E2 & _). rewrite S1, S2, E1, E2. split; destruct t; cbn [inWidth outWidth]; ring.
Qed.

Lemma synced_step s o s' : PInv s -> AllSynced s -> pstep s o (Ok s') -> ~ Reassigns s o -> AllSynced s'.
Proof.
  intros HI HS H R. assert (H0 := H). remember (Ok s') as r0 eqn:Er.
  assert (NEW : forall t shape a b, newPlan s t shape a b (Ok s') -> (forall i, ~ PAlters o i) -> (forall k, ~ PTouches s o k) -> pstep s o (Ok s') -> AllSynced s').
  { intros t shape a b X A T P k p Hp. destruct (newPlan_ok_form _ _ _ _ _ _ X) as (m1 & ci & co & inS & outS & dims & h & _ & _ & _ & _ & _ & _ & _ & Ep & _).
    assert (Hp' := Hp). unfold planAt in Hp. rewrite Ep in Hp. apply nth_error_snoc in Hp as [Hp|[-> _]].
    - eapply synced_frame; [exact HI|exact P|exact Hp|apply A|apply T|apply T|]. eapply HS. exact Hp.
    - eapply newPlan_synced; eassumption. }
  destruct H as [t shape i o r H|i p bi bo r Hp Hbi Hbo H|i p bo t shape r Hp Hbo H|i p r Hp H|i p Hp|i j p q r N Hp Hq Ht H|i p Hp|i p r Hp H|o r Hn H|k b Hk].
  - subst r. eapply NEW; [exact H|cbn; auto|cbn; auto|exact H0].
  - subst r. eapply NEW; [exact H|cbn; auto|cbn; auto|exact H0].
  - subst r. eapply NEW; [exact H|cbn; auto|cbn; auto|exact H0].
  - destruct r as [m| |]; cbn [bind] in Er, H0; try discriminate. injection Er as <-.
    destruct (move_form s i p m HI Hp H) as (bi & bo & Hbi & Hbo & EL & EB).
    assert (EN : forall k, nth_error (bufs m) (length (bufs (mem s)) + k) = nth_error [Some (mkBuffer (bsize bi) (bas bi) 0 (bdata bi)); Some (mkBuffer (bsize bo) (bas bo) 0 (bdata bo))] k).
    { intros k. rewrite EB, nth_error_app2 by (rewrite !replace_length; lia). rewrite !replace_length. f_equal. lia. }
    intros k x Hx. assert (Hx' := Hx). unfold planAt in Hx. cbn [plans] in Hx. apply nth_error_snoc in Hx as [Hx|[_ [= <-]]].
    + apply nth_error_replace_inv in Hx as [(_ & [= <-] & _)|[Nk Hx]]; [intros n f ? ? En; discriminate|].
      destruct (pi_sep _ HI _ _ _ _ Hx Hp Nk) as (N1 & N2 & N3 & N4).
      eapply synced_frame; [exact HI|exact H0|exact Hx|exact Nk| | |eapply HS; exact Hx]; cbn [PTouches]; intros (y & Hy & E); rewrite (planAt_fun _ _ _ _ Hy Hp) in E; intuition congruence.
    + intros n f ci co En Ef Hci Hco. cbn [dhandle din dout dshape mem fftws] in *.
      destruct (HS _ _ Hp n f bi bo En Ef Hbi Hbo) as (S1 & S2 & S3).
      unfold alive in Hci, Hco. replace (length (bufs (mem s))) with (length (bufs (mem s)) + 0)%nat in Hci by lia. rewrite EN in Hci. cbn in Hci. injection Hci as <-.
      replace (S (length (bufs (mem s)))) with (length (bufs (mem s)) + 1)%nat in Hco by lia. rewrite EN in Hco. cbn in Hco. injection Hco as <-. cbn [bdata bsize]. auto.
  - injection Er as <-. exact HS.
  - destruct r as [m| |]; cbn [bind] in Er, H0; try discriminate. injection Er as <-.
    destruct (move_assign_form s i j p q m HI N Hp Hq H) as (bi & bo & Hbi & Hbo & EL & EB).
    destruct (pi_sep _ HI _ _ _ _ Hp Hq N) as (M1 & M2 & M3 & M4). assert (M5 := pi_self _ HI _ _ Hp). assert (M6 := pi_self _ HI _ _ Hq).
    destruct (pi_in _ HI _ _ Hp) as [di Di]. destruct (pi_out _ HI _ _ Hp) as [do Do].
    intros k x Hx. unfold planAt in Hx. cbn [plans] in Hx.
    apply nth_error_replace_inv in Hx as [(_ & [= <-] & _)|[Nj Hx]]; [intros n f ? ? En; discriminate|].
    apply nth_error_replace_inv in Hx as [(_ & [= <-] & _)|[Ni Hx]].
    + intros n f ci co En Ef Hci Hco. cbn [dhandle din dout dshape mem fftws] in *.
      destruct (HS _ _ Hq n f bi bo En Ef Hbi Hbo) as (S1 & S2 & S3).
      unfold alive in Hci, Hco. rewrite EB in Hci, Hco.
      rewrite (nth_error_replace_neq _ (dout q)) in Hci by auto. rewrite (nth_error_replace_neq _ (dout p)) in Hci by auto.
      rewrite (nth_error_replace_neq _ (din q)) in Hci by auto. rewrite nth_error_replace_eq in Hci by (eapply alive_lt; exact Di). injection Hci as <-.
      rewrite (nth_error_replace_neq _ (dout q)) in Hco by auto. rewrite nth_error_replace_eq in Hco by (rewrite !replace_length; eapply alive_lt; exact Do). injection Hco as <-.
      auto.
    + destruct (pi_sep _ HI _ _ _ _ Hx Hp Ni) as (N1 & N2 & N3 & N4). destruct (pi_sep _ HI _ _ _ _ Hx Hq Nj) as (N5 & N6 & N7 & N8).
      eapply synced_frame; [exact HI|exact H0|exact Hx| | | |eapply HS; exact Hx]; cbn [PTouches PAlters]; [tauto|..];
        intros (_ & y & [Hy|Hy] & E); [rewrite (planAt_fun _ _ _ _ Hy Hp) in E|rewrite (planAt_fun _ _ _ _ Hy Hq) in E|rewrite (planAt_fun _ _ _ _ Hy Hp) in E|rewrite (planAt_fun _ _ _ _ Hy Hq) in E]; intuition congruence.
  - destruct (execute _ _ _); cbn [bind] in Er; try discriminate. injection Er as <-. exact HS.
  - intros k x Hx.
    assert (Hx' : k <> i /\ planAt s k x).
    { destruct (destroyFftw (dhandle p) (fftws s)) as [fs| |]; cbn [bind] in Er; try discriminate. destruct r as [m| |]; cbn [bind] in Er; try discriminate. injection Er as <-.
      apply planAt_replace in Hx as [(_ & X & _)|X]; [discriminate|exact X]. }
    destruct Hx' as [Nk Hk]. destruct (pi_sep _ HI _ _ _ _ Hk Hp Nk) as (N1 & N2 & N3 & N4). rewrite Er in H0.
    eapply synced_frame; [exact HI|exact H0|exact Hk|exact Nk| | |eapply HS; exact Hk]; cbn [PTouches]; intros (y & Hy & E); rewrite (planAt_fun _ _ _ _ Hy Hp) in E; intuition congruence.
  - destruct r as [m| |]; cbn [bind] in Er, H0; try discriminate. injection Er as <-. cbn [Reassigns] in R.
    intros k x Hx. assert (Hk : planAt s k x) by exact Hx.
    eapply synced_frame; [exact HI|exact H0|exact Hk|cbn; auto| | |eapply HS; exact Hk]; cbn [PTouches]; intros T; apply R; eexists; (split; [|exact T]); exists k, x; auto.
  - destruct ((bsize b =? 0) || _); [|discriminate]. injection Er as <-. exact HS.
Qed.

Lemma history_synced ops s i p : runAll (fun s o => ~ Reassigns s o) pstart ops s -> planAt s i p -> Synced s p.
Proof.
  intros H. assert (X : forall ops s0, PInv s0 -> AllSynced s0 -> runAll (fun s o => ~ Reassigns s o) s0 ops s -> AllSynced s).
  { clear. induction ops as [|o ops IH]; intros s0 HI HS H; inversion H as [|? s1 ? ? H1 C H2]; subst; [exact HS|].
    eapply IH; [eapply pstep_inv; eassumption|eapply synced_step; eassumption|exact H2]. }
  refine (fun Hp => X ops pstart PInv_start _ H i p Hp). intros k q Hq. destruct k; discriminate.
Qed.

(** The data of a plan stay allocated as long as the owners of the buffers are not touched. *)
Definition Backed (s : pstate) (k : nat) (a n : Z) : Prop :=
  exists b, alive (mem s) k b /\ owns b = true /\ bcont b <= a /\ a + n <= bcont b + blockSize 8 (bsize b) (bas b) /\ a = bdata b.
Definition BackedPlan (s : pstate) (i ki ko : nat) : Prop :=
  exists p n f, planAt s i p /\ dhandle p = Handle n /\ nth_error (fftws s) n = Some (Some f) /\
    Backed s ki (fwIn f) (fwInBytes f) /\ Backed s ko (fwOut f) (fwOutBytes f).

Lemma Backed_readable s k a n : PInv s -> Backed s k a n -> Readable s a n.
Proof.
  intros HI (b & Hb & Ho & H1 & H2 & _). destruct (inv_block _ _ (pi_mem _ HI) _ _ Hb Ho) as [L _]. exists (bcont b), (blockSize 8 (bsize b) (bas b)). auto.
Qed.

Lemma BackedPlan_transform s i ki ko : PInv s -> BackedPlan s i ki ko -> forall r, pstep s (PTransform i) r <-> r = Ok s.
Proof.
  intros HI (p & n & f & Hp & Eh & Ef & Bi & Bo) r. rewrite (transform_outcome s i p r Hp).
  assert (T : Transformable s p) by (exists n, f; repeat split; auto; eapply Backed_readable; eassumption). tauto.
Qed.

Lemma BackedPlan_step s o s' i ki ko : PInv s -> pstep s o (Ok s') -> ~ PAlters o i -> ~ PTouches s o ki -> ~ PTouches s o ko ->
  BackedPlan s i ki ko -> BackedPlan s' i ki ko.
Proof.
  intros HI H A Ti To (p & n & f & Hp & Eh & Ef & Bi & Bo). destruct (frame_plan s o s' i p HI H Hp A) as [Hp' F].
  exists p, n, f. split; [exact Hp'|]. split; [exact Eh|]. split; [apply F; assumption|].
  assert (X : forall k a m, ~ PTouches s o k -> Backed s k a m -> Backed s' k a m).
  { intros k a m T (b & Hb & R). exists b. split; [eapply frame_buffer; eassumption|exact R]. }
  split; apply X; assumption.
Qed.

(** Nothing was done to plan [i], nor to buffers [ki] and [ko]. *)

Lemma BackedPlan_run ops : forall s s' i ki ko, PInv s -> BackedPlan s i ki ko -> runAll (Untouched i ki ko) s ops s' -> BackedPlan s' i ki ko.
Proof.
  induction ops as [|o ops IH]; intros s s' i ki ko HI B H; inversion H as [|? s1 ? ? H1 (A & Ti & To) H2]; subst; [exact B|].
  eapply IH; [eapply pstep_inv; eassumption|eapply BackedPlan_step; eassumption|exact H2].
Qed.

Lemma inside_null s n : Inv 8 (mem s) -> inside (live (mem s)) 0 n = false.
Proof.
  intros HI. destruct (inside _ _ _) eqn:E; [|reflexivity]. apply inside_spec in E as (q & m & Hq & H). apply (inv_live _ _ HI) in Hq. lia.
Qed.

Lemma new_owner m n m' b : 0 <= n -> 8 * n + 63 < 2 ^ 64 -> step 8 m (ONew n 0 0) (Ok m') -> bufs m' = bufs m ++ [Some b] -> bdata b <> 0 ->
  bsize b = n /\ bas b = 64 /\ owns b = true /\ Fresh (live m) (8 * n + 63) (bcont b) /\ live m' = (bcont b, 8 * n + 63) :: live m /\
  bcont b <= bdata b /\ bdata b + 8 * n <= bcont b + blockSize 8 (bsize b) (bas b) /\ user m' = user m.
Proof.
  intros Hn Hb H E D. destruct (step_new_form _ _ _ _ H) as (c & Ec & S & U & X). rewrite E in Ec. apply app_inv_head in Ec. injection Ec as <-.
  destruct X as [(X & _)|(_ & A & M & Ed)]; [congruence|].
  assert (EB : blockSize 8 n 64 = 8 * n + 63) by (unfold blockSize; rewrite u64_small by lia; lia). rewrite EB in M.
  apply malloc_spec in M as [[Z _]|(N & L & F)]; [rewrite Ed, Z in D; exfalso; apply D; reflexivity|].
  assert (F' := F). destruct F' as (P & Q & _). rewrite A, S, EB.
  destruct (alignUp_spec (bcont b) 6 ltac:(lia) ltac:(lia) ltac:(lia)) as [_ AL]. change (2 ^ 6) with 64 in AL. rewrite <- Ed in AL.
  repeat split; auto; try (apply owns_spec; exact N); try (apply F); lia.
Qed.

Lemma newPlan_backed s t shape s' n : PInv s -> PlanShape shape -> newPlan s t shape 0 0 (Ok s') -> Holds s' (length (plans s)) n ->
  BackedPlan s' (length (plans s)) (length (bufs (mem s))) (S (length (bufs (mem s)))).
Proof.
  intros HI PS H (p & Hp & Eh). assert (HI' := newPlan_inv _ _ _ _ _ _ HI H). assert (IM' := pi_mem _ HI').
  destruct (newPlan_ok_form _ _ _ _ _ _ H) as (m1 & bi & bo & inS & outS & dims & h & Hi & Ho & Hd & H1 & H2 & Eb & Eb1 & Ep & EH).
  assert (Hp' := Hp). unfold planAt in Hp. rewrite Ep, nth_error_app2, Nat.sub_diag in Hp by lia. cbn [nth_error] in Hp. injection Hp as <-. cbn [dhandle] in Eh. subst h.
  destruct EH as [[EH _]|(EH & _ & Efs & I1 & I2)]; [discriminate|]. injection EH as ->.
  destruct (shape_extents t shape inS outS dims PS Hi Ho Hd) as (E1 & E2 & B1 & B2 & U1 & U2). destruct PS as [PS PB].
  assert (D1 : bdata bi <> 0) by (intros E; rewrite E, inside_null in I1 by exact IM'; discriminate).
  assert (D2 : bdata bo <> 0) by (intros E; rewrite E, inside_null in I2 by exact IM'; discriminate).
  assert (W : 1 <= inWidth t <= 2 /\ 1 <= outWidth t <= 2) by (destruct t; cbn; lia).
  assert (Eb2 : bufs (mem s') = bufs m1 ++ [Some bo]) by (rewrite Eb, Eb1, <- app_assoc; reflexivity).
  rewrite U1 in *. rewrite U2 in *.
  destruct (new_owner (mem s) (inWidth t * shapeSize inS) m1 bi ltac:(nia) ltac:(nia) H1 Eb1 D1) as (S1 & A1 & O1 & F1 & L1 & R1 & R1' & _).
  destruct (new_owner m1 (outWidth t * shapeSize outS) (mem s') bo ltac:(nia) ltac:(nia) H2 Eb2 D2) as (S2 & A2 & O2 & F2 & L2 & R2 & R2' & _).
  eexists. exists (length (fftws s)). eexists. split; [exact Hp'|]. split; [reflexivity|].
  split; [rewrite Efs, nth_error_app2, Nat.sub_diag by lia; reflexivity|]. cbn [fwIn fwInBytes fwOut fwOutBytes]. rewrite E1, E2.
  split.
  - exists bi. split; [unfold alive; rewrite Eb, nth_error_app2, Nat.sub_diag by lia; reflexivity|]. split; [exact O1|]. split; [exact R1|]. rewrite <- Z.mul_assoc. split; [exact R1'|reflexivity].
  - exists bo. split; [unfold alive; rewrite Eb, nth_error_app2 by lia; replace (S (length (bufs (mem s))) - length (bufs (mem s)))%nat with 1%nat by lia; reflexivity|].
    split; [exact O2|]. split; [exact R2|]. rewrite <- Z.mul_assoc. split; [exact R2'|reflexivity].
Qed.

Lemma plan_usable ops s t shape s1 n ops' s2 : prun pstart ops (Ok s) -> PlanShape shape -> pstep s (PNew t shape 0 0) (Ok s1) ->
  Holds s1 (length (plans s)) n ->
  runAll (fun s' o => ~ PAlters o (length (plans s)) /\ ~ PTouches s' o (length (bufs (mem s))) /\ ~ PTouches s' o (S (length (bufs (mem s))))) s1 ops' s2 ->
  forall r, pstep s2 (PTransform (length (plans s))) r <-> r = Ok s2.
Proof.
  intros H PS H1 Hh H2. assert (HI := history_inv _ _ H). assert (HI1 := pstep_inv _ _ _ HI H1).
  inversion H1 as [? ? ? ? ? HN| | | | | | | | |]; subst.
  assert (B := newPlan_backed s t shape s1 n HI PS HN Hh). assert (B2 := BackedPlan_run _ _ _ _ _ _ HI1 B H2).
  eapply BackedPlan_transform; [|exact B2]. eapply prun_inv; [exact HI1|]. eapply runAll_prun. exact H2.
Qed.

(** The same for the inverse plan: the buffers belong to the direct plan. *)
Lemma inverse_extents t dims : fftwIn (inverseTransform t) dims = fftwOut t dims /\ fftwOut (inverseTransform t) dims = fftwIn t dims /\
  inWidth (inverseTransform t) = outWidth t /\ outWidth (inverseTransform t) = inWidth t.
Proof. destruct t; repeat split. Qed.

Lemma plan_fftw ops s i p n f : prun pstart ops (Ok s) -> planAt s i p -> dhandle p = Handle n -> nth_error (fftws s) n = Some (Some f) ->
  exists dims, planDims (dtransform p) (dshape p) = Ok dims /\ fwInBytes f = 8 * inWidth (dtransform p) * fftwIn (dtransform p) dims /\
    fwOutBytes f = 8 * outWidth (dtransform p) * fftwOut (dtransform p) dims.
Proof.
  intros H. revert i p n f.
  assert (X : forall ops s0, PInv s0 -> (forall i p n f, planAt s0 i p -> dhandle p = Handle n -> nth_error (fftws s0) n = Some (Some f) ->
    exists dims, planDims (dtransform p) (dshape p) = Ok dims /\ fwInBytes f = 8 * inWidth (dtransform p) * fftwIn (dtransform p) dims /\
    fwOutBytes f = 8 * outWidth (dtransform p) * fftwOut (dtransform p) dims) -> prun s0 ops (Ok s) -> forall i p n f, planAt s i p -> dhandle p = Handle n -> nth_error (fftws s) n = Some (Some f) ->
    exists dims, planDims (dtransform p) (dshape p) = Ok dims /\ fwInBytes f = 8 * inWidth (dtransform p) * fftwIn (dtransform p) dims /\
    fwOutBytes f = 8 * outWidth (dtransform p) * fftwOut (dtransform p) dims).
  { clear. intros ops. induction ops as [|o ops IH]; intros s0 HI HP H; [inversion H; subst; exact HP|]. destruct (prun_cons _ _ _ _ H) as (s1 & H1 & H2).
    eapply IH; [eapply pstep_inv; eassumption| |exact H2]. clear IH H2 H. remember (Ok s1) as r0 eqn:Er.
    assert (NEW : forall t shape a b, newPlan s0 t shape a b (Ok s1) -> forall i p n f, planAt s1 i p -> dhandle p = Handle n -> nth_error (fftws s1) n = Some (Some f) ->
      exists dims, planDims (dtransform p) (dshape p) = Ok dims /\ fwInBytes f = 8 * inWidth (dtransform p) * fftwIn (dtransform p) dims /\
      fwOutBytes f = 8 * outWidth (dtransform p) * fftwOut (dtransform p) dims).
    { intros t shape a b X i p n f Hp Eh Ef. destruct (newPlan_ok_form _ _ _ _ _ _ X) as (m1 & ci & co & inS & outS & dims & h & _ & _ & Hd & _ & _ & _ & _ & Ep & EH).
      unfold planAt in Hp. rewrite Ep in Hp. apply nth_error_snoc in Hp as [Hp|[_ [= <-]]].
      - destruct (pi_live _ HI _ _ _ Hp Eh) as [f' L]. destruct (newPlan_handles _ _ _ _ _ _ X) as (_ & F & _). rewrite (F _ _ L) in Ef. injection Ef as <-. eapply HP; eassumption.
      - cbn [dhandle] in Eh. subst h. destruct EH as [[EH _]|(EH & _ & Efs & _)]; [discriminate|]. injection EH as ->.
        rewrite Efs, nth_error_app2, Nat.sub_diag in Ef by lia. cbn [nth_error] in Ef. injection Ef as <-. exists dims. repeat split. exact Hd. }
    destruct H1 as [t shape i o r H|i p bi bo r Hp Hbi Hbo H|i p bo t shape r Hp Hbo H|i p r Hp H|i p Hp|i j p q r N Hp Hq Ht H|i p Hp|i p r Hp H|o r Hn H|k b Hk].
    - subst r. eapply NEW; exact H.
    - subst r. eapply NEW; exact H.
    - subst r. eapply NEW; exact H.
    - destruct r as [m| |]; cbn [bind] in Er; try discriminate. injection Er as <-. intros k x n f Hx Eh Ef. cbn [fftws] in Ef.
      unfold planAt in Hx. cbn [plans] in Hx. apply nth_error_snoc in Hx as [Hx|[_ [= <-]]]; [|cbn [dhandle dtransform dshape] in *; eapply HP; eassumption].
      apply nth_error_replace_inv in Hx as [(_ & [= <-] & _)|[_ Hx]]; [discriminate|]. eapply HP; eassumption.
    - injection Er as <-. exact HP.
    - destruct r as [m| |]; cbn [bind] in Er; try discriminate. injection Er as <-. intros k x n f Hx Eh Ef. cbn [fftws] in Ef.
      unfold planAt in Hx. cbn [plans] in Hx. apply nth_error_replace_inv in Hx as [(_ & [= <-] & _)|[_ Hx]]; [discriminate|].
      apply nth_error_replace_inv in Hx as [(_ & [= <-] & _)|[_ Hx]]; [cbn [dhandle dtransform dshape] in *; rewrite Ht; eapply HP; eassumption|eapply HP; eassumption].
    - destruct (execute _ _ _); cbn [bind] in Er; try discriminate. injection Er as <-. exact HP.
    - destruct (destroyFftw (dhandle p) (fftws s0)) as [fs| |] eqn:Ed; cbn [bind] in Er; try discriminate. destruct r as [m| |]; cbn [bind] in Er; try discriminate.
      injection Er as <-. intros k x n f Hx Eh Ef. cbn [fftws] in Ef. apply planAt_replace in Hx as [(_ & X & _)|[Nk Hx]]; [discriminate|].
      eapply HP; [exact Hx|exact Eh|]. unfold destroyFftw in Ed. destruct (dhandle p) as [| |n']; [congruence..|]. destruct (nth_error (fftws s0) n') as [[f'|]|]; try discriminate.
      injection Ed as <-. apply nth_error_replace_inv in Ef as [(_ & X & _)|[_ Ef]]; [discriminate|exact Ef].
    - destruct r as [m| |]; cbn [bind] in Er; try discriminate. injection Er as <-. exact HP.
    - destruct ((bsize b =? 0) || _); [|discriminate]. injection Er as <-. exact HP. }
  apply (X ops pstart PInv_start); [|exact H]. intros i p n f Hp. destruct i; discriminate.
Qed.

Lemma inverse_backed ops s i p s' n : prun pstart ops (Ok s) -> planAt s i p -> BackedPlan s i (din p) (dout p) ->
  pstep s (PInverse i) (Ok s') -> Holds s' (length (plans s)) n -> BackedPlan s' (length (plans s)) (dout p) (din p).
Proof.
  intros Hr Hp (p' & n0 & f & Hp' & Eh & Ef & (bi & Hbi & Oi & Li & Ui & Di) & (bo & Hbo & Oo & Lo & Uo & Do)) H Hh.
  rewrite (planAt_fun _ _ _ _ Hp' Hp) in *. clear Hp' p'. destruct (plan_fftw _ _ _ _ _ _ Hr Hp Eh Ef) as (dims & Hd & Ni & No).
  inversion H as [|? q ci co r Hq Hci Hco HN| | | | | | | |]; subst. rewrite (planAt_fun _ _ _ _ Hq Hp) in *. clear Hq q.
  rewrite (alive_fun _ _ _ _ Hci Hbi) in *. rewrite (alive_fun _ _ _ _ Hco Hbo) in *. clear ci co Hci Hco.
  assert (FR : forall k b, alive (mem s) k b -> alive (mem s') k b) by (intros k b; apply (newPlan_frame _ _ _ _ _ _ _ _ HN)).
  assert (IM := pi_mem _ (history_inv _ _ Hr)).
  assert (PO : forall k b, alive (mem s) k b -> owns b = true -> bcont b <= bdata b -> bdata b <> 0).
  { intros k b Hb Ob Lb. destruct (inv_block _ _ IM _ _ Hb Ob) as [X _]. apply (inv_live _ _ IM) in X. lia. }
  destruct (newPlan_ok_form _ _ _ _ _ _ HN) as (m1 & ci & co & inS & outS & dims' & h & Hi & Ho & Hd' & H1 & H2 & Eb & Eb1 & Ep & EH).
  assert (X : dims' = dims) by (destruct (inverse_shapes (dtransform p) (dshape p)) as (_ & _ & E & _); congruence). subst dims'.
  destruct Hh as (q & Hq & En). assert (Hq' := Hq). unfold planAt in Hq. rewrite Ep, nth_error_app2, Nat.sub_diag in Hq by lia. cbn [nth_error] in Hq. injection Hq as <-.
  cbn [dhandle] in En. subst h. destruct EH as [[EH _]|(EH & _ & Efs & _)]; [discriminate|]. injection EH as ->.
  destruct (step_new_form _ _ _ _ H1) as (d1 & E1 & _ & _ & S1). rewrite Eb1 in E1. apply app_inv_head in E1. injection E1 as <-.
  destruct (step_new_form _ _ _ _ H2) as (d2 & E2 & _ & _ & S2). rewrite Eb, Eb1, <- app_assoc in E2. cbn [app] in E2. apply app_inv_head in E2. injection E2 as <-.
  assert (C1 : bdata ci = bdata bo). { destruct S1 as [(_ & _ & E & _)|(E & _)]; [exact E|]. exfalso. rewrite Do in Lo. exact (PO _ _ Hbo Oo Lo E). }
  assert (C2 : bdata co = bdata bi). { destruct S2 as [(_ & _ & E & _)|(E & _)]; [exact E|]. exfalso. rewrite Di in Li. exact (PO _ _ Hbi Oi Li E). }
  destruct (inverse_extents (dtransform p) dims) as (X1 & X2 & X3 & X4).
  eexists. exists (length (fftws s)). eexists. split; [exact Hq'|]. split; [reflexivity|].
  split; [rewrite Efs, nth_error_app2, Nat.sub_diag by lia; reflexivity|]. cbn [fwIn fwInBytes fwOut fwOutBytes]. rewrite X1, X2, X3, X4, C1, C2, <- Ni, <- No.
  split; [exists bo; rewrite <- Do|exists bi; rewrite <- Di]; repeat split; auto.
Qed.

Lemma runAll_impl (P Q : pstate -> pop -> Prop) ops s s' : (forall s o, P s o -> Q s o) -> runAll P s ops s' -> runAll Q s ops s'.
Proof. intros H R. induction R as [|z o z' zs z'' X Y R IH]; [constructor|]. eapply runAll_cons; [exact X|apply H; exact Y|exact IH]. Qed.

Lemma inverse_usable ops s t shape s1 n ops1 s2 s3 n' ops2 s4 : prun pstart ops (Ok s) -> PlanShape shape -> pstep s (PNew t shape 0 0) (Ok s1) ->
  Holds s1 (length (plans s)) n ->
  runAll (Untouched (length (plans s)) (length (bufs (mem s))) (S (length (bufs (mem s))))) s1 ops1 s2 ->
  pstep s2 (PInverse (length (plans s))) (Ok s3) -> Holds s3 (length (plans s2)) n' ->
  runAll (Untouched (length (plans s2)) (length (bufs (mem s))) (S (length (bufs (mem s))))) s3 ops2 s4 ->
  forall r, pstep s4 (PTransform (length (plans s2))) r <-> r = Ok s4.
Proof.
  intros H PS H1 Hh R1 H3 Hh' R2. assert (HI := history_inv _ _ H). assert (HI1 := pstep_inv _ _ _ HI H1).
  assert (Hp2 : prun pstart (ops ++ PNew t shape 0 0 :: ops1) (Ok s2)).
  { clear - H H1 R1. revert H. generalize pstart. induction ops as [|o ops IH]; intros s0 H; cbn [app].
    - inversion H; subst. eapply prun_ok; [exact H1|]. eapply runAll_prun. exact R1.
    - destruct (prun_cons _ _ _ _ H) as (s' & X & Y). eapply prun_ok; [exact X|]. apply IH. exact Y. }
  inversion H1 as [? ? ? ? ? HN| | | | | | | | |]; subst. assert (B := newPlan_backed s t shape s1 n HI PS HN Hh).
  assert (B2 := BackedPlan_run _ _ _ _ _ _ HI1 B R1).
  destruct (newPlan_ok_form _ _ _ _ _ _ HN) as (m1 & ci & co & inS & outS & dims & h & _ & _ & _ & _ & _ & _ & _ & Ep & _).
  assert (P1 : planAt s1 (length (plans s)) (mkDplan t shape (length (bufs (mem s))) (S (length (bufs (mem s)))) h)).
  { unfold planAt. rewrite Ep, nth_error_app2, Nat.sub_diag by lia. reflexivity. }
  assert (P2 : planAt s2 (length (plans s)) (mkDplan t shape (length (bufs (mem s))) (S (length (bufs (mem s)))) h)).
  { clear - HI1 P1 R1. revert HI1 P1. induction R1 as [|z o z' zs z'' X (A & _) R IH]; intros HI P; [exact P|]. apply IH; [eapply pstep_inv; eassumption|].
    eapply frame_plan; eassumption. }
  assert (HI2 := history_inv _ _ Hp2). assert (B3 := inverse_backed _ s2 _ _ s3 n' Hp2 P2 B2 H3 Hh'). cbn [din dout] in B3.
  assert (HI3 := pstep_inv _ _ _ HI2 H3).
  assert (B4 : BackedPlan s4 (length (plans s2)) (S (length (bufs (mem s)))) (length (bufs (mem s)))).
  { eapply BackedPlan_run; [exact HI3|exact B3|]. eapply runAll_impl; [|exact R2]. intros z o (Q1 & Q2 & Q3). repeat split; assumption. }
  eapply BackedPlan_transform; [|exact B4]. eapply prun_inv; [exact HI3|]. eapply runAll_prun. exact R2.
Qed.

(** Histories of plans are histories of buffers. *)
Lemma run_app elt ops1 ops2 : forall m m1 r, run elt m ops1 (Ok m1) -> run elt m1 ops2 r -> run elt m (ops1 ++ ops2) r.
Proof.
  induction ops1 as [|o ops1 IH]; intros m m1 r H1 H2; cbn [app]; [inversion H1; subst; exact H2|].
  inversion H1 as [|? m2 ? ? X Y|? ? ? X Y]; subst; [|destruct (Y m1 eq_refl)]. eapply run_ok; [exact X|]. eapply IH; eassumption.
Qed.

Lemma pstep_memory s o s' : pstep s o (Ok s') -> exists mops, run 8 (mem s) mops (Ok (mem s')).
Proof.
  intros H. remember (Ok s') as r0 eqn:Er.
  assert (NEW : forall t shape a b, newPlan s t shape a b (Ok s') -> exists mops, run 8 (mem s) mops (Ok (mem s'))).
  { intros t shape a b X. destruct (newPlan_ok_form _ _ _ _ _ _ X) as (m1 & ci & co & inS & outS & dims & h & _ & _ & _ & H1 & H2 & _). eexists. eapply run2_intro; eassumption. }
  destruct H as [t shape i o r H|i p bi bo r Hp Hbi Hbo H|i p bo t shape r Hp Hbo H|i p r Hp H|i p Hp|i j p q r N Hp Hq Ht H|i p Hp|i p r Hp H|o r Hn H|k b Hk].
  - subst r. eapply NEW; exact H.
  - subst r. eapply NEW; exact H.
  - subst r. eapply NEW; exact H.
  - destruct r as [m| |]; cbn [bind] in Er; try discriminate. injection Er as <-. eexists. exact H.
  - injection Er as <-. exists []. constructor.
  - destruct r as [m| |]; cbn [bind] in Er; try discriminate. injection Er as <-. eexists. exact H.
  - destruct (execute _ _ _); cbn [bind] in Er; try discriminate. injection Er as <-. exists []. constructor.
  - destruct (destroyFftw (dhandle p) (fftws s)) as [fs| |]; cbn [bind] in Er; try discriminate. destruct r as [m| |]; cbn [bind] in Er; try discriminate.
    injection Er as <-. eexists. exact H.
  - destruct r as [m| |]; cbn [bind] in Er; try discriminate. injection Er as <-. exists [o]. eapply run_ok; [exact H|constructor].
  - destruct ((bsize b =? 0) || _); [|discriminate]. injection Er as <-. exists []. constructor.
Qed.

Lemma prun_memory ops : forall s s', prun s ops (Ok s') -> exists mops, run 8 (mem s) mops (Ok (mem s')).
Proof.
  induction ops as [|o ops IH]; intros s s' H; [inversion H; subst; exists []; constructor|]. destruct (prun_cons _ _ _ _ H) as (s1 & H1 & H2).
  destruct (pstep_memory _ _ _ H1) as [l1 R1]. destruct (IH _ _ H2) as [l2 R2]. exists (l1 ++ l2). eapply run_app; eassumption.
Qed.

Lemma history_memory ops s : prun pstart ops (Ok s) ->
  (exists mops, run 8 start mops (Ok (mem s))) /\
  (forall i p q, Owns (mem s) i p -> Allocated (mem s) p /\ ~ In p (user (mem s)) /\ (Owns (mem s) q p -> i = q)).
Proof.
  intros H. destruct (prun_memory _ _ _ H) as [l R]. cbn [mem pstart] in R. split; [exists l; exact R|].
  destruct (no_double_free _ _ _ R) as (m & [= <-] & A & B & _). intros i p q O. destruct (A i p O). repeat split; auto. intros O'. eapply B; eassumption.
Qed.

(** Blocks leaked by plans. *)
Lemma Owns_other m m' i j p : (forall b, alive m j b -> alive m' j b) -> Owns m j p -> i <> j -> Owns m' j p.
Proof. intros H (b & Hb & O) _. exists b. split; [apply H; exact Hb|exact O]. Qed.

Lemma pstep_mem_tidy s o s' : PInv s -> Tidy (mem s) -> pstep s o (Ok s') -> ~ PCareless s o -> Tidy (mem s').
Proof.
  intros HI HT H C. assert (IM := pi_mem _ HI). remember (Ok s') as r0 eqn:Er.
  assert (TWO : forall o1 o2 m, run 8 (mem s) [o1; o2] (Ok m) -> ~ Careless (mem s) o1 -> (forall m1, step 8 (mem s) o1 (Ok m1) -> ~ Careless m1 o2) -> Tidy m).
  { intros o1 o2 m X C1 C2. destruct (run2_ok _ _ _ _ _ X) as (m1 & H1 & H2). destruct (step_inv _ _ _ _ IM H1) as (? & [= <-] & I1).
    eapply step_tidy; [exact I1| |exact H2|apply C2; exact H1]. eapply step_tidy; [exact IM|exact HT|exact H1|exact C1]. }
  assert (NEW : forall t shape a b, newPlan s t shape a b (Ok s') -> Tidy (mem s')).
  { intros t shape a b X. destruct (newPlan_ok_form _ _ _ _ _ _ X) as (m1 & ci & co & inS & outS & dims & h & _ & _ & _ & H1 & H2 & _).
    eapply TWO; [eapply run2_intro; eassumption|cbn; auto|cbn; auto]. }
  destruct H as [t shape i o r H|i p bi bo r Hp Hbi Hbo H|i p bo t shape r Hp Hbo H|i p r Hp H|i p Hp|i j p q r N Hp Hq Ht H|i p Hp|i p r Hp H|o r Hn H|k b Hk]; cbn [PCareless] in C.
  - subst r. eapply NEW; exact H.
  - subst r. eapply NEW; exact H.
  - subst r. eapply NEW; exact H.
  - destruct r as [m| |]; cbn [bind] in Er; try discriminate. injection Er as <-. cbn [mem]. eapply TWO; [exact H|cbn; intros [q O]; apply C; exists p, q; auto|].
    intros m1 H1 [q (b & Hb & O)]. apply C. exists p, q. split; [exact Hp|right]. destruct (pi_out _ HI _ _ Hp) as [b' Hb'].
    assert (alive m1 (dout p) b').
    { eapply step_frame; [exact H1|exact Hb'|]. cbn. intros [E|E]; [apply (pi_self _ HI _ _ Hp); auto|]. apply alive_lt in Hb'. lia. }
    exists b'. rewrite (alive_fun _ _ _ _ Hb H0) in O. split; assumption.
  - injection Er as <-. exact HT.
  - destruct r as [m| |]; cbn [bind] in Er; try discriminate. injection Er as <-. cbn [mem].
    destruct (pi_sep _ HI _ _ _ _ Hp Hq N) as (M1 & M2 & M3 & M4). eapply TWO; [exact H|cbn; intros (_ & x & O); apply C; split; [exact N|]; exists p, x; auto|].
    intros m1 H1 (_ & x & (b & Hb & O)). apply C. split; [exact N|]. exists p, x. split; [exact Hp|right]. destruct (pi_out _ HI _ _ Hp) as [b' Hb'].
    assert (alive m1 (dout p) b').
    { eapply step_frame; [exact H1|exact Hb'|]. cbn. intros [E|E]; [apply (pi_self _ HI _ _ Hp); auto|]. congruence. }
    exists b'. rewrite (alive_fun _ _ _ _ Hb H0) in O. split; assumption.
  - destruct (execute _ _ _); cbn [bind] in Er; try discriminate. injection Er as <-. exact HT.
  - destruct (destroyFftw (dhandle p) (fftws s)) as [fs| |]; cbn [bind] in Er; try discriminate. destruct r as [m| |]; cbn [bind] in Er; try discriminate.
    injection Er as <-. cbn [mem]. eapply TWO; [exact H|cbn; auto|cbn; auto].
  - destruct r as [m| |]; cbn [bind] in Er; try discriminate. injection Er as <-. cbn [mem]. eapply step_tidy; eassumption.
  - destruct ((bsize b =? 0) || _); [|discriminate]. injection Er as <-. exact HT.
Qed.

Lemma pcareless_leaks s o s' : PInv s -> pstep s o (Ok s') -> PCareless s o -> exists q, Leaked (mem s') q.
Proof.
  intros HI H C. assert (IM := pi_mem _ HI). remember (Ok s') as r0 eqn:Er.
  assert (TWO : forall o1 o2 m, run 8 (mem s) [o1; o2] (Ok m) -> (Careless (mem s) o1 \/ forall m1, step 8 (mem s) o1 (Ok m1) -> Careless m1 o2) -> exists q, Leaked m q).
  { intros o1 o2 m X Y. destruct (run2_ok _ _ _ _ _ X) as (m1 & H1 & H2). destruct (step_inv _ _ _ _ IM H1) as (? & [= <-] & I1). destruct Y as [Y|Y].
    - destruct (careless_leaks _ _ _ _ IM H1 Y) as [q L]. exists q. eapply leaked_forever; [exact I1|exact H2|exact L].
    - eapply careless_leaks; [exact I1|exact H2|apply Y; exact H1]. }
  destruct H as [t shape i o r H|i p bi bo r Hp Hbi Hbo H|i p bo t shape r Hp Hbo H|i p r Hp H|i p Hp|i j p q r N Hp Hq Ht H|i p Hp|i p r Hp H|o r Hn H|k b Hk]; cbn [PCareless] in C; try contradiction.
  - destruct r as [m| |]; cbn [bind] in Er; try discriminate. injection Er as <-. cbn [mem]. destruct C as (p' & x & Hp' & O). rewrite (planAt_fun _ _ _ _ Hp' Hp) in O.
    eapply TWO; [exact H|]. destruct O as [O|O]; [left; exists x; exact O|right]. intros m1 H1. exists x. destruct O as (b' & Hb' & O). exists b'. split; [|exact O].
    eapply step_frame; [exact H1|exact Hb'|]. cbn. intros [E|E]; [apply (pi_self _ HI _ _ Hp); auto|]. apply alive_lt in Hb'. lia.
  - destruct C as [C _]. congruence.
  - destruct r as [m| |]; cbn [bind] in Er; try discriminate. injection Er as <-. cbn [mem]. destruct C as (_ & p' & x & Hp' & O). rewrite (planAt_fun _ _ _ _ Hp' Hp) in O.
    destruct (pi_sep _ HI _ _ _ _ Hp Hq N) as (M1 & M2 & M3 & M4).
    eapply TWO; [exact H|]. destruct O as [O|O]; [left; split; [exact M1|exists x; exact O]|right]. intros m1 H1. split; [exact M4|]. exists x. destruct O as (b' & Hb' & O). exists b'. split; [|exact O].
    eapply step_frame; [exact H1|exact Hb'|]. cbn. intros [E|E]; [apply (pi_self _ HI _ _ Hp); auto|]. congruence.
  - destruct r as [m| |]; cbn [bind] in Er; try discriminate. injection Er as <-. cbn [mem]. eapply careless_leaks; eassumption.
Qed.

Lemma prun_leaked ops s s' q : PInv s -> prun s ops (Ok s') -> Leaked (mem s) q -> Leaked (mem s') q.
Proof. intros HI H L. destruct (prun_memory _ _ _ H) as [l R]. eapply run_leaked; [apply (pi_mem _ HI)|exact R|exact L]. Qed.

Lemma PCareless_dec s o : PCareless s o \/ ~ PCareless s o.
Proof.
  assert (P : forall i, (exists p q, planAt s i p /\ (Owns (mem s) (din p) q \/ Owns (mem s) (dout p) q)) \/
    ~ exists p q, planAt s i p /\ (Owns (mem s) (din p) q \/ Owns (mem s) (dout p) q)).
  { intros i. destruct (nth_error (plans s) i) as [[p|]|] eqn:E; [|right; intros (p & q & Hp & _); unfold planAt in Hp; congruence..].
    destruct (Owns_dec (mem s) (din p)) as [[q O]|N1]; [left; exists p, q; auto|]. destruct (Owns_dec (mem s) (dout p)) as [[q O]|N2]; [left; exists p, q; auto|].
    right. intros (p' & q & Hp & O). assert (p' = p) by (unfold planAt in Hp; congruence). subst p'. destruct O; eauto. }
  destruct o as [| | |i|i j| | |o|]; cbn [PCareless]; auto; [|apply Careless_dec].
  destruct (Nat.eq_dec i j) as [E|E]; [right; tauto|]. destruct (P i); [left|right]; tauto.
Qed.

Lemma memory_leak_iff ops s : prun pstart ops (Ok s) -> (exists q, Leaked (mem s) q) <-> runSome PCareless pstart ops s.
Proof.
  intros H. split.
  - intros (q & [n A] & U & O).
    assert (X : forall ops s0, PInv s0 -> Tidy (mem s0) -> prun s0 ops (Ok s) -> runSome PCareless s0 ops s \/ Tidy (mem s)).
    { clear. induction ops as [|o ops IH]; intros s0 HI HT H; [inversion H; subst; auto|]. destruct (prun_cons _ _ _ _ H) as (s1 & H1 & H2).
      destruct (PCareless_dec s0 o) as [C|C]; [left; eapply runSome_here; eassumption|].
      destruct (IH s1 (pstep_inv _ _ _ HI H1) (pstep_mem_tidy _ _ _ HI HT H1 C) H2); [left; eapply runSome_later; eassumption|auto]. }
    destruct (X ops pstart PInv_start) as [Y|Y]; [intros p m []|exact H|exact Y|]. destruct (Y q n A) as [Z|[i Z]]; [contradiction|destruct (O i Z)].
  - assert (X : forall ops s0, PInv s0 -> runSome PCareless s0 ops s -> exists q, Leaked (mem s) q).
    { clear. induction ops as [|o ops IH]; intros s0 HI H; inversion H as [? s1 ? ? H1 C H2|? s1 ? ? H1 H2]; subst.
      - destruct (pcareless_leaks _ _ _ HI H1 C) as [q L]. exists q. eapply prun_leaked; [eapply pstep_inv; eassumption|exact H2|exact L].
      - eapply IH; [eapply pstep_inv; eassumption|exact H2]. }
    apply X, PInv_start.
Qed.
