From Verif Require Import Res Lemmas AlignedModel AlignedSpec AlignedStepSpec AlignedProofs.

Definition Req (s : state) : Prop := forall i b, alive s i b -> bas b <> 0 /\ bas b <> 2 ^ 64 - 1.

Lemma alignAs_req data align : alignAs data align <> 0 /\ alignAs data align <> 2 ^ 64 - 1.
Proof.
  unfold alignAs. destruct (Z.eqb_spec align (2 ^ 64 - 1)); [split; discriminate|].
  destruct (Z.eqb_spec align 0); [|split; assumption]. destruct (data =? 0); split; discriminate.
Qed.

Lemma alignAs_same data align : align <> 0 -> align <> 2 ^ 64 - 1 -> alignAs data align = align.
Proof. intros A B. unfold alignAs. apply Z.eqb_neq in A, B. now rewrite A, B. Qed.

Lemma construct_cases elt l size data align r : construct elt l size data align r ->
  (data <> 0 /\ align <> 0 /\ (exists e, r = Throw e) /\ ~ (alignAs data align | data)) \/
  exists b l', r = Ok (b, l') /\ bsize b = size /\ bas b = alignAs data align /\ (data <> 0 -> bdata b = data /\ owns b = false) /\
    (data = 0 -> bcont b = 0 \/ (owns b = true /\ forall n, ~ In (bcont b, n) l)).
Proof.
  intros H. inversion H; subst.
  - destruct (alignAs_req data align) as [N _]. unfold isAligned. rewrite (proj2 (Z.eqb_neq _ _) H0).
    destruct (Z.eqb_spec (alignAs data align) 1) as [E|E]; [right; eexists _, _; cbn [bind]; split; [reflexivity|]; cbn; tauto|].
    rewrite (proj2 (Z.eqb_neq _ _) N). cbn [bind].
    destruct (Z.eqb_spec (data mod alignAs data align) 0) as [M|M]; [right; eexists _, _; split; [reflexivity|]; cbn; tauto|].
    left. split; [exact H0|]. split; [|split; [eauto|]].
    + intros ->. unfold alignAs in E. cbn in E. rewrite (proj2 (Z.eqb_neq _ _) H0) in E. auto.
    + intros Dv. apply Z.mod_divide in Dv; auto.
  - right. eexists _, _. split; [reflexivity|]. cbn [bsize bas bdata bcont]. split; [reflexivity|]. split; [reflexivity|].
    split; [congruence|]. intros _. apply malloc_spec in H1 as [[-> ->]|(N & -> & F)]; auto. right. split; [now apply owns_spec|].
    intros n. apply (Fresh_not_in _ _ _ _ F).
Qed.

Lemma alive_replace_eq l bs i ob x u : nth_error bs i = Some x -> nth_error (bufs (mkState l (replace bs i ob) u)) i = Some ob.
Proof. intros H. cbn [bufs]. apply nth_error_replace_eq. apply nth_error_Some. congruence. Qed.

Lemma step_req elt s o s' : Req s -> step elt s o (Ok s') -> Req s'.
Proof.
  intros R H. remember (Ok s') as r0 eqn:Er. destruct H as [size data align r K|i b r A K|i b A|i b A|i j b c p l' N A B Ow M|i j b c N A B Ow|i b A|i j b c N A B|i b A|i b A|i b A|p U]; try (match type of Er with Ok _ = Ok _ => injection Er as <- end).
  - destruct (construct_cases _ _ _ _ _ _ K) as [(_ & _ & (e & ->) & _)|(b & l' & -> & _ & E & _)]; injection Er as <-; [exact R|].
    intros i c Hc. apply nth_error_snoc in Hc as [Hc|[_ [= ->]]]; [eapply R; eauto|]. rewrite E. apply alignAs_req.
  - destruct (construct_cases _ _ _ _ _ _ K) as [(_ & _ & (e & ->) & _)|(b' & l' & -> & _ & E & _)]; injection Er as <-; [exact R|].
    intros k c Hc. apply nth_error_snoc in Hc as [Hc|[_ [= ->]]]; [eapply R; eauto|]. rewrite E. apply alignAs_req.
  - rewrite resetBuf_shared in Er by reflexivity. cbn [bind fst snd] in Er. injection Er as <-.
    intros k c Hc. apply nth_error_snoc in Hc as [Hc|[_ [= E]]]; [|subst c; cbn [bas]; eapply R; eauto].
    apply nth_error_replace_inv in Hc as [(_ & [= <-] & _)|[_ Hc]]; [split; discriminate|eapply R; eauto].
  - exact R.
  - intros k d Hd. apply nth_error_replace_inv in Hd as [(_ & [= <-] & _)|[_ Hd]]; cbn [bas]; eapply R; eauto.
  - intros k d Hd. apply nth_error_replace_inv in Hd as [(_ & [= <-] & _)|[_ Hd]]; cbn [bas]; eapply R; eauto.
  - exact R.
  - rewrite resetBuf_shared in Er by reflexivity. cbn [bind fst snd] in Er. injection Er as <-.
    intros k d Hd. apply nth_error_replace_inv in Hd as [(_ & [= <-] & _)|[_ Hd]]; [split; discriminate|].
    apply nth_error_replace_inv in Hd as [(_ & [= <-] & _)|[_ Hd]]; eapply R; eauto.
  - intros k d Hd. apply nth_error_replace_inv in Hd as [(_ & [= <-] & _)|[_ Hd]]; cbn [bas releaseBuf snd]; eapply R; eauto.
  - unfold resetBuf in Er. destruct (if owns b then _ else _); cbn [bind fst snd] in Er; try discriminate. injection Er as <-.
    intros k d Hd. apply nth_error_replace_inv in Hd as [(_ & [= <-] & _)|[_ Hd]]; [split; discriminate|eapply R; eauto].
  - unfold resetBuf in Er. destruct (if owns b then _ else _); cbn [bind fst snd] in Er; try discriminate. injection Er as <-.
    intros k d Hd. apply nth_error_replace_inv in Hd as [(_ & [=] & _)|[_ Hd]]; eapply R; eauto.
  - destruct (free _ _); cbn [bind] in Er; try discriminate. injection Er as <-. exact R.
Qed.

Lemma run_req elt ops : forall s s', Inv elt s -> Req s -> run elt s ops (Ok s') -> Req s'.
Proof.
  induction ops as [|o ops IH]; intros s s' HI R H; inversion H; subst; [exact R| |].
  - destruct (step_inv _ _ _ _ HI H2) as (s1 & [= <-] & HI1). eapply IH; [exact HI1| |eassumption]. eapply step_req; eauto.
  - destruct (H4 s' eq_refl).
Qed.

Lemma freed l p l' : free l p = Ok l' -> forall n, ~ In (p, n) l'.
Proof. intros E n H. apply (free_spec _ _ _ E) in H as [_ H]. auto. Qed.

Lemma operations elt ops s o s' : run elt start ops (Ok s) -> step elt s o (Ok s') -> Outcome s o s'.
Proof.
  intros Hr H. destruct (run_inv _ _ _ _ (Inv_start elt) Hr) as (s0 & [= <-] & HI).
  assert (R : Req s) by (eapply run_req; [apply Inv_start| |exact Hr]; intros [|i] b Hb; discriminate).
  assert (L : forall bs (b : option buffer) , nth_error (bs ++ [b]) (length bs) = Some b) by (intros; rewrite nth_error_app2, Nat.sub_diag; auto).
  remember (Ok s') as r0 eqn:Er. destruct H as [size data align r K|i b r A K|i b A|i b A|i j b c p l' N A B Ow M|i j b c N A B Ow|i b A|i j b c N A B|i b A|i b A|i b A|p U]; try (match type of Er with Ok _ = Ok _ => injection Er as <- end); cbn [Outcome].
  - destruct (construct_cases _ _ _ _ _ _ K) as [(Hd & Ha & (e & ->) & _)|(b & l' & -> & Es & E & Sh & Ow')]; injection Er as <-; [left; auto|right].
    exists b. split; [apply L|]. split; [exact Es|]. split; [exact Sh|]. intros Z0. destruct (Ow' Z0) as [?|[? N']]; auto. right. split; auto.
    intros [n Hn]. exact (N' n Hn).
  - intros c Hc. rewrite (alive_fun _ _ _ _ Hc A) in *. destruct (R _ _ A) as [R1 R2].
    destruct (construct_cases _ _ _ _ _ _ K) as [(Hd & Ha & (e & ->) & Nd)|(b' & l' & -> & Es & E & Sh & Ow')]; injection Er as <-.
    + left. split; [reflexivity|]. destruct (owns b); [congruence|]. rewrite alignAs_same in Nd by assumption. auto.
    + right. exists b'. split; [apply L|]. rewrite alignAs_same in E by assumption. split; [exact Es|]. split; [exact E|]. split.
      * intros Fo Hn. rewrite Fo in Sh. apply Sh, Hn.
      * intros To. rewrite To in Ow'. destruct (Ow' eq_refl) as [?|[? N]]; auto. right. split; auto. intros [n Hn]. exact (N n Hn).
  - rewrite resetBuf_shared in Er by reflexivity. cbn [bind fst snd] in Er. injection Er as <-.
    intros c Hc. rewrite (alive_fun _ _ _ _ Hc A) in *. split.
    + apply nth_error_snoc_l. apply nth_error_replace_eq. eapply alive_lt; eauto.
    + eexists. split; [unfold alive; cbn [bufs]; rewrite <- (replace_length (bufs s) i (Some (mkBuffer 0 1 0 0))); apply L|]. cbn. auto.
  - congruence.
  - intros _ c' Hc. rewrite (alive_fun _ _ _ _ Hc B) in *. eexists. split; [apply nth_error_replace_eq; eapply alive_lt; eauto|].
    split; [reflexivity|]. split; [reflexivity|]. split; [congruence|]. intros _. cbn [bcont].
    apply malloc_spec in M as [[-> ->]|(N0 & -> & F)]; auto. right. split; [now apply owns_spec|]. intros [n Hn]. eapply Fresh_not_in; eauto.
  - intros _ c' Hc. rewrite (alive_fun _ _ _ _ Hc B) in *. eexists. split; [apply nth_error_replace_eq; eapply alive_lt; eauto|].
    split; [reflexivity|]. split; [reflexivity|]. split; [|congruence]. intros Hn _. cbn [bdata]. split; [reflexivity|]. exact Hn.
  - congruence.
  - rewrite resetBuf_shared in Er by reflexivity. cbn [bind fst snd] in Er. injection Er as <-.
    intros _ c' Hc. rewrite (alive_fun _ _ _ _ Hc B) in *. unfold alive. cbn [bufs]. split.
    + rewrite nth_error_replace_neq by auto. apply nth_error_replace_eq. eapply alive_lt; eauto.
    + apply nth_error_replace_eq. rewrite replace_length. eapply alive_lt; eauto.
  - intros c Hc. rewrite (alive_fun _ _ _ _ Hc A) in *. split; [|split; [reflexivity|]].
    + eexists. split; [apply nth_error_replace_eq; eapply alive_lt; eauto|]. cbn. auto.
    + intros Ho. rewrite Ho. left. reflexivity.
  - intros c Hc. rewrite (alive_fun _ _ _ _ Hc A) in *. unfold resetBuf in Er. destruct (owns b) eqn:Ho.
    + destruct (free _ _) as [l'| |] eqn:Hf; cbn [bind fst snd] in Er; try discriminate. injection Er as <-.
      split; [apply nth_error_replace_eq; eapply alive_lt; eauto|]. intros _ [n Hn]. exact (freed _ _ _ Hf n Hn).
    + cbn [bind fst snd] in Er. injection Er as <-. split; [apply nth_error_replace_eq; eapply alive_lt; eauto|]. congruence.
  - intros c Hc. rewrite (alive_fun _ _ _ _ Hc A) in *. unfold resetBuf in Er. destruct (owns b) eqn:Ho.
    + destruct (free _ _) as [l'| |] eqn:Hf; cbn [bind fst snd] in Er; try discriminate. injection Er as <-.
      split; [|intros _ [n Hn]; exact (freed _ _ _ Hf n Hn)]. intros d Hd. unfold alive in Hd. cbn [bufs] in Hd.
      rewrite nth_error_replace_eq in Hd by (eapply alive_lt; eauto). discriminate.
    + cbn [bind fst snd] in Er. injection Er as <-. split; [|congruence]. intros d Hd. unfold alive in Hd. cbn [bufs] in Hd.
      rewrite nth_error_replace_eq in Hd by (eapply alive_lt; eauto). discriminate.
  - destruct (free _ _) as [l'| |] eqn:Hf; cbn [bind] in Er; try discriminate. injection Er as <-.
    split; [intros [n Hn]; exact (freed _ _ _ Hf n Hn)|]. split; [apply remove_In|reflexivity].
Qed.
