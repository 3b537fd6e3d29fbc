(** Proofs about the histories of iterators. *)
From Coq Require Import QArith.
From Verif Require Import Res VecModel BoxModel RasterModel BallModel LoopModel SubrasterModel IterModel IterSpec.
From Verif Require Import BoxSpec Lemmas AlignedProofs BoxGeomProofs.
Open Scope Z_scope.

Section Histories.
Variables (P n : Z) (shape : list Z) (fuel : nat).
Notation istep := (istep P n shape fuel).
Notation iexec := (iexec P n shape fuel).
Notation nextIter := (nextIter P n shape fuel).

Lemma at_create s o i x : object_at s i = Some x -> object_at (create s o) i = Some x.
Proof.
  unfold object_at, create. intros H. destruct (nth_error s i) as [y|] eqn:E; [|discriminate].
  rewrite (nth_error_snoc_l _ _ _ _ E). exact H.
Qed.
Lemma at_new s o : object_at (create s o) (length s) = Some o.
Proof. unfold object_at, create. rewrite nth_error_app2, Nat.sub_diag; auto. Qed.
Lemma at_lt s i x : object_at s i = Some x -> (i < length s)%nat.
Proof. unfold object_at. intros H. apply nth_error_Some. now destruct (nth_error s i). Qed.
Lemma at_replace_eq s i o x : object_at s i = Some x -> object_at (replace s i o) i = o.
Proof. intros H. apply at_lt in H. unfold object_at. rewrite nth_error_replace_eq by lia. now destruct o. Qed.
Lemma at_replace_neq s i o k : k <> i -> object_at (replace s i o) k = object_at s k.
Proof. intros H. unfold object_at. now rewrite nth_error_replace_neq by lia. Qed.

Lemma at_replace s i o k x : object_at s k = Some x -> i <> k -> object_at (replace s i o) k = Some x.
Proof. intros H N. rewrite at_replace_neq; auto. Qed.

(** The result of a step. *)
Lemma istep_frame s o s' i x : istep s o = Some (Ok s') -> object_at s i = Some x -> ~ Changes o i -> object_at s' i = Some x.
Proof.
  intros H Hi N. destruct o as [b|b|k|region|k|k|k|k|k b|k b|k]; cbn [IterModel.istep Changes] in H, N.
  - injection H as <-. now apply at_create.
  - injection H as <-. now apply at_create.
  - destruct (object_at s k) as [[b|b|r it]|]; try discriminate.
    + injection H as <-. now apply at_create.
    + destruct (ballIter P fuel k b (beginPosition (ballBox b))) as [[it| |]|]; try discriminate. injection H as <-. now apply at_create.
  - destruct (subIter n shape region (beginPosition region)) as [it| |]; try discriminate. injection H as <-. now apply at_create.
  - destruct (object_at s k) as [o|]; try discriminate. injection H as <-. now apply at_create.
  - destruct (object_at s k) as [[b|b|r it]|]; try discriminate.
    destruct (nextIter s r it) as [[it'| |]|]; try discriminate. injection H as <-. now apply at_replace.
  - destruct (object_at s k) as [[b|b|r it]|]; try discriminate.
    destruct (nextIter s r it) as [[it'| |]|]; try discriminate. injection H as <-. now apply at_replace.
  - destruct (object_at s k) as [[b|b|r [c| |]]|]; try discriminate.
    destruct (regionOf s r) as [b| |]; try discriminate. injection H as <-. now apply at_replace.
  - destruct (object_at s k) as [[b'|b'|r it]|]; try discriminate. injection H as <-. now apply at_replace.
  - destruct (object_at s k) as [[b'|b'|r it]|]; try discriminate. injection H as <-. now apply at_replace.
  - destruct (object_at s k) as [o|]; try discriminate. injection H as <-. now apply at_replace.
Qed.

Lemma iexec_cons s o ops s' : iexec s (o :: ops) = Some (Ok s') -> exists s1, istep s o = Some (Ok s1) /\ iexec s1 ops = Some (Ok s').
Proof. cbn [IterModel.iexec]. intros H. destruct (istep s o) as [[s1| |]|] eqn:E; try discriminate. eauto. Qed.

Lemma frame ops : forall s s' i x, iexec s ops = Some (Ok s') -> object_at s i = Some x -> Unchanged i ops -> object_at s' i = Some x.
Proof.
  induction ops as [|o ops IH]; intros s s' i x H Hi U.
  - injection H as <-. exact Hi.
  - apply iexec_cons in H as (s1 & E & H). apply Forall_cons_iff in U as [N U]. eauto using istep_frame.
Qed.

Lemma copy_spec s i o : object_at s i = Some o -> exists s', istep s (Copy i) = Some (Ok s') /\ object_at s' (length s) = Some o /\
  forall k x, object_at s k = Some x -> object_at s' k = Some x.
Proof. intros H. cbn [IterModel.istep]. rewrite H. eexists. split; [reflexivity|]. split; [apply at_new|]. intros. now apply at_create. Qed.

Lemma incr_step s o i : o = Incr i \/ o = PostIncr i -> istep s o =
  match object_at s i with
  | Some (IterObj r it) => match nextIter s r it with
      | Some (Ok it') => Some (Ok (replace s i (Some (IterObj r it')))) | Some (Throw x) => Some (Throw x) | Some UB => Some UB | None => None end
  | _ => None end.
Proof. intros [-> | ->]; reflexivity. Qed.

Lemma increments_other j o ops : ~ (o = Incr j \/ o = PostIncr j) -> increments j (o :: ops) = increments j ops.
Proof.
  intros N. destruct o; cbn [increments]; auto; destruct (Nat.eqb_spec i j) as [-> | ]; auto; exfalso; apply N; auto.
Qed.
Lemma increments_same j o ops : o = Incr j \/ o = PostIncr j -> increments j (o :: ops) = Datatypes.S (increments j ops).
Proof. intros [-> | ->]; cbn [increments]; rewrite Nat.eqb_refl; auto. Qed.

Lemma incr_dec o j : {o = Incr j \/ o = PostIncr j} + {~ (o = Incr j \/ o = PostIncr j)}.
Proof.
  destruct o; try (right; intros [E|E]; discriminate); destruct (Nat.eq_dec i j) as [-> | N]; auto; right; intros [E|E]; congruence.
Defined.

(** A property of an iterator by rank which is kept by each step is kept by histories. *)
Lemma histories j (At : store -> nat -> Prop) (Fine : iop -> Prop) N :
  (forall s s' o m, At s m -> Fine o -> ~ Changes o j -> istep s o = Some (Ok s') -> At s' m) ->
  (forall s s' o m, At s m -> Fine o -> o = Incr j \/ o = PostIncr j -> istep s o = Some (Ok s') -> (m < N)%nat -> At s' (Datatypes.S m)) ->
  forall ops s s' m, At s m -> Forall Fine ops -> OnlyIncremented j ops -> (m + increments j ops <= N)%nat ->
  iexec s ops = Some (Ok s') -> At s' (m + increments j ops)%nat.
Proof.
  intros K I. induction ops as [|o ops IH]; intros s s' m A F U B H.
  - injection H as <-. cbn [increments]. now rewrite Nat.add_0_r.
  - apply iexec_cons in H as (s1 & E & H). apply Forall_cons_iff in U as [U1 U]. apply Forall_cons_iff in F as [F1 F].
    destruct (incr_dec o j) as [S1|S1].
    + rewrite increments_same in B |- * by auto. rewrite <- Nat.add_succ_comm in B |- *. apply (IH s1); auto. eapply I; eauto. lia.
    + rewrite increments_other in B |- * by auto. apply (IH s1); auto. eapply K; eauto.
Qed.

(** Ranks in loops. *)
Lemma rank_last {A} (L : list A) e m p : nth_error (L ++ [e]) m = Some p -> (m < length L)%nat -> nth_error L m = Some p.
Proof. intros H B. now rewrite nth_error_app1 in H. Qed.

Lemma boxLoop_rank fl b e : forall cur L, boxLoop fl b e cur = Some (Ok L) -> nth_error (L ++ [e]) 0 = Some cur /\
  forall m p, (m < length L)%nat -> nth_error (L ++ [e]) m = Some p -> exists q, next b p = Ok q /\ nth_error (L ++ [e]) (Datatypes.S m) = Some q.
Proof.
  induction fl as [|fl IH]; intros cur L H; [discriminate|]. cbn [boxLoop] in H. destruct (veqb cur e) eqn:E.
  - apply veqb_spec in E as ->. injection H as <-. split; [reflexivity|]. cbn [length]. intros; lia.
  - destruct (next b cur) as [c'| |] eqn:En; try discriminate. destruct (boxLoop fl b e c') as [[l| |]|] eqn:El; try discriminate.
    injection H as <-. destruct (IH _ _ El) as [H0 HS]. split; [reflexivity|]. intros [|m] p B Hp.
    + injection Hp as <-. exists c'. split; [exact En|]. exact H0.
    + cbn [length app nth_error] in *. apply HS; [lia | exact Hp].
Qed.

Lemma regionSkip_more bx o e f1 : forall f2 cur x, (f1 <= f2)%nat -> regionSkip bx o f1 e cur = Some x -> regionSkip bx o f2 e cur = Some x.
Proof.
  induction f1 as [|f1 IH]; intros [|f2] cur x B H; try discriminate; try lia. cbn [regionSkip] in *.
  destruct (veqb cur e); auto. destruct (o cur); auto. destruct (next bx cur); auto. apply IH; auto. lia.
Qed.
Lemma regionNext_more bx o e f1 f2 cur x : (f1 <= f2)%nat -> regionNext bx o f1 e cur = Some x -> regionNext bx o f2 e cur = Some x.
Proof. unfold regionNext. destruct (next bx cur); auto. apply regionSkip_more. Qed.

Lemma regionLoop_rank bx o e fl : forall cur L, regionLoop bx o fl e cur = Some (Ok L) -> nth_error (L ++ [e]) 0 = Some cur /\
  forall m p, (m < length L)%nat -> nth_error (L ++ [e]) m = Some p -> exists q, regionNext bx o fl e p = Some (Ok q) /\ nth_error (L ++ [e]) (Datatypes.S m) = Some q.
Proof.
  induction fl as [|fl IH]; intros cur L H; [discriminate|]. cbn [regionLoop] in H. destruct (veqb cur e) eqn:E.
  - apply veqb_spec in E as ->. injection H as <-. split; [reflexivity|]. cbn [length]. intros; lia.
  - destruct (regionNext bx o (Datatypes.S fl) e cur) as [[c'| |]|] eqn:En; try discriminate.
    destruct (regionLoop bx o fl e c') as [[l| |]|] eqn:El; try discriminate.
    injection H as <-. destruct (IH _ _ El) as [H0 HS]. split; [reflexivity|]. intros [|m] p B Hp.
    + injection Hp as <-. exists c'. split; [exact En|]. exact H0.
    + cbn [length app nth_error] in *. destruct (HS m p ltac:(lia) Hp) as (q & Eq & Hq). exists q. split; auto.
      apply (regionNext_more _ _ _ fl); auto.
Qed.

Lemma forLoop_rank {A} (atEnd : A -> bool) nx fl : forall x L, forLoop fl atEnd nx x = Some (Ok L) ->
  (nth_error L 0 = Some x \/ L = [] /\ atEnd x = true) /\
  forall m p, nth_error L m = Some p -> exists q, nx p = Ok q /\ (nth_error L (Datatypes.S m) = Some q \/ Datatypes.S m = length L /\ atEnd q = true).
Proof.
  induction fl as [|fl IH]; intros x L H; [discriminate|]. cbn [forLoop] in H. destruct (atEnd x) eqn:E.
  - injection H as <-. split; [auto|]. intros [|m] p Hp; discriminate.
  - destruct (nx x) as [y| |] eqn:En; try discriminate. destruct (forLoop fl atEnd nx y) as [[l| |]|] eqn:El; try discriminate.
    injection H as <-. destruct (IH _ _ El) as [H0 HS]. split; [auto|]. intros [|m] p Hp.
    + injection Hp as <-. exists y. split; [exact En|]. cbn [nth_error length]. destruct H0 as [H0|[-> H0]]; auto.
    + cbn [nth_error length] in *. destruct (HS m p Hp) as (q & Eq & [Hq|[Hm Hq]]); exists q; split; auto.
Qed.

(** Boxes *)
Lemma box_begin s r b fl L : object_at s r = Some (BoxObj b) -> boxForeach fl b = Some (Ok L) ->
  exists e s', endPosition b = Ok e /\ istep s (Begin r) = Some (Ok s') /\ BoxAt s' (length s) r b L e 0 /\
  forall k x, object_at s k = Some x -> object_at s' k = Some x.
Proof.
  intros H HL. unfold boxForeach in HL. destruct (endPosition b) as [e| |]; try discriminate. exists e.
  apply boxLoop_rank in HL as [H0 _]. cbn [IterModel.istep]. rewrite H. eexists. split; [reflexivity|]. split; [reflexivity|]. split.
  - split; [now apply at_create|]. eexists. split; [exact H0|]. apply at_new.
  - intros. now apply at_create.
Qed.

Lemma box_incr s j r b fl L e m o : BoxAt s j r b L e m -> endPosition b = Ok e -> boxForeach fl b = Some (Ok L) -> (m < length L)%nat ->
  o = Incr j \/ o = PostIncr j -> exists s', istep s o = Some (Ok s') /\ BoxAt s' j r b L e (Datatypes.S m).
Proof.
  intros [Hr (p & Hp & Hj)] Ee HL B O. unfold boxForeach in HL. rewrite Ee in HL.
  apply boxLoop_rank in HL as [_ HS]. destruct (HS _ _ B Hp) as (q & Eq & Hq).
  rewrite (incr_step _ _ _ O), Hj. cbn [IterModel.nextIter]. unfold regionOf. rewrite Hr. cbn [bind]. rewrite Eq. cbn [bind].
  eexists. split; [reflexivity|]. split.
  - apply at_replace; auto. intros ->. congruence.
  - exists q. split; auto. eapply at_replace_eq, Hj.
Qed.

Lemma box_history ops s s' j r b fl L e m : BoxAt s j r b L e m -> endPosition b = Ok e -> boxForeach fl b = Some (Ok L) ->
  Unchanged r ops -> OnlyIncremented j ops -> (m + increments j ops <= length L)%nat -> iexec s ops = Some (Ok s') ->
  BoxAt s' j r b L e (m + increments j ops).
Proof.
  intros A Ee HL Ur Uj B H.
  apply (histories j (fun s m => BoxAt s j r b L e m) (fun o => ~ Changes o r) (length L)) with (s := s); auto.
  - intros s1 s2 o k [Hr (p & Hp & Hj)] F N E. split; [eapply istep_frame; eauto|]. exists p. split; auto. eapply istep_frame; eauto.
  - intros s1 s2 o k A1 F O E Bk. destruct (box_incr _ _ _ _ fl _ _ _ _ A1 Ee HL Bk O) as (s3 & E3 & A3). congruence.
Qed.

Lemma box_copy s j r b L e m : BoxAt s j r b L e m -> exists s', istep s (Copy j) = Some (Ok s') /\ BoxAt s' (length s) r b L e m /\
  forall k x, object_at s k = Some x -> object_at s' k = Some x.
Proof.
  intros [Hr (p & Hp & Hj)]. destruct (copy_spec _ _ _ Hj) as (s' & E & A & K). exists s'. split; auto. split; auto. split; [auto|]. eauto.
Qed.

Lemma box_reset s j r b fl L e m : BoxAt s j r b L e m -> endPosition b = Ok e -> boxForeach fl b = Some (Ok L) ->
  exists s', istep s (Reset j) = Some (Ok s') /\ BoxAt s' j r b L e 0.
Proof.
  intros [Hr (p & Hp & Hj)] Ee HL. unfold boxForeach in HL. rewrite Ee in HL. apply boxLoop_rank in HL as [H0 _].
  cbn [IterModel.istep]. rewrite Hj. unfold regionOf. rewrite Hr. cbn [bind]. eexists. split; [reflexivity|]. split.
  - apply at_replace; auto. intros ->. congruence.
  - eexists. split; [exact H0|]. eapply at_replace_eq, Hj.
Qed.

(** Balls *)
Lemma ball_begin s c b fl L : object_at s c = Some (BallObj b) -> ballForeach fl P b = Some (Ok L) -> (fl <= fuel)%nat ->
  exists e s', endPosition (ballBox b) = Ok e /\ istep s (Begin c) = Some (Ok s') /\ BallAt P s' (length s) (length s) c b L e 0 /\
  forall k x, object_at s k = Some x -> object_at s' k = Some x.
Proof.
  intros H HL B. unfold ballForeach, regionForeach in HL. destruct (endPosition (ballBox b)) as [e| |] eqn:Ee; try discriminate. exists e.
  destruct (regionSkip (ballBox b) (ballOut P b) fl e (beginPosition (ballBox b))) as [[p| |]|] eqn:Es; try discriminate.
  apply regionLoop_rank in HL as [H0 _]. apply (regionSkip_more _ _ _ _ fuel) in Es; auto.
  cbn [IterModel.istep]. rewrite H. unfold ballIter. rewrite Ee.
  change (out P (Qpower (bradius b) P) (bcenter b)) with (ballOut P b). rewrite Es.
  eexists. split; [reflexivity|]. split; [reflexivity|]. split.
  - split; [now apply at_create|]. split; [eexists; apply at_new|]. eexists. split; [exact H0|]. apply at_new.
  - intros. now apply at_create.
Qed.

Lemma ball_keep s j r c b L e m i it it' q p0 :
  BallAt P s j r c b L e m -> i <> j -> object_at s i = Some (IterObj r it) -> it = BallIter p0 c (ballBox b) q e -> p0 = Qpower (bradius b) P ->
  (exists q', it' = BallIter p0 c (ballBox b) q' e) ->
  BallAt P (replace s i (Some (IterObj r it'))) j r c b L e m.
Proof.
  intros (Hc & (q0 & Hr) & p & Hp & Hj) N Hi -> -> (q' & ->). split; [|split].
  - apply at_replace; auto. intros ->. congruence.
  - destruct (Nat.eq_dec i r) as [-> | Nr].
    + exists q'. eapply at_replace_eq; eauto.
    + exists q0. apply at_replace; auto.
  - exists p. split; auto. apply at_replace; auto.
Qed.

Lemma next_ball s r rp c own cur fin it' : nextIter s r (BallIter rp c own cur fin) = Some (Ok it') -> exists q, it' = BallIter rp c own q fin.
Proof.
  cbn [IterModel.nextIter]. destruct (regionOf s r); try discriminate. destruct (centerOf s c); try discriminate.
  destruct (regionNext _ _ _ _ _) as [[q| |]|]; try discriminate. intros H. injection H as <-. eauto.
Qed.

Lemma ball_incr s j r c b fl L e m o : BallAt P s j r c b L e m -> endPosition (ballBox b) = Ok e -> ballForeach fl P b = Some (Ok L) ->
  (fl <= fuel)%nat -> (m < length L)%nat -> o = Incr j \/ o = PostIncr j ->
  exists s', istep s o = Some (Ok s') /\ BallAt P s' j r c b L e (Datatypes.S m).
Proof.
  intros (Hc & (q0 & Hr) & p & Hp & Hj) Ee HL Bf B O. unfold ballForeach, regionForeach in HL. rewrite Ee in HL.
  destruct (regionSkip (ballBox b) (ballOut P b) fl e (beginPosition (ballBox b))) as [[p1| |]|] eqn:Es; try discriminate.
  apply regionLoop_rank in HL as [_ HS]. destruct (HS _ _ B Hp) as (q & Eq & Hq).
  rewrite (incr_step _ _ _ O), Hj. cbn [IterModel.nextIter]. unfold regionOf, centerOf. rewrite Hr, Hc.
  change (out P (Qpower (bradius b) P) (bcenter b)) with (ballOut P b). rewrite (regionNext_more _ _ _ fl fuel _ _ Bf Eq).
  eexists. split; [reflexivity|]. split; [|split].
  - apply at_replace; auto. intros ->. congruence.
  - destruct (Nat.eq_dec j r) as [-> | Nr].
    + exists q. eapply at_replace_eq; eauto.
    + exists q0. apply at_replace; auto.
  - exists q. split; auto. eapply at_replace_eq, Hj.
Qed.

Lemma ball_history ops s s' j r c b fl L e m : BallAt P s j r c b L e m -> endPosition (ballBox b) = Ok e -> ballForeach fl P b = Some (Ok L) ->
  (fl <= fuel)%nat -> Unchanged c ops -> OnlyIncremented r ops -> OnlyIncremented j ops -> (m + increments j ops <= length L)%nat ->
  iexec s ops = Some (Ok s') -> BallAt P s' j r c b L e (m + increments j ops).
Proof.
  intros A Ee HL Bf Uc Ur Uj B H.
  apply (histories j (fun s m => BallAt P s j r c b L e m) (fun o => ~ Changes o c /\ (Changes o r -> o = Incr r \/ o = PostIncr r)) (length L)) with (s := s); auto.
  - intros s1 s2 o k A1 [Fc Fr] N E. destruct (incr_dec o r) as [O|O].
    + assert (r <> j) by (intros ->; apply N; destruct O as [-> | ->]; reflexivity).
      pose proof A1 as (Hc & (q0 & Hr) & _). rewrite (incr_step _ _ _ O), Hr in E.
      destruct (nextIter s1 r _) as [[it'| |]|] eqn:Ei; try discriminate. injection E as <-.
      apply next_ball in Ei as (q & ->). eapply ball_keep; eauto.
    + destruct A1 as (Hc & (q0 & Hr) & p & Hp & Hj). split; [eapply istep_frame; eauto|]. split.
      * exists q0. eapply istep_frame; eauto.
      * exists p. split; auto. eapply istep_frame; eauto.
  - intros s1 s2 o k A1 F O E Bk. destruct (ball_incr _ _ _ _ _ fl _ _ _ _ A1 Ee HL Bf Bk O) as (s3 & E3 & A3). congruence.
  - unfold Unchanged, OnlyIncremented in *. rewrite Forall_forall in *. intros o Ho. split; auto.
Qed.

Lemma ball_copy s j r c b L e m : BallAt P s j r c b L e m -> exists s', istep s (Copy j) = Some (Ok s') /\ BallAt P s' (length s) r c b L e m /\
  forall k x, object_at s k = Some x -> object_at s' k = Some x.
Proof.
  intros (Hc & (q0 & Hr) & p & Hp & Hj). destruct (copy_spec _ _ _ Hj) as (s' & E & A & K). exists s'. split; auto. split; auto. split; [auto|]. split; eauto.
Qed.

(** The iterator which was copied is destroyed. *)
Lemma ball_orphan s j r c b L e m o s1 : BallAt P s j r c b L e m -> j <> r -> istep s (Destroy r) = Some (Ok s1) -> o = Incr j \/ o = PostIncr j ->
  istep s1 o = Some UB.
Proof.
  intros (Hc & (q0 & Hr) & p & Hp & Hj) N E O. cbn [IterModel.istep] in E. rewrite Hr in E. injection E as <-.
  rewrite (incr_step _ _ _ O), at_replace_neq, Hj by auto. cbn [IterModel.nextIter]. unfold regionOf. now rewrite (at_replace_eq _ _ _ _ Hr).
Qed.

(** Subrasters *)
Lemma next_sub s r own w c it' : nextIter s r (SubIter own w c) = Some (Ok it') -> exists q, it' = SubIter own w q.
Proof.
  cbn [IterModel.nextIter]. destruct (negb _); intros H; injection H as H; [subst it'; eauto|].
  destruct (regionOf s r) as [b| |]; try discriminate. cbn [bind] in H. destruct (next b (siBegin c)) as [p| |]; try discriminate. cbn [bind] in H.
  destruct (rindex n shape p); try discriminate. injection H as <-. eauto.
Qed.

Lemma sub_begin s region fl ib e L : subItMake n shape region (beginPosition region) = Ok ib ->
  forLoop fl (fun c => siCurrent c =? e) (subNext n shape region) ib = Some (Ok L) ->
  exists s', istep s (BeginSub region) = Some (Ok s') /\ SubAt s' (length s) (length s) region L e 0 /\
  forall k x, object_at s k = Some x -> object_at s' k = Some x.
Proof.
  intros Hb HL. apply forLoop_rank in HL as [H0 _]. cbn [IterModel.istep]. unfold subIter. rewrite Hb. unfold subItMake in Hb.
  destruct (project region 0) as [plane| |] eqn:Ep; try discriminate. cbn [bind] in *.
  destruct (boxLength region 0) as [w| |] eqn:Ew; try discriminate. cbn [bind] in *.
  eexists. split; [reflexivity|]. split.
  - exists plane, w. split; auto. split; auto. split; [eexists; apply at_new|]. eexists. split; [apply at_new|].
    destruct H0 as [H0|[-> H0]]; auto. right. split; [reflexivity|]. now apply Z.eqb_eq.
  - intros. now apply at_create.
Qed.

Lemma sub_incr s j r region fl ib e L m o : SubAt s j r region L e m ->
  forLoop fl (fun c => siCurrent c =? e) (subNext n shape region) ib = Some (Ok L) -> (m < length L)%nat -> o = Incr j \/ o = PostIncr j ->
  exists s', istep s o = Some (Ok s') /\ SubAt s' j r region L e (Datatypes.S m).
Proof.
  intros (plane & w & Ep & Ew & (q0 & Hr) & c & Hj & Hc) HL B O. apply forLoop_rank in HL as [_ HS].
  destruct Hc as [Hc|[-> _]]; [|lia]. destruct (HS _ _ Hc) as (q & Eq & Hq).
  assert (E : nextIter s r (SubIter plane w c) = Some (Ok (SubIter plane w q))).
  { cbn [IterModel.nextIter]. unfold subNext in Eq. destruct (negb (siCurrent c + 1 =? siEol c)); [injection Eq as <-; auto|].
    unfold regionOf. rewrite Hr. rewrite Ep in Eq. cbn [bind] in *. destruct (next plane (siBegin c)) as [p| |]; try discriminate. cbn [bind] in *.
    rewrite Ew in Eq. cbn [bind] in *. destruct (rindex n shape p); try discriminate. cbn [bind] in *. now injection Eq as <-. }
  rewrite (incr_step _ _ _ O), Hj, E. eexists. split; [reflexivity|]. exists plane, w. split; auto. split; auto. split.
  - destruct (Nat.eq_dec j r) as [-> | Nr].
    + exists q. eapply at_replace_eq; eauto.
    + exists q0. apply at_replace; auto.
  - exists q. split; [eapply at_replace_eq, Hj|]. rewrite Z.eqb_eq in Hq. exact Hq.
Qed.

Lemma sub_history ops s s' j r region fl ib e L m : SubAt s j r region L e m ->
  forLoop fl (fun c => siCurrent c =? e) (subNext n shape region) ib = Some (Ok L) ->
  OnlyIncremented r ops -> OnlyIncremented j ops -> (m + increments j ops <= length L)%nat ->
  iexec s ops = Some (Ok s') -> SubAt s' j r region L e (m + increments j ops).
Proof.
  intros A HL Ur Uj B H.
  apply (histories j (fun s m => SubAt s j r region L e m) (fun o => Changes o r -> o = Incr r \/ o = PostIncr r) (length L)) with (s := s); auto.
  - intros s1 s2 o k A1 Fr N E. destruct A1 as (plane & w & Ep & Ew & (q0 & Hr) & c & Hj & Hc). exists plane, w. split; auto. split; auto.
    destruct (incr_dec o r) as [O|O].
    + assert (Nr : r <> j) by (intros ->; apply N; destruct O as [-> | ->]; reflexivity).
      rewrite (incr_step _ _ _ O), Hr in E. destruct (nextIter s1 r _) as [[it'| |]|] eqn:Ei; try discriminate. injection E as <-.
      apply next_sub in Ei as (q & ->). split.
      * exists q. eapply at_replace_eq; eauto.
      * exists c. split; auto. apply at_replace; auto.
    + split.
      * exists q0. eapply istep_frame; eauto.
      * exists c. split; auto. eapply istep_frame; eauto.
  - intros s1 s2 o k A1 F O E Bk. destruct (sub_incr _ _ _ _ fl _ _ _ _ _ A1 HL Bk O) as (s3 & E3 & A3). congruence.
Qed.

Lemma sub_copy s j r region L e m : SubAt s j r region L e m ->
  exists s', istep s (Copy j) = Some (Ok s') /\ SubAt s' (length s) r region L e m /\
  forall k x, object_at s k = Some x -> object_at s' k = Some x.
Proof.
  intros (plane & w & Ep & Ew & (q0 & Hr) & c & Hj & Hc). destruct (copy_spec _ _ _ Hj) as (s' & E & A & K). exists s'. split; auto. split; auto.
  exists plane, w. split; auto. split; auto. split; eauto.
Qed.

Lemma sub_orphan s j r own w c o s1 : object_at s j = Some (IterObj r (SubIter own w c)) -> j <> r ->
  istep s (Destroy r) = Some (Ok s1) -> o = Incr j \/ o = PostIncr j ->
  (siCurrent c + 1 = siEol c -> istep s1 o = Some UB) /\
  (siCurrent c + 1 <> siEol c -> exists s2, istep s1 o = Some (Ok s2) /\
     object_at s2 j = Some (IterObj r (SubIter own w (mkSubIt (siBegin c) (siCurrent c + 1) (siEol c))))).
Proof.
  intros Hj N E O. cbn [IterModel.istep] in E. destruct (object_at s r) as [x|] eqn:Hr; try discriminate. injection E as <-.
  assert (Hj1 : object_at (replace s r None) j = Some (IterObj r (SubIter own w c))) by (rewrite at_replace_neq; auto).
  rewrite (incr_step _ _ _ O), Hj1. cbn [IterModel.nextIter]. split; intros H.
  - rewrite H, Z.eqb_refl. cbn [negb]. unfold regionOf. now rewrite (at_replace_eq _ _ _ _ Hr).
  - replace (siCurrent c + 1 =? siEol c) with false by lia. cbn [negb]. eexists. split; [reflexivity|]. eapply at_replace_eq, Hj1.
Qed.
End Histories.

(** Postfix increments. *)
Lemma post_loop fl b e : forall cur L, boxLoop fl b e cur = Some (Ok L) -> postLoop fl b e cur = Some (Ok (tl (L ++ [e]))).
Proof.
  induction fl as [|fl IH]; intros cur L H; [discriminate|]. cbn [boxLoop postLoop] in *. destruct (veqb cur e) eqn:E.
  - injection H as <-. reflexivity.
  - destruct (next b cur) as [c'| |] eqn:En; try discriminate. destruct (boxLoop fl b e c') as [[l| |]|] eqn:El; try discriminate.
    injection H as <-. rewrite (IH _ _ El). cbn [tl app]. apply boxLoop_rank in El as [H0 _].
    destruct (l ++ [e]) as [|x t] eqn:Et; [destruct l; discriminate|]. injection H0 as ->. reflexivity.
Qed.

Lemma post_box f b : f <> [] -> Nonempty (mkBox f b) -> exists L e, endPosition (mkBox f b) = Ok e /\
  (exists enough, forall fuel, (enough <= fuel)%nat ->
     boxForeach fuel (mkBox f b) = Some (Ok (f :: L)) /\ postLoop fuel (mkBox f b) e f = Some (Ok (L ++ [e]))) /\
  ~ In f (L ++ [e]) /\ ~ InBox (mkBox f b) e.
Proof.
  intros Hf HN. destruct (iteration_full f b Hf HN) as (L0 & (enough & HL) & ND & HI & (L & ->) & _).
  destruct f as [|x f]; [congruence|]. pose proof (HL enough (Nat.le_refl _)) as H0. unfold boxForeach in H0.
  destruct (endPosition (mkBox (x :: f) b)) as [e| |] eqn:Ee; try discriminate. exists L, e. split; [reflexivity|]. split; [|].
  - exists enough. intros fuel Hfu. split; [apply HL, Hfu|]. specialize (HL fuel Hfu). unfold boxForeach in HL. rewrite Ee in HL.
    exact (post_loop _ _ _ _ _ HL).
  - assert (e = x - 1 :: f) as -> by (cbn in Ee; injection Ee as <-; reflexivity).
    split.
    + rewrite in_app_iff. apply NoDup_cons_iff in ND as [N _]. intros [H|[H|[]]]; [auto|]. injection H as H. lia.
    + unfold InBox. cbn [bfront bback]. intros H. inversion H as [|? ? ? ? H1]. lia.
Qed.

Lemma sub_states fl n shape region O : subForeach fl n shape region = Some (Ok O) <-> exists L e, SubStates fl n shape region L e /\ O = map siCurrent L.
Proof.
  unfold subForeach, SubStates. split.
  - destruct (endPosition region) as [p| |]; try discriminate. cbn [bind].
    destruct (subItMake n shape region p) as [ie| |] eqn:Ei; try discriminate. cbn [bind].
    destruct (subItMake n shape region (beginPosition region)) as [ib| |]; try discriminate. cbn [bind].
    destruct (forLoop _ _ _ _) as [[L| |]|] eqn:E; try discriminate. intros H. injection H as <-. exists L, (siCurrent ie). split; auto.
    exists p, ie, ib. auto 10.
  - intros (L & e & (p & ie & ib & -> & Hie & -> & Hib & HL) & ->). cbn [bind]. rewrite Hie. cbn [bind]. rewrite Hib. cbn [bind]. now rewrite HL.
Qed.

Section Subrasters.
Variables (P n : Z) (shape : list Z) (fuel : nat).
Notation istep := (istep P n shape fuel).
Notation iexec := (iexec P n shape fuel).

Lemma sub_begin' s region fl L e : SubStates fl n shape region L e -> exists s', istep s (BeginSub region) = Some (Ok s') /\
  SubAt s' (length s) (length s) region L e 0 /\ forall k x, object_at s k = Some x -> object_at s' k = Some x.
Proof. intros (p & ie & ib & _ & _ & _ & Hib & HL). exact (sub_begin P n shape fuel s region fl ib e L Hib HL). Qed.

Lemma sub_history' ops s s' j r region fl e L m : SubAt s j r region L e m -> SubStates fl n shape region L e ->
  OnlyIncremented r ops -> OnlyIncremented j ops -> (m + increments j ops <= length L)%nat ->
  iexec s ops = Some (Ok s') -> SubAt s' j r region L e (m + increments j ops).
Proof. intros A (p & ie & ib & _ & _ & _ & _ & HL). exact (sub_history P n shape fuel ops s s' j r region fl ib e L m A HL). Qed.

Lemma sub_incr' s j r region fl e L m o : SubAt s j r region L e m -> SubStates fl n shape region L e -> (m < length L)%nat -> o = Incr j \/ o = PostIncr j ->
  exists s', istep s o = Some (Ok s') /\ SubAt s' j r region L e (Datatypes.S m).
Proof. intros A (p & ie & ib & _ & _ & _ & _ & HL). exact (sub_incr P n shape fuel s j r region fl ib e L m o A HL). Qed.
End Subrasters.
