(** Proofs about the copies and moves of pipelines. *)
From Coq Require Import QArith.
From Verif Require Import Res PipelineModel PipeCopyModel PipeCopySpec.
Open Scope Z_scope.

Lemma nth_replace_eq {A} (l : list A) i a : (i < length l)%nat -> nth_error (replace l i a) i = Some a.
Proof. revert i. induction l as [|x l IH]; intros [|i] H; cbn in *; try lia; [reflexivity|]. apply IH. lia. Qed.
Lemma nth_replace_ne {A} (l : list A) i j a : i <> j -> nth_error (replace l i a) j = nth_error l j.
Proof. revert i j. induction l as [|x l IH]; intros [|i] [|j] H; cbn; try reflexivity; try lia. apply IH. lia. Qed.
Lemma length_replace {A} (l : list A) i a : length (replace l i a) = length l.
Proof. revert i. induction l as [|x l IH]; intros [|i]; cbn; try reflexivity. f_equal. apply IH. Qed.

Section Copies.
Context {D V : Type}.
Variable prerequisites : nat -> list nat.
Variable doEvaluate : nat -> D -> D * option Q.
Variable doGet : nat -> D -> D * option V.
Variable copyData movedData : D -> D.
Variable leftover : list (nat * Q) -> list (nat * Q).
Notation step := (pstep prerequisites doEvaluate doGet copyData movedData leftover).
Notation run := (prun prerequisites doEvaluate doGet copyData movedData leftover).

Lemma pobject_lt (os : list (option (@pipe D))) i p : pobject os i = Some p -> (i < length os)%nat.
Proof. unfold pobject. intros H. apply nth_error_Some. destruct (nth_error os i); discriminate. Qed.
Lemma pobject_app (os os2 : list (option (@pipe D))) i : (i < length os)%nat -> pobject (os ++ os2) i = pobject os i.
Proof. intros H. unfold pobject. rewrite nth_error_app1 by exact H. reflexivity. Qed.
Lemma pobject_last (os : list (option (@pipe D))) o : pobject (os ++ [o]) (length os) = o.
Proof. unfold pobject. rewrite nth_error_app2, Nat.sub_diag by lia. reflexivity. Qed.
Lemma pobject_same (os : list (option (@pipe D))) i o : (i < length os)%nat -> pobject (replace os i o) i = o.
Proof. intros H. unfold pobject. rewrite nth_replace_eq by exact H. reflexivity. Qed.
Lemma pobject_other (os : list (option (@pipe D))) i j o : i <> j -> pobject (replace os i o) j = pobject os j.
Proof. intros H. unfold pobject. rewrite nth_replace_ne by exact H. reflexivity. Qed.

Lemma step_frame fuel os o os' vs i : step fuel os o = Some (os', vs) -> (i < length os)%nat -> ~ Changes i o -> pobject os' i = pobject os i /\ (length os <= length os')%nat.
Proof.
  intros H L C. destruct o as [d|k s|k|k|k|k j|k j|k]; cbn [pstep Changes] in *.
  - injection H as H _. subst os'. rewrite pobject_app, app_length by exact L. split; [reflexivity|lia].
  - destruct (pobject os k) as [p|]; [|discriminate]. destruct (get _ _ _ _ _ _) as [[p' v]|]; [|discriminate]. injection H as H _. subst os'.
    rewrite pobject_other, length_replace by exact C. split; [reflexivity|lia].
  - destruct (pobject os k) as [p|]; [|discriminate]. injection H as H _. subst os'. rewrite pobject_other, length_replace by exact C. split; [reflexivity|lia].
  - destruct (pobject os k) as [p|]; [|discriminate]. injection H as H _. subst os'. rewrite pobject_app, app_length by exact L. split; [reflexivity|lia].
  - destruct (pobject os k) as [p|]; [|discriminate]. injection H as H _. subst os'.
    rewrite pobject_app, app_length, length_replace by (rewrite length_replace; exact L). rewrite pobject_other by exact C. split; [reflexivity|lia].
  - destruct (pobject os k) as [p|]; [|discriminate]. destruct (pobject os j) as [q|]; [|discriminate]. injection H as H _. subst os'.
    rewrite pobject_other, length_replace by exact C. split; [reflexivity|lia].
  - destruct (pobject os k) as [p|]; [|discriminate]. destruct (pobject os j) as [q|]; [|discriminate]. destruct (Nat.eqb k j); [discriminate|]. injection H as H _. subst os'.
    rewrite !pobject_other, !length_replace by tauto. split; [reflexivity|lia].
  - destruct (pobject os k) as [p|]; [|discriminate]. injection H as H _. subst os'. rewrite pobject_other, length_replace by exact C. split; [reflexivity|lia].
Qed.

Theorem run_frame fuel os ops os' vs i : run fuel os ops = Some (os', vs) -> (i < length os)%nat -> Forall (fun o => ~ Changes i o) ops -> pobject os' i = pobject os i.
Proof.
  intros H L F. revert os vs H L. induction F as [|o ops C F IH]; intros os vs H L; cbn [prun] in H; [injection H as H _; subst; reflexivity|].
  destruct (step fuel os o) as [[os1 vs1]|] eqn:E; [|discriminate]. destruct (run fuel os1 ops) as [[os2 vs2]|] eqn:E2; [|discriminate]. injection H as H _. subst os2.
  destruct (step_frame fuel os o os1 vs1 i E L C) as [A B]. rewrite <- A. apply (IH os1 vs2 E2). lia.
Qed.

Theorem copy_same fuel os i p ops os' vs : Regular copyData -> pobject os i = Some p -> run fuel os (PCopy i :: ops) = Some (os', vs) ->
  (Forall (fun o => ~ Changes (length os) o) ops -> pobject os' (length os) = Some p) /\
  (Forall (fun o => ~ Changes i o) ops -> pobject os' i = Some p).
Proof.
  intros R P H. assert (L := pobject_lt os i p P). cbn [prun pstep] in H. rewrite P in H.
  destruct (run fuel (os ++ [Some (copyPipe copyData p)]) ops) as [[os2 vs2]|] eqn:E; [|discriminate]. injection H as H _. subst os2. split; intros F.
  - rewrite (run_frame _ _ _ _ _ (length os) E) by (rewrite ?app_length; cbn; (lia || exact F)). rewrite pobject_last. f_equal. unfold copyPipe. rewrite R. destruct p; reflexivity.
  - rewrite (run_frame _ _ _ _ _ i E) by (rewrite ?app_length; cbn; (lia || exact F)). rewrite pobject_app by exact L. exact P.
Qed.

Theorem assign_same fuel os i j p ops os' vs : Regular copyData -> pobject os j = Some p -> run fuel os (PCopyAssign i j :: ops) = Some (os', vs) ->
  (Forall (fun o => ~ Changes i o) ops -> pobject os' i = Some p) /\
  (Forall (fun o => ~ Changes j o) ops -> pobject os' j = Some p).
Proof.
  intros R P H. assert (L := pobject_lt os j p P). cbn [prun pstep] in H. rewrite P in H. destruct (pobject os i) as [q|] eqn:Q; [|discriminate]. assert (Li := pobject_lt os i q Q).
  assert (C : copyPipe copyData p = p) by (unfold copyPipe; rewrite R; destruct p; reflexivity). rewrite C in H.
  destruct (run fuel (replace os i (Some p)) ops) as [[os2 vs2]|] eqn:E; [|discriminate]. injection H as H _. subst os2. split; intros F.
  - rewrite (run_frame _ _ _ _ _ i E) by (rewrite ?length_replace; (exact Li || exact F)). apply pobject_same. exact Li.
  - rewrite (run_frame _ _ _ _ _ j E) by (rewrite ?length_replace; (exact L || exact F)).
    destruct (Nat.eq_dec i j) as [->|N]; [apply pobject_same; exact L|rewrite pobject_other by exact N; exact P].
Qed.

Theorem move_same fuel os i p ops os' vs : pobject os i = Some p -> run fuel os (PMove i :: ops) = Some (os', vs) ->
  (Forall (fun o => ~ Changes (length os) o) ops -> pobject os' (length os) = Some p) /\
  (Forall (fun o => ~ Changes i o) ops -> pobject os' i = Some (movedPipe movedData leftover p)).
Proof.
  intros P H. assert (L := pobject_lt os i p P). cbn [prun pstep] in H. rewrite P in H.
  destruct (run fuel (replace os i (Some (movedPipe movedData leftover p)) ++ [Some p]) ops) as [[os2 vs2]|] eqn:E; [|discriminate]. injection H as H _. subst os2. split; intros F.
  - rewrite (run_frame _ _ _ _ _ (length os) E) by (rewrite ?app_length, ?length_replace; cbn; (lia || exact F)).
    replace (length os) with (length (replace os i (Some (movedPipe movedData leftover p)))) by apply length_replace. apply pobject_last.
  - rewrite (run_frame _ _ _ _ _ i E) by (rewrite ?app_length, ?length_replace; cbn; (lia || exact F)). rewrite pobject_app by (rewrite length_replace; exact L). apply pobject_same. exact L.
Qed.

Theorem move_assign_same fuel os i j p ops os' vs : pobject os j = Some p -> run fuel os (PMoveAssign i j :: ops) = Some (os', vs) ->
  (Forall (fun o => ~ Changes i o) ops -> pobject os' i = Some p) /\
  (Forall (fun o => ~ Changes j o) ops -> pobject os' j = Some (movedPipe movedData leftover p)).
Proof.
  intros P H. assert (L := pobject_lt os j p P). cbn [prun pstep] in H. rewrite P in H. destruct (pobject os i) as [q|] eqn:Q; [|discriminate]. assert (Li := pobject_lt os i q Q).
  destruct (Nat.eqb i j) eqn:N; [discriminate|]. apply Nat.eqb_neq in N.
  destruct (run fuel (replace (replace os i (Some p)) j (Some (movedPipe movedData leftover p))) ops) as [[os2 vs2]|] eqn:E; [|discriminate]. injection H as H _. subst os2. split; intros F.
  - rewrite (run_frame _ _ _ _ _ i E) by (rewrite ?length_replace; (exact Li || exact F)). rewrite pobject_other by auto. apply pobject_same. exact Li.
  - rewrite (run_frame _ _ _ _ _ j E) by (rewrite ?length_replace; (exact L || exact F)). apply pobject_same. rewrite length_replace. exact L.
Qed.

Lemma step_length fuel os o os' vs : step fuel os o = Some (os', vs) -> (length os <= length os')%nat.
Proof.
  intros H. destruct o as [d|k s|k|k|k|k j|k j|k]; cbn [pstep] in H;
    try (destruct (pobject os k) as [p|]; [|discriminate]); try (destruct (pobject os j) as [q|]; [|discriminate]);
    try (destruct (get _ _ _ _ _ _) as [[p' v]|]; [|discriminate]); try (destruct (Nat.eqb k j); [discriminate|]);
    injection H as H _; subst os'; rewrite ?app_length, ?length_replace; cbn; lia.
Qed.

Lemma step_values fuel os o os' vs k : step fuel os o = Some (os', vs) -> (forall s, o <> PGet k s) -> valuesOf k vs = [] /\ stepsOf k [o] = [].
Proof.
  intros H N. destruct o as [d|i s|i|i|i|i j|i j|i]; cbn [pstep] in H;
    try (destruct (pobject os i) as [p|]; [|discriminate]); try (destruct (pobject os j) as [q|]; [|discriminate]);
    try (destruct (get _ _ _ _ _ _) as [[p' v]|]; [|discriminate]); try (destruct (Nat.eqb i j); [discriminate|]);
    injection H as _ H; subst vs; try (split; reflexivity).
  unfold valuesOf, stepsOf. cbn [filter fst flat_map]. destruct (Nat.eqb_spec i k) as [->|Z0]; [exfalso; apply (N s); reflexivity|]. split; reflexivity.
Qed.

(** Whatever is done with the other pipelines, each one gives the values it would give alone. *)
Theorem run_alone fuel os ops os' vs k p : pobject os k = Some p -> OnlyGets k ops -> run fuel os ops = Some (os', vs) ->
  exists p', gets prerequisites doEvaluate doGet fuel (stepsOf k ops) p = Some (p', valuesOf k vs) /\ pobject os' k = Some p'.
Proof.
  revert os p vs. induction ops as [|o ops IH]; intros os p vs P O H; cbn [prun] in H.
  { injection H as H1 H2. subst. exists p. split; [reflexivity|exact P]. }
  destruct (step fuel os o) as [[os1 vs1]|] eqn:E; [|discriminate]. destruct (run fuel os1 ops) as [[os2 vs2]|] eqn:E2; [|discriminate]. injection H as H1 H2. subst os2 vs.
  assert (L := pobject_lt os k p P). assert (O' : OnlyGets k ops) by (intros x X; apply O; right; exact X).
  assert (V0 : valuesOf k (vs1 ++ vs2) = valuesOf k vs1 ++ valuesOf k vs2) by (unfold valuesOf; rewrite filter_app, map_app; reflexivity). rewrite V0.
  assert (S0 : stepsOf k (o :: ops) = stepsOf k [o] ++ stepsOf k ops) by (unfold stepsOf; cbn [flat_map]; rewrite app_nil_r; reflexivity). rewrite S0.
  assert (Dec : (exists s, o = PGet k s) \/ forall s, o <> PGet k s).
  { destruct o as [d|i s|i|i|i|i j|i j|i]; try (right; intros; discriminate). destruct (Nat.eq_dec i k) as [->|N]; [left; eexists; reflexivity|right; congruence]. }
  destruct Dec as [[s X0]|N]; [subst o|].
  - cbn [pstep] in E. rewrite P in E. destruct (get prerequisites doEvaluate doGet fuel s p) as [[p1 v]|] eqn:G; [|discriminate]. injection E as E3 E4. subst os1 vs1.
    destruct (IH (replace os k (Some p1)) p1 vs2) as [p' [G' P']]; [apply pobject_same; exact L|exact O'|exact E2|]. exists p'. split; [|exact P'].
    unfold stepsOf at 1. unfold valuesOf at 1. cbn [flat_map filter map fst snd app]. rewrite Nat.eqb_refl. cbn [app map snd]. cbn [gets]. rewrite G, G'. reflexivity.
  - destruct (step_values fuel os o os1 vs1 k E N) as [A B]. rewrite A, B. cbn [app]. apply (IH os1 p vs2); [|exact O'|exact E2].
    rewrite <- P. apply (step_frame fuel os o os1 vs1 k E L). intros C. destruct (O o (or_introl eq_refl) C) as [s X]. apply (N s). exact X.
Qed.

Theorem copy_alone fuel os i p ops os' vs : Regular copyData -> pobject os i = Some p -> run fuel os (PCopy i :: ops) = Some (os', vs) ->
  forall k, k = i \/ k = length os -> OnlyGets k ops ->
  exists p', gets prerequisites doEvaluate doGet fuel (stepsOf k ops) p = Some (p', valuesOf k vs) /\ pobject os' k = Some p'.
Proof.
  intros R P H k K O. assert (L := pobject_lt os i p P). cbn [prun pstep] in H. rewrite P in H.
  destruct (run fuel (os ++ [Some (copyPipe copyData p)]) ops) as [[os2 vs2]|] eqn:E; [|discriminate]. injection H as H1 H2. subst os2 vs. cbn [app].
  apply (run_alone fuel _ ops os' vs2 k p) in E; [exact E| |exact O].
  destruct K as [K|K]; subst k; [rewrite pobject_app by exact L; exact P|]. rewrite pobject_last. f_equal. unfold copyPipe. rewrite R. destruct p; reflexivity.
Qed.

(** If moves leave std::map empty, the source of a move has no evaluated step. *)
Theorem moved_evaluated (p : @pipe D) : leftover (milli p) = [] ->
  (forall s, evaluated (movedPipe movedData leftover p) s = false /\ milliseconds (movedPipe movedData leftover p) s = (-1)%Q) /\
  totalMilliseconds (movedPipe movedData leftover p) = 0%Q /\ data (movedPipe movedData leftover p) = movedData (data p).
Proof. intros E. unfold evaluated, milliseconds, totalMilliseconds. cbn [movedPipe milli data]. rewrite E. cbn [find fold_left]. repeat split. Qed.
End Copies.

(** If they do not, a value which was moved away is taken for an evaluated one. *)
Theorem moved_stale : exists os, 
  prun (fun _ => []) doubleEvaluate doubleGet (fun d => d) cleared (fun m => m) 1 [] [PNew (21, 0); PGet 0 0; PMove 0; PGet 1 0; PGet 0 0] = Some (os, [(0%nat, Some 42); (1%nat, Some 42); (0%nat, Some 0)]) /\
  exists p, pobject os 0 = Some p /\ evaluated p 0 = true /\ calls p = [(0%nat, Some 1%Q)].
Proof. eexists. split; [vm_compute; reflexivity|]. eexists. split; [reflexivity|]. split; reflexivity. Qed.

(** And if copies of the data are not equal to them, so are the values of the copy: here those of the copy are lost, but are not evaluated again. *)
Theorem copy_irregular : exists os, 
  prun (fun _ => []) doubleEvaluate doubleGet cleared (fun d => d) (fun m => m) 1 [] [PNew (21, 0); PGet 0 0; PCopy 0; PGet 1 0] = Some (os, [(0%nat, Some 42); (1%nat, Some 0)]) /\
  exists p, pobject os 1 = Some p /\ evaluated p 0 = true.
Proof. eexists. split; [vm_compute; reflexivity|]. eexists. split; [reflexivity|]. reflexivity. Qed.
