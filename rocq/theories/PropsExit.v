(** C119: the end of programs which use the discrete Fourier transform. *)
From Verif Require Import Res ExitModel ExitSpec ExitProofs.

(** Whichever way the program ends, FFTW's plans are used and destroyed before fftw_cleanup() only if and only if the objects of static storage
    duration which hold plans or make transforms in their destructor were constructed after the first plan. *)
Theorem C119_end : forall acs p returns, acts begin acs = Some p ->
  Ordered (statics p) <-> exists tr, finish p returns = Ok tr /\ Proper tr.
Proof. exact end_iff. Qed.
Print Assumptions C119_end.

Example C119_end_met : exists p tr,
  acts begin [AStatic false; AStaticPlan true; AStatic false; ALocal; ATransform 1; ALocal; AMove 0 3; AEndLocal; AClear 2] = Some p /\
  statics p = [Object [] false; Allocator; Object [] true; Object [2%nat] false] /\ finish p true = Ok tr.
Proof. eexists. eexists. split; [vm_compute; reflexivity|]. split; vm_compute; reflexivity. Qed.

(** In this case, if main() returns, each plan is destroyed except those which others were assigned to, and fftw_cleanup() is called last, once. *)
Theorem C119_clean : forall acs p, acts begin acs = Some p -> Ordered (statics p) ->
  exists tr, finish p true = Ok tr /\ Proper tr /\ CleanBut (lost begin acs) tr.
Proof. exact end_clean. Qed.
Print Assumptions C119_clean.

Example C119_clean_met : exists p, acts begin [AStatic false; AStaticPlan true; ALocal; ATransform 1] = Some p /\ Ordered (statics p) /\
  finish p true = Ok [Create 0; Create 1; Execute 1; Destroy 1; Create 2; Execute 2; Destroy 2; Destroy 0; Cleanup].
Proof.
  eexists. split; [vm_compute; reflexivity|]. split; [|vm_compute; reflexivity]. split.
  - intros [|a [|b [|c [|d l1]]]] ps u l2 E X; try discriminate E.
    + injection E as <- <- _. auto.
    + injection E as _ _ <- <- <-. destruct X.
  - intros X. destruct X. cbn. auto.
Qed.

(** All the plans are destroyed if there are no assignments... *)
Theorem C119_no_assignment : forall acs p, (forall i j, ~ In (AAssign i j) acs) -> lost p acs = [].
Proof. exact lost_none. Qed.
Print Assumptions C119_no_assignment.
Example C119_no_assignment_met : forall i j, ~ In (AAssign i j) [ALocal; ALocal; AStatic false; AMove 0 1; ATransform 0; AEndLocal].
Proof. intros i j H. cbn in H. intuition discriminate. Qed.

(** ... otherwise, some remain. *)
Theorem C119_assign_refuted : exists p, acts begin [ALocal; ALocal; AAssign 0 1] = Some p /\ finish p true = Ok [Create 0; Create 1; Destroy 0; Cleanup] /\
  lost begin [ALocal; ALocal; AAssign 0 1] = [1%nat].
Proof. exact assign_not. Qed.
Print Assumptions C119_assign_refuted.

(** Whichever way it ends properly, fftw_cleanup() is the last call and is not repeated, and there is none if there was no other call. *)
Theorem C119_cleanup : forall acs p returns tr, acts begin acs = Some p -> finish p returns = Ok tr -> Proper tr ->
  tr = [] \/ exists tr', tr = tr' ++ [Cleanup] /\ ~ In Cleanup tr'.
Proof. exact end_cleanup. Qed.
Print Assumptions C119_cleanup.

Example C119_cleanup_met : exists p, acts begin [ALocal] = Some p /\ finish p false = Ok [Create 0; Cleanup].
Proof. eexists. split; reflexivity. Qed.

(** So is it if a plan is constructed before all the objects of static storage duration which may hold plans or make transforms -- e.g. if there is
    none, or if the program starts with a dummy plan --, whatever is done afterwards. *)
Theorem C119_first : forall acs p, PlanFirst acs -> acts begin acs = Some p ->
  exists tr, finish p true = Ok tr /\ Proper tr /\ CleanBut (lost begin acs) tr.
Proof. exact first_clean. Qed.
Print Assumptions C119_first.

Example C119_first_met : exists p, PlanFirst [ALocal; AEndLocal; AStatic true; AStatic true; ALocal; AMove 0 2] /\
  acts begin [ALocal; AEndLocal; AStatic true; AStatic true; ALocal; AMove 0 2] = Some p.
Proof.
  eexists. split; [|reflexivity]. intros [|a l1] u l2 E; [discriminate|]. injection E as <- _. exists ALocal. split; [left; reflexivity|left; reflexivity].
Qed.

(** The same with std::exit(), which does not destroy the plans of automatic storage duration. *)
Theorem C119_first_exit : forall acs p, PlanFirst acs -> acts begin acs = Some p -> exists tr, finish p false = Ok tr /\ Proper tr.
Proof. exact first_exit. Qed.
Print Assumptions C119_first_exit.
Example C119_first_exit_met : exists p, PlanFirst [ALocal; AStatic true; ALocal; AAssign 1 0] /\ acts begin [ALocal; AStatic true; ALocal; AAssign 1 0] = Some p /\
  finish p false = Ok [Create 0; Create 1; Create 2; Execute 2; Destroy 2; Cleanup].
Proof.
  eexists. split; [|split; reflexivity]. intros [|a l1] u l2 E; [discriminate|]. injection E as <- _. exists ALocal. split; [left; reflexivity|left; reflexivity].
Qed.

(** Refuted in general: an object of static storage duration, e.g. an optional plan, constructed before the first plan and to which this plan is moved,
    destroys it after fftw_cleanup(). *)
Theorem C119_holder_refuted : exists p tr, acts begin [AStatic false; ALocal; AMove 0 0] = Some p /\ finish p true = Ok tr /\ ~ Proper tr.
Proof. exact holder_not. Qed.
Print Assumptions C119_holder_refuted.

(** An object constructed before the first plan and whose destructor makes a transform: the allocator is used after its destruction. *)
Theorem C119_user_refuted : exists p, acts begin [AStatic true; ALocal; AEndLocal] = Some p /\ finish p true = UB.
Proof. exact user_not. Qed.
Print Assumptions C119_user_refuted.

(** Two such objects, even if no plan was constructed before. *)
Theorem C119_users_refuted : exists p, acts begin [AStatic true; AStatic true] = Some p /\ finish p true = UB.
Proof. exact users_not. Qed.
Print Assumptions C119_users_refuted.
