(** Property C120: threads which create, execute and destroy plans and use their rasters. [runAll (fun s o => ~ Reassigns s o) pstart ops s] is any history of plans and
    rasters in which the buffers of plans are not reassigned through in() or out(); [globals] are the addresses of FFTW's global variables. *)
From Verif Require Import Res DftModel AlignedModel AlignedSpec PlanModel PlanSpec PlanProofs PlanUseProofs PlanThreadModel PlanThreadSpec PlanThreadProofs
  PlanWorkModel PlanWorkSpec PlanWorkProofs.

(** C120. Threads which access disjoint sets of bytes do not interfere. *)
Theorem C120_disjoint : forall As ps m, Forall2 WithinSet As ps ->
  (forall i j A B, nth_error As i = Some A -> nth_error As j = Some B -> i <> j -> forall a, A a -> ~ B a) -> IndependentSets As ps m.
Proof. exact PlanWorkProofs.parallel. Qed.
Print Assumptions C120_disjoint.
Example C120_disjoint_met : Forall2 WithinSet [eq 3; eq 5] [counting 3; counting 5] /\
  interleaving (mkPool (fun a => a) [counting 3; counting 5]) [0; 1; 1; 0]%nat (mkPool (upd (upd (fun a => a) 5 6) 3 4) [Done; Done]).
Proof.
  split.
  - constructor; [|constructor; [|constructor]]; (constructor; [reflexivity|]; intros v; constructor; [reflexivity|constructor]).
  - do 4 (eapply inter_cons; [reflexivity|cbn [threads pmem]]). apply inter_nil.
Qed.

(** Hence threads which use different plans, and the inverses thereof, do not interfere if at most one of them creates or destroys plans. *)
Theorem C120_one_planner : forall ops s globals owners jobs m, runAll (fun s o => ~ Reassigns s o) pstart ops s -> NoDup (concat owners) ->
  Forall2 (Employs s globals) owners jobs -> OnePlanner jobs -> Elsewhere s globals ->
  IndependentSets (map (bytesOfAll globals) jobs) (map work jobs) m.
Proof. exact works_parallel. Qed.
Print Assumptions C120_one_planner.
Example C120_one_planner_met : let jobs := [[(Planning f0, counting 1); (Rasters f0, Store 4160 7 Done); (Transform f0, firstByte f0)];
    [(Transform f1, firstByte f1); (Rasters f1, Load 16448 (fun _ => Done))]] in
  runAll (fun s o => ~ Reassigns s o) pstart [newReal; newReal] twoPlans /\ NoDup (concat [[0]; [1]]%nat) /\
  Forall2 (Employs twoPlans (eq 1)) [[0]; [1]]%nat jobs /\ OnePlanner jobs /\ Elsewhere twoPlans (eq 1).
Proof.
  cbn zeta. split; [exact two_history|]. split; [repeat constructor; cbn; intuition discriminate|]. split; [exact two_employ|]. split; [exact two_planner|exact two_elsewhere].
Qed.

(** Each thread performs its tasks in turn. *)
Theorem C120_in_turn : forall l m, alone (work l) m = fold_left (fun m t => alone (snd t) m) l m.
Proof. exact work_alone. Qed.
Print Assumptions C120_in_turn.
Example C120_in_turn_met : alone (work [(Rasters f0, Store 4160 7 Done); (Transform f0, firstByte f0)]) (fun a => a) 8256 = 7.
Proof. reflexivity. Qed.

(** The inverse of a plan which owns its arrays accesses the same bytes: the same thread may use both. *)
Theorem C120_inverse : forall ops s i f s' q n g, runAll (fun s o => ~ Reassigns s o) pstart ops s -> OwnPlan s i f ->
  pstep s (PInverse i) (Ok s') -> planAt s' (length (plans s)) q -> dhandle q = Handle n -> nth_error (fftws s') n = Some (Some g) ->
  forall a, InArrays g a <-> InArrays f a.
Proof. exact inverse_bytes. Qed.
Print Assumptions C120_inverse.
Example C120_inverse_met : runAll (fun s o => ~ Reassigns s o) pstart [newReal] onePlan /\ OwnPlan onePlan 0 (mkFftw 4160 48 8256 96) /\
  pstep onePlan (PInverse 0) (Ok withInverse) /\ planAt withInverse 1 (mkDplan InverseRealDft [2; 3] 2 3 (Handle 1)) /\
  nth_error (fftws withInverse) 1 = Some (Some (mkFftw 8256 96 4160 48)).
Proof. split; [exact one_history|]. split; [exact one_own|]. split; [exact inverse_step|]. split; reflexivity. Qed.

(** Two threads which create plans may race on any global variable, and its value may then be that of no order. *)
Theorem C120_planners_refuted : forall (globals : Z -> Prop) g f f' m, globals g ->
  WithinSet (bytesOf globals (Planning f)) (counting g) /\ WithinSet (bytesOf globals (Planning f')) (counting g) /\
  (exists sched s, interleaving (mkPool m [work [(Planning f, counting g)]; work [(Planning f', counting g)]]) sched s /\ Race s) /\
  exists sched s, interleaving (mkPool m [work [(Planning f, counting g)]; work [(Planning f', counting g)]]) sched s /\ Finished s /\ pmem s g = m g + 1 /\
    alone (counting g) (alone (counting g) m) g = m g + 2.
Proof. exact planners_race. Qed.
Print Assumptions C120_planners_refuted.
Example C120_planners_refuted_met : (fun a => 1000 <= a < 2000) 1234.
Proof. cbn. lia. Qed.

(** The creation of the inverse of a plan may race with the execution of the plan. *)
Theorem C120_inverse_refuted : forall ops s i f s' q n g m globals, runAll (fun s o => ~ Reassigns s o) pstart ops s -> OwnPlan s i f ->
  pstep s (PInverse i) (Ok s') -> planAt s' (length (plans s)) q -> dhandle q = Handle n -> nth_error (fftws s') n = Some (Some g) ->
  let executes := (Transform f, firstByte f) in let plans := (Planning g, firstByte g) in
  WithinSet (bytesOf globals (fst executes)) (snd executes) /\ WithinSet (bytesOf globals (fst plans)) (snd plans) /\
  exists sched s1, interleaving (mkPool m [work [executes]; work [plans]]) sched s1 /\ Race s1.
Proof. exact inverse_planning. Qed.
Print Assumptions C120_inverse_refuted.
Example C120_inverse_refuted_met : runAll (fun s o => ~ Reassigns s o) pstart [newReal] onePlan /\ OwnPlan onePlan 0 (mkFftw 4160 48 8256 96) /\
  pstep onePlan (PInverse 0) (Ok withInverse) /\ planAt withInverse 1 (mkDplan InverseRealDft [2; 3] 2 3 (Handle 1)) /\
  nth_error (fftws withInverse) 1 = Some (Some (mkFftw 8256 96 4160 48)).
Proof. split; [exact one_history|]. split; [exact one_own|]. split; [exact inverse_step|]. split; reflexivity. Qed.
