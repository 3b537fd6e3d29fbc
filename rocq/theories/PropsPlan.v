(** C81, C82: lifetimes of the DFT plans and of their buffers. *)
From Verif Require Import Res VecModel Spec DftModel DftSpec AlignedModel AlignedSpec AlignedProofs PlanModel PlanSpec PlanProofs PlanUseProofs.

(** C81. In all histories, an FFTW plan held by an object is alive and held by this object only. *)
Theorem C81_single_holder : forall ops s, prun pstart ops (Ok s) ->
  (forall i n, Holds s i n -> LiveFftw s n) /\ (forall i j n, Holds s i n -> Holds s j n -> i = j).
Proof. exact history_handles. Qed.
Print Assumptions C81_single_holder.
Example C81_single_holder_met : prun pstart [newReal; newReal] (Ok twoPlans) /\ Holds twoPlans 0 0 /\ Holds twoPlans 1 1.
Proof. split; [apply two_run, prun_nil|]. split; (eexists; split; reflexivity). Qed.

(** In all histories, operations on objects in scope have an outcome, and moves, assignments and destructions of plans and rasters
    are never undefined: FFTW plans and blocks are not destroyed twice. *)
Theorem C81_no_double_free : forall ops s o, prun pstart ops (Ok s) -> PValid s o ->
  (exists r, pstep s o r) /\
  (forall r, pstep s o r -> (exists s', r = Ok s') \/
     (r = UB /\ match o with PNew _ _ _ _ | PInverse _ | PCompose _ _ _ | PTransform _ | PAccess _ => True | _ => False end)).
Proof. exact history_progress. Qed.
Print Assumptions C81_no_double_free.
Example C81_no_double_free_met : prun pstart [newReal; newReal; PMoveAssign 0 1] (Ok assigned) /\ PValid assigned (PDestroy 0) /\ PValid assigned (PDestroy 1).
Proof.
  split; [apply two_run; eapply prun_ok; [exact assign_step|apply prun_nil]|]. split; (eexists; reflexivity).
Qed.

(** The blocks of the buffers of plans and rasters are allocated and have a single owner. *)
Theorem C81_buffers : forall ops s, prun pstart ops (Ok s) ->
  (exists mops, run 8 start mops (Ok (mem s))) /\
  (forall i p q, Owns (mem s) i p -> Allocated (mem s) p /\ ~ In p (user (mem s)) /\ (Owns (mem s) q p -> i = q)).
Proof. exact history_memory. Qed.
Print Assumptions C81_buffers.
Example C81_buffers_met : prun pstart [newReal; PInverse 0] (Ok withInverse) /\ Owns (mem withInverse) 0 4104.
Proof.
  split; [apply one_run; eapply prun_ok; [exact inverse_step|apply prun_nil]|]. eexists. split; [reflexivity|]. split; reflexivity.
Qed.

(** FFTW plans are all destroyed with the objects, as long as no plan which holds one is assigned by move. *)
Theorem C81_destroyed_partial : forall ops s, runAll (fun s o => ~ Overwrites s o) pstart ops s ->
  (forall n, LiveFftw s n <-> exists i, Holds s i n) /\ (NoPlan s -> forall n, ~ LiveFftw s n).
Proof. exact fftw_no_leak. Qed.
Print Assumptions C81_destroyed_partial.
Example C81_destroyed_partial_met : runAll (fun s o => ~ Overwrites s o) pstart [newReal; newReal] twoPlans.
Proof. eapply runAll_cons; [exact one_step|intros []|]. eapply runAll_cons; [exact two_step|intros []|]. apply runAll_nil. Qed.

(** Exactly these assignments lose FFTW plans. *)
Theorem C81_lost_plans : forall ops s, prun pstart ops (Ok s) -> (exists n, Lost s n) <-> runSome Overwrites pstart ops s.
Proof. exact fftw_leak_iff. Qed.
Print Assumptions C81_lost_plans.
Example C81_lost_plans_met : prun pstart [newReal; newReal; PMoveAssign 0 1; PDestroy 1; PDestroy 0] (Ok ended) /\ Lost ended 0.
Proof.
  split; [exact assigned_history|]. split; [eexists; reflexivity|]. intros [|[|[|i]]] (p & Hp & _); discriminate Hp.
Qed.

(** The blocks are leaked exactly by the moves of plans which own them, the move assignments to such plans,
    and the careless operations on rasters (C27). *)
Theorem C81_leaked_blocks : forall ops s, prun pstart ops (Ok s) -> (exists q, Leaked (mem s) q) <-> runSome PCareless pstart ops s.
Proof. exact memory_leak_iff. Qed.
Print Assumptions C81_leaked_blocks.
Example C81_leaked_blocks_met : prun pstart [newReal; newReal; PMoveAssign 0 1; PDestroy 1; PDestroy 0] (Ok ended) /\ PCareless twoPlans (PMoveAssign 0 1).
Proof.
  split; [exact assigned_history|]. split; [discriminate|]. eexists. exists 4104. split; [reflexivity|]. left. eexists. split; [reflexivity|]. split; reflexivity.
Qed.

(** Move assignment leaks: all the objects are destroyed, and an FFTW plan and two blocks remain. *)
Theorem C81_destroyed_refuted : exists ops s, prun pstart ops (Ok s) /\ NoPlan s /\ (forall k b, ~ alive (mem s) k b) /\
  (exists n, Lost s n) /\ exists q q', q <> q' /\ Leaked (mem s) q /\ Leaked (mem s) q'.
Proof. exact assignment_refutes. Qed.
Print Assumptions C81_destroyed_refuted.

(** Each successful call to complexDft, realDft, inverseComplexDft or inverseRealDft leaks exactly one block, which contains the data of the
    raster it returns and which the raster does not own; the FFTW plan is destroyed and other blocks are left as they were. *)
Theorem C81_functions_leak : forall ops s t normalized shape s', prun pstart ops (Ok s) -> PlanShape shape ->
  prun s (functionBody t normalized shape s) (Ok s') ->
  exists b q n, alive (mem s') (S (S (length (bufs (mem s))))) b /\ owns b = false /\
    q <= bdata b /\ bdata b + 8 * bsize b <= q + n /\
    (forall x, In x (live (mem s')) <-> x = (q, n) \/ In x (live (mem s))) /\ ~ Allocated (mem s) q /\ Leaked (mem s') q /\
    (forall f, LiveFftw s' f <-> LiveFftw s f).
Proof. exact functions_leak. Qed.
Print Assumptions C81_functions_leak.
Example C81_functions_leak_met : PlanShape [2; 3] /\ prun pstart (functionBody RealDft false [2; 3] pstart) (Ok afterRealDft).
Proof. split; [split; [split; [discriminate|repeat constructor]|reflexivity]|exact real_dft_run]. Qed.

(** Whatever is done afterwards, destruction of the raster included, this block is never freed. *)
Theorem C81_functions_leak_forever : forall ops s t normalized shape s' ops' s'', prun pstart ops (Ok s) -> PlanShape shape ->
  prun s (functionBody t normalized shape s) (Ok s') -> prun s' ops' (Ok s'') ->
  exists b q, alive (mem s') (S (S (length (bufs (mem s))))) b /\ owns b = false /\ q <= bdata b /\ ~ Allocated (mem s) q /\ Leaked (mem s'') q.
Proof. exact functions_leak_forever. Qed.
Print Assumptions C81_functions_leak_forever.
Example C81_functions_leak_forever_met : exists s'', prun afterRealDft [PBuffer (ODestroy 2)] (Ok s'').
Proof.
  eexists. eapply prun_ok; [|apply prun_nil]. eapply pstep_eq; [eapply pstep_buffer|].
  - intros k [= <-] (i & p & Hp & _). revert Hp. destruct i as [|[|i]]; discriminate.
  - eapply step_destroy. reflexivity.
  - vm_compute. reflexivity.
Qed.

Theorem C81_functions_refuted : exists t shape s b, PlanShape shape /\ prun pstart (functionBody t false shape pstart) (Ok s) /\ alive (mem s) 2 b /\ owns b = false /\
  exists s' q, pstep s (PBuffer (ODestroy 2)) (Ok s') /\ NoPlan s' /\ (forall k b, ~ alive (mem s') k b) /\ Leaked (mem s') q.
Proof. exact function_refutes. Qed.
Print Assumptions C81_functions_refuted.

(** C82. transform() is defined exactly if the object holds an FFTW plan whose data are allocated. *)
Theorem C82_transform : forall s i p r, planAt s i p -> pstep s (PTransform i) r <->
  ((Transformable s p /\ r = Ok s) \/ (~ Transformable s p /\ r = UB)).
Proof. exact transform_outcome. Qed.
Print Assumptions C82_transform.
Example C82_transform_met : planAt onePlan 0 (mkDplan RealDft [2; 3] 0 1 (Handle 0)) /\ Transformable onePlan (mkDplan RealDft [2; 3] 0 1 (Handle 0)).
Proof.
  split; [reflexivity|]. exists 0%nat. eexists. split; [reflexivity|]. split; [reflexivity|]. cbn [fwIn fwInBytes fwOut fwOutBytes].
  split; [exists 4104, 111|exists 8200, 159]; (split; [cbn; auto|]); lia.
Qed.

(** The elements of in() and out(), as those of any raster, can be accessed exactly if they are allocated. *)
Theorem C82_access : forall s k b r, alive (mem s) k b -> pstep s (PAccess k) r <->
  (((bsize b = 0 \/ Readable s (bdata b) (8 * bsize b)) /\ r = Ok s) \/ (~ (bsize b = 0 \/ Readable s (bdata b) (8 * bsize b)) /\ r = UB)).
Proof. exact access_outcome. Qed.
Print Assumptions C82_access.
Example C82_access_met : exists b, alive (mem onePlan) 0 b /\ bsize b = 6 /\ Readable onePlan (bdata b) (8 * bsize b).
Proof. eexists. split; [reflexivity|]. split; [reflexivity|]. exists 4104, 111. split; [cbn; auto|]. cbn. lia. Qed.

(** As long as the buffers are not assigned through in() and out(), transform() reads in() and writes out(), all of them and nothing else,
    in all histories, including moves and moves by assignment. *)
Theorem C82_in_out_partial : forall ops s i p, runAll (fun s o => ~ Reassigns s o) pstart ops s -> planAt s i p -> Synced s p.
Proof. exact history_synced. Qed.
Print Assumptions C82_in_out_partial.
Example C82_in_out_partial_met : runAll (fun s o => ~ Reassigns s o) pstart [newReal; newReal; PMoveAssign 0 1] assigned /\
  planAt assigned 0 (mkDplan RealDft [2; 3] 0 1 (Handle 1)).
Proof.
  split; [|reflexivity]. eapply runAll_cons; [exact one_step|intros []|]. eapply runAll_cons; [exact two_step|intros []|].
  eapply runAll_cons; [exact assign_step|intros []|]. apply runAll_nil.
Qed.

(** A plan which allocated its buffers can be used until it is moved or destroyed, whatever the operations on other objects. *)
Theorem C82_usable_partial : forall ops s t shape s1 n ops' s2, prun pstart ops (Ok s) -> PlanShape shape -> pstep s (PNew t shape 0 0) (Ok s1) ->
  Holds s1 (length (plans s)) n ->
  runAll (Untouched (length (plans s)) (length (bufs (mem s))) (S (length (bufs (mem s))))) s1 ops' s2 ->
  forall r, pstep s2 (PTransform (length (plans s))) r <-> r = Ok s2.
Proof. exact plan_usable. Qed.
Print Assumptions C82_usable_partial.
Example C82_usable_partial_met : prun pstart [] (Ok pstart) /\ PlanShape [2; 3] /\ pstep pstart newReal (Ok onePlan) /\ Holds onePlan 0 0 /\
  runAll (Untouched 0 0 1) onePlan [newReal] twoPlans.
Proof.
  split; [apply prun_nil|]. split; [split; [split; [discriminate|repeat constructor]|reflexivity]|]. split; [exact one_step|]. split; [eexists; split; reflexivity|].
  eapply runAll_cons; [exact two_step|split; [intros []|split; intros []]|]. apply runAll_nil.
Qed.

(** The inverse of a plan can be used as long as the inverse is not moved or destroyed, nor the buffers of the direct plan. *)
Theorem C82_inverse_partial : forall ops s t shape s1 n ops1 s2 s3 n' ops2 s4, prun pstart ops (Ok s) -> PlanShape shape -> pstep s (PNew t shape 0 0) (Ok s1) ->
  Holds s1 (length (plans s)) n ->
  runAll (Untouched (length (plans s)) (length (bufs (mem s))) (S (length (bufs (mem s))))) s1 ops1 s2 ->
  pstep s2 (PInverse (length (plans s))) (Ok s3) -> Holds s3 (length (plans s2)) n' ->
  runAll (Untouched (length (plans s2)) (length (bufs (mem s))) (S (length (bufs (mem s))))) s3 ops2 s4 ->
  forall r, pstep s4 (PTransform (length (plans s2))) r <-> r = Ok s4.
Proof. exact inverse_usable. Qed.
Print Assumptions C82_inverse_partial.
Example C82_inverse_partial_met : pstep onePlan (PInverse 0) (Ok withInverse) /\ Holds withInverse 1 1 /\ runAll (Untouched 1 0 1) withInverse [] withInverse.
Proof. split; [exact inverse_step|]. split; [eexists; split; reflexivity|apply runAll_nil]. Qed.
(** The documented restriction is necessary: after the destruction of the direct plan, transform() of the inverse plan is undefined. *)
Example C82_inverse_dangling : exists s', prun pstart [newReal; PInverse 0; PDestroy 0] (Ok s') /\
  pstep withInverse (PTransform 1) (Ok withInverse) /\ pstep s' (PTransform 1) UB.
Proof. exact inverse_dangles. Qed.

(** The assignment of a raster to in() or out() (same size, both owners): FFTW still reads or writes the former block, which is leaked. *)
Theorem C82_assignment : forall ops s i p n f k kk b c s' b', prun pstart ops (Ok s) -> planAt s i p -> dhandle p = Handle n -> nth_error (fftws s) n = Some (Some f) ->
  ((k = din p /\ fwIn f = bdata b) \/ (k = dout p /\ fwOut f = bdata b)) ->
  alive (mem s) k b -> owns b = true -> bas b = 64 -> k <> kk -> alive (mem s) kk c -> owns c = true -> bas c = 64 ->
  bsize c = bsize b -> 0 < bsize b -> 8 * bsize b + 63 < 2 ^ 64 ->
  pstep s (PBuffer (OCopyAssign k kk)) (Ok s') -> alive (mem s') k b' -> owns b' = true ->
  planAt s' i p /\ nth_error (fftws s') n = Some (Some f) /\ bdata b' <> bdata b /\ ~ Synced s' p /\ Leaked (mem s') (bcont b).
Proof. exact assignment_desynchronizes. Qed.
Print Assumptions C82_assignment.
Example C82_assignment_met : prun pstart [newReal; PBuffer (ONew 6 0 0)] (Ok withRaster) /\ pstep withRaster (PBuffer (OCopyAssign 0 2)) (Ok inAssigned) /\
  alive (mem withRaster) 0 (mkBuffer 6 64 4104 4160) /\ alive (mem inAssigned) 0 (mkBuffer 6 64 16392 16448).
Proof.
  split; [apply one_run; eapply prun_ok; [exact raster_step|apply prun_nil]|]. split; [exact in_assign_step|]. split; reflexivity.
Qed.

Theorem C82_in_out_refuted : exists ops s i p, prun pstart ops (Ok s) /\ planAt s i p /\ pstep s (PTransform i) (Ok s) /\ ~ Synced s p.
Proof. exact in_assignment_refutes. Qed.
Print Assumptions C82_in_out_refuted.

(** transform() of a moved plan is undefined. *)
Theorem C82_transform_refuted : exists ops s i, prun pstart ops (Ok s) /\ PValid s (PTransform i) /\ forall r, pstep s (PTransform i) r -> r = UB.
Proof. exact moved_transform_refutes. Qed.
Print Assumptions C82_transform_refuted.
