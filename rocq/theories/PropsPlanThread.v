(** Property C118: plans executed in parallel. [runAll (fun s o => ~ Reassigns s o) pstart ops s] is any history of plans and rasters in which
    the buffers of plans are not reassigned through in() or out(); the programs are those of fftw_execute (PlanThreadModel). *)
From Verif Require Import Res DftModel AlignedModel AlignedSpec PlanModel PlanSpec PlanProofs PlanUseProofs PlanThreadModel PlanThreadSpec PlanThreadProofs.

(** C118. Plans with no common byte do not interfere. *)
Theorem C118_apart : forall fs ps m, Forall2 Within fs ps ->
  (forall i j f g, nth_error fs i = Some f -> nth_error fs j = Some g -> i <> j -> Apart f g) -> Independent fs ps m.
Proof. exact parallel. Qed.
Print Assumptions C118_apart.
Example C118_apart_met :
  let fs := [mkFftw 16 8 24 8; mkFftw 32 8 32 8] in
  let ps := map firstByte fs in
  Forall2 Within fs ps /\ (forall i j f g, nth_error fs i = Some f -> nth_error fs j = Some g -> i <> j -> Apart f g) /\
  interleaving (mkPool (fun a => a) ps) [0; 1; 1; 0]%nat (mkPool (upd (upd (fun a => a) 32 32) 24 16) [Done; Done]).
Proof.
  cbn zeta. split; [|split].
  - repeat constructor; cbn; unfold InArrays; cbn; lia.
  - intros [|[|i]] [|[|j]] f g; cbn; try (destruct i; discriminate); try (destruct j; discriminate); try congruence;
      intros [= <-] [= <-] _ a; unfold InArrays; cbn; lia.
  - do 4 (eapply inter_cons; [reflexivity|cbn [threads pmem]]). apply inter_nil.
Qed.

(** The arrays of distinct plans which own them have no common byte. *)
Theorem C118_own : forall ops s i j f g, runAll (fun s o => ~ Reassigns s o) pstart ops s -> i <> j ->
  OwnPlan s i f -> OwnPlan s j g -> Apart f g.
Proof. exact own_apart. Qed.
Print Assumptions C118_own.
Example C118_own_met : runAll (fun s o => ~ Reassigns s o) pstart [newReal; newReal] twoPlans /\
  OwnPlan twoPlans 0 (mkFftw 4160 48 8256 96) /\ OwnPlan twoPlans 1 (mkFftw 12352 48 16448 96).
Proof. split; [exact two_history|exact two_own]. Qed.

(** Hence plans which own their arrays can be executed in parallel, whatever the order of their accesses: same result as one by one. *)
Theorem C118_parallel : forall ops s is fs ps m, runAll (fun s o => ~ Reassigns s o) pstart ops s -> NoDup is ->
  Forall2 (OwnPlan s) is fs -> Forall2 Within fs ps -> Independent fs ps m.
Proof. exact own_parallel. Qed.
Print Assumptions C118_parallel.
Example C118_parallel_met : runAll (fun s o => ~ Reassigns s o) pstart [newReal; newReal] twoPlans /\ NoDup [0; 1]%nat /\
  Forall2 (OwnPlan twoPlans) [0; 1]%nat [mkFftw 4160 48 8256 96; mkFftw 12352 48 16448 96] /\
  Forall2 Within [mkFftw 4160 48 8256 96; mkFftw 12352 48 16448 96] (map firstByte [mkFftw 4160 48 8256 96; mkFftw 12352 48 16448 96]).
Proof.
  split; [exact two_history|]. split; [repeat constructor; cbn; intuition discriminate|]. split.
  - constructor; [exact (proj1 two_own)|]. constructor; [exact (proj2 two_own)|constructor].
  - repeat constructor; cbn; unfold InArrays; cbn; lia.
Qed.

(** Two threads race in some interleaving as soon as one of them writes a byte which the other one accesses. *)
Theorem C118_conflict : forall m ps i j p q lp lq a w w', nth_error ps i = Some p -> nth_error ps j = Some q -> i <> j ->
  Performs p lp -> Performs q lq -> In (a, w) lp -> In (a, w') lq -> w || w' = true ->
  exists sched s, interleaving (mkPool m ps) sched s /\ Race s.
Proof. exact conflict_races. Qed.
Print Assumptions C118_conflict.
Example C118_conflict_met : let f := mkFftw 16 8 24 8 in let g := mkFftw 24 8 32 8 in
  Performs (firstByte f) [(16, false); (24, true)] /\ Performs (firstByte g) [(24, false); (32, true)].
Proof. cbn zeta. split; constructor; intros v; repeat constructor. Qed.

(** The inverse of a plan shares its arrays: input and output are exchanged. *)
Theorem C118_inverse_shares : forall ops s i f s' q n g, runAll (fun s o => ~ Reassigns s o) pstart ops s -> OwnPlan s i f ->
  pstep s (PInverse i) (Ok s') -> planAt s' (length (plans s)) q -> dhandle q = Handle n -> nth_error (fftws s') n = Some (Some g) ->
  fwIn g = fwOut f /\ fwOut g = fwIn f /\ fwInBytes g = fwOutBytes f /\ fwOutBytes g = fwInBytes f /\ 0 < fwInBytes f /\ 0 < fwOutBytes f.
Proof. exact inverse_arrays. Qed.
Print Assumptions C118_inverse_shares.
Example C118_inverse_shares_met : runAll (fun s o => ~ Reassigns s o) pstart [newReal] onePlan /\ OwnPlan onePlan 0 (mkFftw 4160 48 8256 96) /\
  pstep onePlan (PInverse 0) (Ok withInverse) /\ planAt withInverse 1 (mkDplan InverseRealDft [2; 3] 2 3 (Handle 1)) /\
  nth_error (fftws withInverse) 1 = Some (Some (mkFftw 8256 96 4160 48)).
Proof. split; [exact one_history|]. split; [exact one_own|]. split; [exact inverse_step|]. split; reflexivity. Qed.

(** So a plan and its inverse cannot be executed in parallel: programs which only access the arrays of their plans race. *)
Theorem C118_inverse_refuted : forall ops s i f s' q n g m, runAll (fun s o => ~ Reassigns s o) pstart ops s -> OwnPlan s i f ->
  pstep s (PInverse i) (Ok s') -> planAt s' (length (plans s)) q -> dhandle q = Handle n -> nth_error (fftws s') n = Some (Some g) ->
  Within f (firstByte f) /\ Within g (firstByte g) /\
  exists sched s1, interleaving (mkPool m [firstByte f; firstByte g]) sched s1 /\ Race s1.
Proof. exact inverse_race. Qed.
Print Assumptions C118_inverse_refuted.
Example C118_inverse_refuted_met : runAll (fun s o => ~ Reassigns s o) pstart [newReal] onePlan /\ OwnPlan onePlan 0 (mkFftw 4160 48 8256 96) /\
  pstep onePlan (PInverse 0) (Ok withInverse) /\ planAt withInverse 1 (mkDplan InverseRealDft [2; 3] 2 3 (Handle 1)) /\
  nth_error (fftws withInverse) 1 = Some (Some (mkFftw 8256 96 4160 48)).
Proof. split; [exact one_history|]. split; [exact one_own|]. split; [exact inverse_step|]. split; reflexivity. Qed.

(** And the result may be that of no order: the bytes are swapped, while either order of execution leaves two equal bytes. *)
Theorem C118_swap_refuted : exists ops s i s' f g, runAll (fun s o => ~ Reassigns s o) pstart ops s /\ OwnPlan s i f /\ pstep s (PInverse i) (Ok s') /\
  fftws s' = [Some f; Some g] /\ Within f (firstByte f) /\ Within g (firstByte g) /\
  forall m, m (fwIn f) <> m (fwIn g) -> exists sched s1, interleaving (mkPool m [firstByte f; firstByte g]) sched s1 /\ Finished s1 /\
    pmem s1 (fwOut f) = m (fwIn f) /\ pmem s1 (fwOut g) = m (fwIn g) /\
    alone (firstByte g) (alone (firstByte f) m) (fwOut g) = m (fwIn f) /\ alone (firstByte f) (alone (firstByte g) m) (fwOut f) = m (fwIn g).
Proof. exact swapped. Qed.
Print Assumptions C118_swap_refuted.
