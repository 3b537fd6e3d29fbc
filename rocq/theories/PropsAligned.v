(** Properties C25 to C27: aligned buffers. [run elt start ops r] is any history of operations, with any outcome of
    each allocation; [elt] is the size in bytes of an element. *)
From Verif Require Import Res AlignedModel AlignedSpec AlignedStepSpec AlignedProofs AlignedStepProofs.

(** C25. An owning buffer, as constructed: the allocation failed (null data), or the elements lie in the block. *)
Theorem C25_owning : forall elt l size align k r,
  0 < elt -> 0 <= size -> 0 <= align < 2 ^ 64 -> 0 <= k < 64 -> Requirement false align (2 ^ k) ->
  elt * size + 2 ^ k - 1 < 2 ^ 64 -> construct elt l size 0 align r ->
  exists b l', r = Ok (b, l') /\ bsize b = size /\ bas b = 2 ^ k /\
    ((bcont b = 0 /\ bdata b = 0 /\ l' = l) \/
     (exists n, l' = (bcont b, n) :: l /\ Fresh l n (bcont b) /\ (2 ^ k | bdata b) /\
        bcont b <= bdata b /\ bdata b + elt * size <= bcont b + n)).
Proof. exact construct_owning_spec. Qed.
Print Assumptions C25_owning.
Example C25_owning_met : exists r, Requirement false 0 (2 ^ 6) /\ construct 8 [] 4 0 0 r.
Proof.
  eexists. split; [right; left; auto|]. eapply construct_owning; [reflexivity|].
  apply malloc_block, (Fresh_nil 95 4104); reflexivity.
Qed.

(** The same for any owner in any history: copies and assignments included. *)
Theorem C25_history : forall elt ops s i b k, run elt start ops (Ok s) -> alive s i b -> owns b = true ->
  0 < elt -> 0 <= bsize b -> 0 <= k < 64 -> bas b = 2 ^ k -> elt * bsize b + 2 ^ k - 1 < 2 ^ 64 ->
  exists n, In (bcont b, n) (live s) /\ (2 ^ k | bdata b) /\
    bcont b <= bdata b /\ bdata b + elt * bsize b <= bcont b + n.
Proof. exact history_aligned. Qed.
Print Assumptions C25_history.
Example C25_history_met : run 8 start [ONew 4 0 0; ONew 4 0 0] (Ok twoBuffers) /\
  alive twoBuffers 1 (mkBuffer 4 64 8200 8256).
Proof. split; [apply run_two, run_nil|reflexivity]. Qed.

(** A requirement which is not a power of two is not met by the allocation. *)
Theorem C25_not_power_of_two_refuted : exists r b l', construct 1 [] 5 0 3 r /\ r = Ok (b, l') /\
  bas b = 3 /\ bcont b <> 0 /\ ~ (3 | bdata b).
Proof. exact not_power_of_two. Qed.
Print Assumptions C25_not_power_of_two_refuted.

(** A sharing buffer keeps the pointer, or throws iff the pointer does not meet the requirement. *)
Theorem C25_shared : forall elt l size data align a r,
  0 < data < 2 ^ 64 -> 0 <= align < 2 ^ 64 -> Requirement true align a -> construct elt l size data align r ->
  ((a | data) /\ r = Ok (mkBuffer size a 0 data, l)) \/ (~ (a | data) /\ r = Throw EAlignment).
Proof. exact construct_shared_spec. Qed.
Print Assumptions C25_shared.
Example C25_shared_met : Requirement true 16 16 /\ (exists r, construct 8 [] 4 4104 16 r) /\ ~ (16 | 4104).
Proof.
  split; [right; right; lia|]. split; [eexists; apply construct_shared; lia|].
  intros D. apply Z.mod_divide in D; [discriminate|lia].
Qed.

Theorem C25_is_aligned : forall ptr a, 0 < ptr -> 0 < a -> exists b, isAligned ptr a = Ok b /\ (b = true <-> (a | ptr)).
Proof. exact isAligned_spec. Qed.
Print Assumptions C25_is_aligned.
Example C25_is_aligned_met : isAligned 4104 8 = Ok true /\ isAligned 4104 16 = Ok false /\ isAligned 0 8 = Throw ENullPtr.
Proof. repeat split; reflexivity. Qed.

(** The greatest power of two which divides the address. Missing: address 2^63, for which it fails. *)
Theorem C25_alignment_partial : forall ptr, 0 < ptr < 2 ^ 64 -> ptr <> 2 ^ 63 ->
  exists j, alignment 64 ptr = Some (Ok (2 ^ j)) /\ 0 <= j /\ (2 ^ j | ptr) /\ ~ (2 ^ (j + 1) | ptr).
Proof. exact alignment_spec. Qed.
Print Assumptions C25_alignment_partial.
Example C25_alignment_met : alignment 64 4104 = Some (Ok 8) /\ alignment 64 4105 = Some (Ok 1).
Proof. split; reflexivity. Qed.

Theorem C25_alignment_refuted : alignment 64 (2 ^ 63) = Some UB.
Proof. exact alignment_overflow. Qed.
Print Assumptions C25_alignment_refuted.

(** Exactly the null pointer is rejected by the alignment queries. *)
Theorem C25_null_pointer : forall ptr fuel, 0 <= ptr < 2 ^ 64 ->
  (alignment fuel ptr = Some (Throw ENullPtr) <-> ptr = 0) /\
  forall as_, isAligned ptr as_ = Throw ENullPtr <-> ptr = 0.
Proof. exact alignment_null. Qed.
Print Assumptions C25_null_pointer.
Example C25_null_pointer_met : 0 <= 0 < 2 ^ 64 /\ isAligned 0 16 = Throw ENullPtr /\ isAligned 24 16 = Ok false.
Proof. repeat split; try reflexivity; discriminate. Qed.

(** C26. No history frees a block which is not allocated ([UB]); a block has at most one owner, which makes it and
    the user the only ones to free it; an owned or released block is allocated. *)
Theorem C26_no_double_free : forall elt ops r, run elt start ops r ->
  exists s, r = Ok s /\
    (forall i p, Owns s i p -> Allocated s p /\ ~ In p (user s)) /\
    (forall i j p, Owns s i p -> Owns s j p -> i = j) /\
    (forall p, In p (user s) -> Allocated s p).
Proof. exact no_double_free. Qed.
Print Assumptions C26_no_double_free.
Example C26_no_double_free_met : exists r,
  run 8 start [ONew 4 0 0; ONew 4 0 0; OMove 0; ODestroy 0; ODestroy 1; ODestroy 2] r.
Proof. destruct leak_move as (s & H & _). eauto. Qed.

(** Each valid operation can run, does not change the buffers it does not apply to, and frees none of their blocks. *)
Theorem C26_step : forall elt ops s o, run elt start ops (Ok s) -> Valid s o ->
  (exists r, step elt s o r) /\
  forall r, step elt s o r -> exists s', r = Ok s' /\
    forall k b, alive s k b -> ~ Touches s o k ->
      alive s' k b /\ (owns b = true -> Allocated s' (bcont b)).
Proof. exact history_step. Qed.
Print Assumptions C26_step.
Example C26_step_met : run 8 start [ONew 4 0 0; ONew 4 0 0] (Ok twoBuffers) /\ Valid twoBuffers (OCopyAssign 0 1) /\
  alive twoBuffers 1 (mkBuffer 4 64 8200 8256) /\ ~ Touches twoBuffers (OCopyAssign 0 1) 1.
Proof.
  split; [apply run_two, run_nil|]. split; [split; eexists; reflexivity|]. split; [reflexivity|]. cbn. lia.
Qed.

(** What becomes of the buffers an operation applies to, in any history. *)
Theorem C26_operations : forall elt ops s o s', run elt start ops (Ok s) -> step elt s o (Ok s') -> Outcome s o s'.
Proof. exact operations. Qed.
Print Assumptions C26_operations.
Example C26_operations_met : run 8 start [ONew 4 0 0; ONew 4 0 0] (Ok twoBuffers) /\ Valid twoBuffers (OCopyAssign 0 1) /\
  exists s', step 8 twoBuffers (OMoveAssign 0 1) (Ok s') /\ alive s' 0 (mkBuffer 4 64 8200 8256) /\ alive s' 1 emptied.
Proof.
  split; [apply run_two, run_nil|]. split; [split; eexists; reflexivity|]. eexists. split; [|split].
  - exact (step_move_assign 8 twoBuffers 0 1 _ _ ltac:(discriminate) eq_refl eq_refl).
  - reflexivity.
  - reflexivity.
Qed.

(** C27. Histories leak: after a move construction, a move assignment to an owner or a copy assignment to an owner,
    a block is never freed although all the buffers are destroyed and none was released. *)
Theorem C27_move_refuted : exists s,
  run 8 start [ONew 4 0 0; ONew 4 0 0; OMove 0; ODestroy 0; ODestroy 1; ODestroy 2] (Ok s) /\
  AllDestroyed s /\ live s = [(4104, 95)] /\ user s = [].
Proof. exact leak_move. Qed.
Print Assumptions C27_move_refuted.
Theorem C27_move_assign_refuted : exists s,
  run 8 start [ONew 4 0 0; ONew 4 0 0; OMoveAssign 0 1; ODestroy 0; ODestroy 1] (Ok s) /\
  AllDestroyed s /\ live s = [(4104, 95)] /\ user s = [].
Proof. exact leak_move_assign. Qed.
Print Assumptions C27_move_assign_refuted.
Theorem C27_copy_assign_refuted : exists s,
  run 8 start [ONew 4 0 0; ONew 4 0 0; OCopyAssign 0 1; ODestroy 0; ODestroy 1] (Ok s) /\
  AllDestroyed s /\ live s = [(4104, 95)] /\ user s = [].
Proof. exact leak_copy_assign. Qed.
Print Assumptions C27_copy_assign_refuted.

(** Without those operations, no history leaks. Missing: the histories with them, for which it fails. *)
Theorem C27_no_leak_partial : forall elt ops s, carefulRun elt start ops s ->
  run elt start ops (Ok s) /\ (forall p, ~ Leaked s p) /\ (AllDestroyed s -> forall p, Allocated s p -> In p (user s)).
Proof. exact careful_no_leak. Qed.
Print Assumptions C27_no_leak_partial.
Example C27_no_leak_met : exists s,
  carefulRun 8 start [ONew 4 0 0; ONew 4 0 0; ORelease 0; OCopy 0; ODestroy 0; ODestroy 1; ODestroy 2] s /\
  AllDestroyed s /\ live s = [(4104, 95)] /\ user s = [4104].
Proof. exact careful_history. Qed.

(** Those operations are exactly what leaks. *)
Theorem C27_leak_iff : forall elt ops s, run elt start ops (Ok s) ->
  (exists p, Leaked s p) <-> carelessRun elt start ops s.
Proof. exact leak_iff. Qed.
Print Assumptions C27_leak_iff.
Example C27_leak_iff_met : exists s, run 8 start [ONew 4 0 0; ONew 4 0 0; OMoveAssign 0 1; ODestroy 0; ODestroy 1] (Ok s).
Proof. destruct leak_move_assign as (s & H & _). eauto. Qed.
