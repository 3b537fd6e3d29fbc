(** Property C92: the elements of aligned buffers. [DReachable elt d]: [d] is the state after any history of operations and writes, with any
    outcome of each allocation; [element elt d b k]: the element [k] of buffer [b], undefined (UB), indeterminate (Ok None) or a value. *)
From Verif Require Import Res AlignedModel AlignedSpec AlignedProofs AlignedDataModel AlignedDataSpec AlignedDataProofs.

(** A copy of an owner which returns owns its elements, which are those of the source; nothing else changes. *)
Theorem C92_copy : forall (A : Type) elt (d : dstate A) i b d', 0 < elt -> DReachable elt d -> alive (ast d) i b -> owns b = true ->
  Fits elt b -> 0 < bsize b -> dstep elt d (Buf (OCopy i)) (Ok d') -> exists c,
    bufs (ast d') = bufs (ast d) ++ [Some c] /\ owns c = true /\ bas c = bas b /\ SameElements elt d' c d b /\ Kept elt d d'.
Proof. exact (fun A elt d i b d' P R => copy_step elt P d i b d' (reachable_inv elt d R)). Qed.
Print Assumptions C92_copy.

(** The same for a copy assignment, which replaces the destination. *)
Theorem C92_copy_assign : forall (A : Type) elt (d : dstate A) i j b d', 0 < elt -> DReachable elt d -> i <> j -> alive (ast d) j b -> owns b = true ->
  Fits elt b -> 0 < bsize b -> dstep elt d (Buf (OCopyAssign i j)) (Ok d') -> exists c,
    bufs (ast d') = replace (bufs (ast d)) i (Some c) /\ alive (ast d') i c /\
    owns c = true /\ bas c = bas b /\ SameElements elt d' c d b /\ Kept elt d d'.
Proof. exact (fun A elt d i j b d' P R => copy_assign_step elt P d i j b d' (reachable_inv elt d R)). Qed.
Print Assumptions C92_copy_assign.

(** A move construction keeps the address of the elements and all the memory, and empties the source; but the new buffer is not an owner. *)
Theorem C92_move : forall (A : Type) elt (d : dstate A) i b r, DReachable elt d -> alive (ast d) i b -> dstep elt d (Buf (OMove i)) r ->
  exists d' c e, r = Ok d' /\ bufs (ast d') = replace (bufs (ast d)) i (Some e) ++ [Some c] /\
  bsize c = bsize b /\ bas c = bas b /\ bdata c = bdata b /\ owns c = false /\
  bsize e = 0 /\ bdata e = 0 /\ owns e = false /\ (forall a, look elt d' a = look elt d a).
Proof. exact (fun A elt d i b r R => move_step elt d i b r (reachable_inv elt d R)). Qed.
Print Assumptions C92_move.

(** A move assignment gives the destination all that the source was, and empties the source. *)
Theorem C92_move_assign : forall (A : Type) elt (d : dstate A) i j b c r, DReachable elt d -> i <> j -> alive (ast d) i b -> alive (ast d) j c ->
  dstep elt d (Buf (OMoveAssign i j)) r ->
  exists d' e, r = Ok d' /\ bufs (ast d') = replace (replace (bufs (ast d)) i (Some c)) j (Some e) /\
  bsize e = 0 /\ bdata e = 0 /\ owns e = false /\ (forall a, look elt d' a = look elt d a).
Proof. exact (fun A elt d i j b c r R => move_assign_step elt d i j b c r (reachable_inv elt d R)). Qed.
Print Assumptions C92_move_assign.

(** A write to an element of an owner is defined, is read back, and changes no other element of this owner and no element of another owner. *)
Theorem C92_write : forall (A : Type) elt (d : dstate A) i b k v, 0 < elt -> DReachable elt d -> alive (ast d) i b -> owns b = true ->
  Fits elt b -> 0 <= k < bsize b ->
  exists d', (forall r, dstep elt d (Write i k v) r <-> r = Ok d') /\ ast d' = ast d /\
    element elt d' b k = Ok (Some v) /\
    (forall k', k' <> k -> element elt d' b k' = element elt d b k') /\
    (forall j c k', j <> i -> alive (ast d) j c -> owns c = true -> Fits elt c -> 0 <= k' < bsize c -> element elt d' c k' = element elt d c k') /\
    (forall a, elt <= Z.abs (a - (bdata b + elt * k)) -> look elt d' a = look elt d a).
Proof. exact (fun A elt d i b k v P R => write_step elt P d i b k v (reachable_inv elt d R)). Qed.
Print Assumptions C92_write.

(** No operation on buffers changes what could be read, unless it frees the block where it is. *)
Theorem C92_kept : forall (A : Type) elt (d : dstate A) o d', 0 < elt -> DReachable elt d -> AllFit elt d -> dstep elt d (Buf o) (Ok d') ->
  forall a c, look elt d a = Ok c -> look elt d' a = Ok c \/ (look elt d' a = UB /\ Freed elt d o a).
Proof. exact (fun A elt d o d' P R => buf_step_kept elt P d o d' (reachable_inv elt d R)). Qed.
Print Assumptions C92_kept.

(** After an owner is reset or destroyed, its elements are not accessible any more, whichever buffer shares them; other owners keep theirs. *)
Theorem C92_dangling : forall (A : Type) elt (d : dstate A) i b o r, 0 < elt -> DReachable elt d -> alive (ast d) i b -> owns b = true ->
  Fits elt b -> (o = OReset i \/ o = ODestroy i) -> dstep elt d (Buf o) r -> exists d', r = Ok d' /\
    (forall k, 0 <= k < bsize b -> element elt d' b k = UB) /\
    (forall j c k, j <> i -> alive (ast d) j c -> owns c = true -> Fits elt c -> 0 <= k < bsize c ->
       alive (ast d') j c /\ element elt d' c k = element elt d c k).
Proof. exact (fun A elt d i b o r P R => free_step elt P d i b o r (reachable_inv elt d R)). Qed.
Print Assumptions C92_dangling.

(** The only undefined operations are accesses to elements which are not in an allocated block, and copies of non-empty owners. *)
Theorem C92_undefined : forall (A : Type) elt (d : dstate A) o, DReachable elt d -> AllFit elt d -> dstep elt d o UB ->
  (exists i k v b, o = Write i k v /\ alive (ast d) i b /\ element elt d b k = UB) \/
  (exists i b, (o = Buf (OCopy i) \/ exists j, j <> i /\ o = Buf (OCopyAssign j i)) /\ alive (ast d) i b /\ owns b = true /\ 0 < bsize b).
Proof. exact (fun A elt d o R => undefined_step elt d o (reachable_inv elt d R)). Qed.
Print Assumptions C92_undefined.

(** The latter are undefined because the allocation is not checked: whenever there is an owner with elements, copying it may be undefined. *)
Theorem C92_copy_refuted : forall (A : Type) elt (d : dstate A) i b, 0 < elt -> DReachable elt d -> alive (ast d) i b -> owns b = true ->
  Fits elt b -> 0 < bsize b -> dstep elt d (Buf (OCopy i)) UB.
Proof. exact (fun A elt d i b P R => copy_fails elt P d i b (reachable_inv elt d R)). Qed.
Print Assumptions C92_copy_refuted.

(** AlignedRaster a({4}); the constructor returns although the allocation failed: the raster has 4 pixels, none of which can be accessed. *)
Theorem C92_allocation_refuted : exists d b, drun 8 nothing [Buf (ONew 4 0 0)] (Ok d) /\ alive (ast d) 0 b /\ bsize b = 4 /\
  (forall k, 0 <= k < 4 -> element 8 d b k = UB) /\ forall v, dstep 8 d (Write 0 0 v) UB.
Proof. exact failed_new. Qed.
Print Assumptions C92_allocation_refuted.

(** The number of bytes may overflow: the allocation succeeds, with a block which is too small. *)
Theorem C92_overflow_refuted : exists d b, drun 8 nothing [Buf (ONew (2 ^ 61) 0 0)] (Ok d) /\ alive (ast d) 0 b /\ owns b = true /\ bsize b = 2 ^ 61 /\
  (forall k, 0 <= k -> element 8 d b k = UB) /\ forall v, dstep 8 d (Write 0 0 v) UB.
Proof. exact overflown_new. Qed.
Print Assumptions C92_overflow_refuted.

(** auto b = std::move(a); auto c = b; c[0] = 9; changes b[0]: the copy of a raster which was constructed by a move is not independent. *)
Theorem C92_moved_copy_refuted : exists d c e,
  drun 8 nothing [Buf (ONew 4 0 0); Write 0 0 5; Buf (OMove 0); Buf (OCopy 1); Write 2 0 9] (Ok d) /\
  alive (ast d) 1 c /\ alive (ast d) 2 e /\ element 8 d c 0 = Ok (Some 9) /\ element 8 d e 0 = Ok (Some 9).
Proof. exact moved_copy. Qed.
Print Assumptions C92_moved_copy_refuted.

(** Two owners, the second of which is a copy of the first and was then written. *)
Example C92_met : exists d, DReachable 8 d /\ AllFit 8 d /\ alive (ast d) 0 block1 /\ alive (ast d) 1 block2 /\
  owns block1 = true /\ owns block2 = true /\ Fits 8 block1 /\ Fits 8 block2 /\ 0 < bsize block1 /\
  map (element 8 d block1) [0; 1; 2] = [Ok (Some 5); Ok (Some 6); Ok None] /\
  map (element 8 d block2) [0; 1; 2] = [Ok (Some 9); Ok (Some 6); Ok None].
Proof.
  destruct copied_history as (d & H & E & E1 & E2). exists d.
  assert (F1 : Fits 8 block1) by (repeat split; try (vm_compute; congruence); exists 6; split; [lia|reflexivity]).
  assert (F2 : Fits 8 block2) by (repeat split; try (vm_compute; congruence); exists 6; split; [lia|reflexivity]).
  split; [exact (reachable_run _ _ H)|]. split.
  - intros i b. rewrite E. unfold alive. cbn [bufs]. destruct i as [|[|i]]; cbn [nth_error].
    + intros [= <-] _. exact F1.
    + intros [= <-] _. exact F2.
    + now destruct i.
  - rewrite E. repeat (split; [first [reflexivity|assumption]|]). exact E2.
Qed.

(** Copying the first raster once more is possible. *)
Example C92_copy_met : exists d d', drun 8 nothing [Buf (ONew 4 0 0); Write 0 0 5; Write 0 1 6; Buf (OCopy 0)] (Ok d') /\
  drun 8 nothing [Buf (ONew 4 0 0); Write 0 0 5; Write 0 1 6] (Ok d) /\ DReachable 8 d /\ alive (ast d) 0 block1 /\ owns block1 = true /\
  dstep 8 d (Buf (OCopy 0)) (Ok d').
Proof.
  destruct filled as (d & H & E & _). exists d.
  assert (S0 : step 8 (ast d) (OCopy 0) (Ok (mkState [(8200, 95); (4104, 95)] [Some block1; Some block2] []))).
  { rewrite E. refine (step_copy 8 (mkState [(4104, 95)] [Some block1] []) 0 block1 (Ok (block2, [(8200, 95); (4104, 95)])) eq_refl
      (construct_owning 8 _ 4 0 64 8200 _ eq_refl (malloc_block _ 95 _ _))).
    apply Fresh_cons; [apply Fresh_nil; vm_compute; reflexivity|]. right. vm_compute. discriminate. }
  assert (D := dstep_buf 8 d _ _ S0). rewrite E in D. cbn [live] in D.
  destruct (copied 8 _ (OCopy 0) _ _) as [m| |] eqn:EC in D; [|vm_compute in EC; discriminate|vm_compute in EC; discriminate].
  cbn [bind] in D. eexists. split; [|split; [exact H|split; [exact (reachable_run _ _ H)|split; [now rewrite E|split; [reflexivity|exact D]]]]].
  apply (drun_app 8 [Buf (ONew 4 0 0); Write 0 0 5; Write 0 1 6] nothing d [Buf (OCopy 0)] _ H). eapply drun_ok; [exact D|apply drun_nil].
Qed.
