(** C61: rasters which own their pixels are values; views share the pixels of their source.
    [Alive s i o]: the [i]-th raster which was created exists and is [o]; [Reachable s]: [s] is the state after some program
    of creations, copies, moves, assignments, writes and destructions; see OwnSpec. *)
From Verif Require Import Res VecModel RasterModel ArithModel OwnModel OwnSpec OwnProofs ViewPixelsProofs.

(** A write through an owning raster changes no other owning raster and no vector which was moved out;
    a write through any raster changes exactly the pixel at this address, in each raster which has it. *)
Theorem C61_write : forall (A : Type) (zero : A) s i o k v s', Reachable zero s -> Alive s i o -> step zero s (OWrite i k v) = Some (Ok s') ->
  objs s' = objs s /\ vecs s' = vecs s /\
  (forall j p, Alive s j p -> forall k', readAt s' (oholder p) k' =
    if Nat.eqb (hblock (oholder p)) (hblock (oholder o)) && (hoffset (oholder p) + k' =? hoffset (oholder o) + k) then Ok v else readAt s (oholder p) k') /\
  (forall j p, Alive s j p -> j <> i -> Owner o -> Owner p -> pixels s' (oholder p) = pixels s (oholder p)) /\
  (Owner o -> forall b, In b (vecs s) -> nth_error (heap s') b = nth_error (heap s) b).
Proof. exact @step_write. Qed.
Print Assumptions C61_write.

(** A copy has the shape and the pixels of its source; nothing else changes; the copy of a view is a view on the same pixels. *)
Theorem C61_copy : forall (A : Type) (zero : A) s i o, Reachable zero s -> Alive s i o -> exists s' p,
  step zero s (OCopy i) = Some (Ok s') /\ Alive s' (length (objs s)) p /\ oshape p = oshape o /\
  pixels s' (oholder p) = pixels s (oholder o) /\ (forall j, Same s s' j) /\ vecs s' = vecs s /\
  (Owner o -> exists l, pixels s (oholder o) = Ok l /\ Owner p) /\ (~ Owner o -> p = o).
Proof. exact @step_copy. Qed.
Print Assumptions C61_copy.

(** A move transfers the shape and the pixels, without invalidating the views on them; an owning source has no pixel any more.
    Its shape is empty for variable dimension, and unchanged otherwise. *)
Theorem C61_move : forall (A : Type) (zero : A) s i o, Reachable zero s -> Alive s i o -> exists s' p,
  step zero s (OMove i) = Some (Ok s') /\ Alive s' (length (objs s)) o /\ pixels s' (oholder o) = pixels s (oholder o) /\
  Alive s' i p /\ oshape p = movedFrom (odim o) (oshape o) /\ (Owner o -> pixels s' (oholder p) = Ok []) /\ (~ Owner o -> oholder p = oholder o) /\
  (forall j, j <> i -> Same s s' j) /\ vecs s' = vecs s.
Proof. exact @step_move. Qed.
Print Assumptions C61_move.

(** After raster i = raster j, raster [i] has the shape and the pixels of raster [j], which is unchanged, as are all rasters
    but the views on the former pixels of raster [i]. Assigning a view does not write its pixels: it changes its target. *)
Theorem C61_copy_assign : forall (A : Type) (zero : A) s i j d o, Reachable zero s -> i <> j -> Alive s i d -> Alive s j o -> sameType d o = true -> exists s' p,
  step zero s (OCopyAssign i j) = Some (Ok s') /\ Alive s' i p /\ oshape p = oshape o /\
  (Owner o -> pixels s' (oholder p) = pixels s (oholder o)) /\ (~ Owner o -> p = o) /\
  (forall k q, k <> i -> Alive s k q -> Owner q \/ hblock (oholder q) <> hblock (oholder d) -> Same s s' k) /\ vecs s' = vecs s.
Proof. exact @step_copyAssign. Qed.
Print Assumptions C61_copy_assign.

(** Assigning a raster to itself changes nothing. *)
Theorem C61_self_assign : forall (A : Type) (zero : A) s i o, Alive s i o -> step zero s (OCopyAssign i i) = Some (Ok s).
Proof. exact @step_selfAssign. Qed.
Print Assumptions C61_self_assign.

Theorem C61_move_assign : forall (A : Type) (zero : A) s i j d o, Reachable zero s -> i <> j -> Alive s i d -> Alive s j o -> sameType d o = true -> exists s' p,
  step zero s (OMoveAssign i j) = Some (Ok s') /\ Alive s' i o /\ (Owner o -> pixels s' (oholder o) = pixels s (oholder o)) /\
  Alive s' j p /\ oshape p = movedFrom (odim o) (oshape o) /\ (Owner o -> pixels s' (oholder p) = Ok []) /\ (~ Owner o -> oholder p = oholder o) /\
  (forall k q, k <> i -> k <> j -> Alive s k q -> Owner q \/ hblock (oholder q) <> hblock (oholder d) -> Same s s' k) /\ vecs s' = vecs s.
Proof. exact @step_moveAssign. Qed.
Print Assumptions C61_move_assign.

(** moveTo gives all the pixels to the vector. The raster keeps its shape, but has no pixel any more. *)
Theorem C61_move_to : forall (A : Type) (zero : A) s i o, Reachable zero s -> Alive s i o -> Owner o -> exists s' p b l,
  step zero s (OMoveTo i) = Some (Ok s') /\ vecs s' = vecs s ++ [b] /\ pixels s (oholder o) = Ok l /\ block s' b = Ok l /\
  Alive s' i p /\ oshape p = oshape o /\ pixels s' (oholder p) = Ok [] /\ (forall j, j <> i -> Same s s' j).
Proof. exact @step_moveTo. Qed.
Print Assumptions C61_move_to.

(** A view reads the pixels of its source. *)
Theorem C61_view : forall (A : Type) (zero : A) s i o offset n shape, Alive s i o -> wellTyped n shape = true -> exists s' p,
  step zero s (OView i offset n shape) = Some (Ok s') /\ Alive s' (length (objs s)) p /\ oshape p = shape /\ ~ Owner p /\
  (forall k, readAt s' (oholder p) k = readAt s (oholder o) (offset + k)) /\ (forall j, Same s s' j) /\ vecs s' = vecs s /\
  hblock (oholder p) = hblock (oholder o) /\ hoffset (oholder p) = hoffset (oholder o) + offset.
Proof. exact @step_view. Qed.
Print Assumptions C61_view.

(** A view has as many pixels as its shape tells, which are those of its source from the offset on, as far as the source has them; the source may be a view, too. *)
Theorem C61_view_pixels : forall (A : Type) (zero : A) s i o l offset n shape, Alive s i o -> pixels s (oholder o) = Ok l -> wellTyped n shape = true ->
  0 <= offset -> 0 <= shapeSize shape -> offset + shapeSize shape <= Z.of_nat (length l) ->
  exists s' p, step zero s (OView i offset n shape) = Some (Ok s') /\ Alive s' (length (objs s)) p /\
    pixels s' (oholder p) = Ok (firstn (Z.to_nat (shapeSize shape)) (skipn (Z.to_nat offset) l)).
Proof. exact @view_pixels. Qed.
Print Assumptions C61_view_pixels.
Example C61_view_pixels_met : exists s o p, exec 0 start [ONew 1 [5]; OWrite 0 2 7; OView 0 1 2 [2; 2]; OView 1 1 1 [2]] = Some (Ok s) /\
  Alive s 1 o /\ pixels s (oholder o) = Ok [0; 7; 0; 0] /\ Alive s 2 p /\ pixels s (oholder p) = Ok [7; 0].
Proof. vm_compute. eexists _, _, _. repeat split. Qed.

(** Destroying a view changes nothing else; destroying an owner makes the accesses through its views undefined, and changes nothing else. *)
Theorem C61_destroy : forall (A : Type) (zero : A) s i o, Reachable zero s -> Alive s i o -> exists s',
  step zero s (ODestroy i) = Some (Ok s') /\ (forall p, ~ Alive s' i p) /\ vecs s' = vecs s /\
  (forall j p, j <> i -> Alive s j p -> Owner p \/ ~ Owner o \/ hblock (oholder p) <> hblock (oholder o) -> Same s s' j) /\
  (Owner o -> forall h, hblock h = hblock (oholder o) -> forall k, readAt s' h k = UB).
Proof. exact @step_destroy. Qed.
Print Assumptions C61_destroy.

(** In every program, an owning raster has defined pixels, and the only undefined operations are writes, through a view or outside of the pixels. *)
Theorem C61_defined : forall (A : Type) (zero : A) s, Reachable zero s ->
  (forall i o, Alive s i o -> Owner o -> exists l, pixels s (oholder o) = Ok l) /\
  (forall o, step zero s o = Some UB -> exists i x k v, o = OWrite i k v /\ Alive s i x /\
     (Owner x -> forall l, pixels s (oholder x) = Ok l -> ~ 0 <= k < Z.of_nat (length l))).
Proof. exact (fun A zero s R => conj (fun i o => owner_pixels zero s i o R) (fun o => step_defined zero s o R)). Qed.
Print Assumptions C61_defined.

(** An owning raster has as many pixels as its shape tells, as long as no raster of fixed dimension is moved from and no container is moved alone.
    Missing: the programs which do so, for which this is false (see the two refutations). *)
Theorem C61_consistent_partial : forall (A : Type) (zero : A) s, SafelyReachable zero s ->
  forall i o l, Alive s i o -> Owner o -> pixels s (oholder o) = Ok l -> Z.of_nat (length l) = shapeSize (oshape o).
Proof. exact @safely_consistent. Qed.
Print Assumptions C61_consistent_partial.

(** Raster<int, 2> a({2, 3}); auto b = std::move(a); a.shape() is still (2, 3) but a has no pixel: a[{0, 0}] is undefined. *)
Theorem C61_moved_refuted : exists s o, exec 0 start [ONew 2 [2; 3]; OMove 0] = Some (Ok s) /\ Alive s 0 o /\ Owner o /\ oshape o = [2; 3] /\ shapeSize (oshape o) = 6 /\
  pixels s (oholder o) = Ok [] /\ forall k v, readAt s (oholder o) k = UB /\ step 0 s (OWrite 0 k v) = Some UB.
Proof. exact moved_shape. Qed.
Print Assumptions C61_moved_refuted.

(** Raster<int, -1> a({2, 3}); std::vector<int> v; a.moveTo(v); a.shape() is still (2, 3) but a has no pixel. *)
Theorem C61_move_to_refuted : exists s o, exec 0 start [ONew (-1) [2; 3]; OMoveTo 0] = Some (Ok s) /\ Alive s 0 o /\ Owner o /\ oshape o = [2; 3] /\ shapeSize (oshape o) = 6 /\
  pixels s (oholder o) = Ok [] /\ forall k v, readAt s (oholder o) k = UB /\ step 0 s (OWrite 0 k v) = Some UB.
Proof. exact moveTo_shape. Qed.
Print Assumptions C61_move_to_refuted.

(** Raster a, its section b, a copy c of a, then a is moved to d, and a vector takes the pixels of c. *)
Definition history : list (op Z) := [ONew (-1) [2; 3]; OView 0 2 (-1) [2; 1]; OWrite 1 0 7; OCopy 0; OMove 0; OWrite 3 0 5; OWrite 2 1 8; OCopyAssign 0 2; OWrite 0 0 9; OMoveTo 2].

Example C61_met : exists s, exec 0 start history = Some (Ok s) /\
  map (fun o => match o with Some x => (oshape x, pixels s (oholder x)) | None => ([], UB) end) (objs s) =
    [([2; 3], Ok [9; 8; 7; 0; 0; 0]); ([2; 1], Ok [7; 0]); ([2; 3], Ok []); ([2; 3], Ok [5; 0; 7; 0; 0; 0])] /\
  map (block s) (vecs s) = [Ok [0; 8; 7; 0; 0; 0]].
Proof. vm_compute. eexists. split; [reflexivity|]. split; reflexivity. Qed.

Example C61_reachable_met : exists s, Reachable 0 s /\ exists o, Alive s 1 o /\ ~ Owner o /\ exists p, Alive s 3 p /\ Owner p /\ exists q, Alive s 0 q /\ Owner q /\ sameType p q = true.
Proof.
  destruct C61_met as (s & H & _). exists s. split; [exists history; exact H|]. vm_compute in H. injection H as <-.
  eexists. split; [reflexivity|]. split; [intros [b E]; discriminate|]. eexists. split; [reflexivity|]. split; [eexists; reflexivity|].
  eexists. split; [reflexivity|]. split; [eexists; reflexivity|]. reflexivity.
Qed.

Example C61_dangling_met : exec 0 start [ONew 1 [3]; OView 0 1 1 [2]; ODestroy 0; OWrite 1 0 4] = Some UB.
Proof. reflexivity. Qed.

Example C61_safe_met : exists s, SafelyReachable 0 s /\ exists o, Alive s 1 o /\ Owner o /\ oshape o = [2; 2].
Proof.
  eexists. split.
  - eapply (safe_step 0 _ (OMove 0)); [eapply (safe_step 0 _ (ONew (-1) [2; 2])); [apply safe_start|exact I|reflexivity]| |reflexivity].
    intros x H _. vm_compute in H. injection H as <-. reflexivity.
  - vm_compute. eexists. split; [reflexivity|]. split; [eexists; reflexivity|reflexivity].
Qed.
