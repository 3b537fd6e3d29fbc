(** Model of threads which modify the pixels of regions of one raster in place, each with its own subraster, slice or section, and a function:
    [for (auto& e : subraster) e = func(e)] (LitlRaster/LitlRaster/SubrasterIterator.h: 112-132) or
    [slice.apply(func)] (LitlContainer/LitlContainer/DataContainer.h: 187-194, 211-214, a loop from begin() to end()).
    The iterators are local to the threads and the shape is only read: the pixels are the only memory which is modified.
    Simplification: the accesses are interleaved one by one. C++ guarantees that there is no other behavior if no interleaving has a data race ([intro.races]). *)
From Verif Require Import Res VecModel BoxModel RasterModel SubrasterModel.

Section Threads.
Context {A : Type}.

(** A thread: its function, the offsets of the pixels it has still to modify, and the value of the first of them if it was read already. *)
Record thread := mkThread { tfunc : A -> A; tpending : list Z; tread : option A }.

(** One access to the memory: the read, then the write of a pixel. The function is called in between, and accesses no pixel. *)
Inductive accessStep : thread -> list A -> thread -> list A -> Prop :=
| access_read g k ks a mem : zget mem k = Ok a -> accessStep (mkThread g (k :: ks) None) mem (mkThread g (k :: ks) (Some a)) mem
| access_write g k ks a mem mem' : zset mem k (g a) = Ok mem' -> accessStep (mkThread g (k :: ks) (Some a)) mem (mkThread g ks None) mem'.

(** An access out of the pixels. *)
Inductive accessFails : thread -> list A -> Prop :=
| fails_reading g k ks mem : zget mem k = UB -> accessFails (mkThread g (k :: ks) None) mem
| fails_writing g k ks a mem : zset mem k (g a) = UB -> accessFails (mkThread g (k :: ks) (Some a)) mem.

(** Data race ([intro.races]): two threads are about to access the same pixel, and one of them to write it. The behavior is undefined. *)
Definition conflict (t u : thread) : Prop :=
  match tpending t, tpending u with
  | k :: _, l :: _ => k = l /\ (tread t <> None \/ tread u <> None)
  | _, _ => False
  end.

(** What may happen at some moment, and until the end. *)
Inductive threadsReach : list thread -> list A -> list thread -> list A -> Prop :=
| reach_here ts mem : threadsReach ts mem ts mem
| reach_next ts mem i t t' ts' mem' mem'' : threadsReach ts mem ts' mem' -> nth_error ts' i = Some t -> accessStep t mem' t' mem'' ->
    threadsReach ts mem (replace ts' i t') mem''.
Inductive threadsRun : list thread -> list A -> res (list A) -> Prop :=
| run_done ts mem : Forall (fun t => tpending t = []) ts -> threadsRun ts mem (Ok mem)
| run_step ts mem i t t' mem' r : nth_error ts i = Some t -> accessStep t mem t' mem' -> threadsRun (replace ts i t') mem' r -> threadsRun ts mem r
| run_fails ts mem i t : nth_error ts i = Some t -> accessFails t mem -> threadsRun ts mem UB
| run_race ts mem i j t u : i <> j -> nth_error ts i = Some t -> nth_error ts j = Some u -> conflict t u -> threadsRun ts mem UB.

(** What a thread works on. *)
Inductive task :=
| OnRegion (region : box) (g : A -> A)               (* subraster of a region *)
| OnSlice (m : Z) (region : box) (g : A -> A)        (* slice<M>(region) *)
| OnSection (front back : Z) (g : A -> A).           (* section(front, back) *)
Definition taskFunc (t : task) : A -> A := match t with OnRegion _ g | OnSlice _ _ g | OnSection _ _ g => g end.

(** The offsets of the pixels from begin() to end(): for a slice, those of a contiguous range (LitlContainer/LitlContainer/ContiguousContainer.h: 154-184; size() is that of the shape). *)
Definition viewOffsets (v : res view) : option (res (list Z)) :=
  Some (w <- v ;; Ok (zrange (voffset w) (voffset w + shapeSize (vshape w) - 1))).
Definition taskOffsets (fuel : nat) (n : Z) (shape : list Z) (t : task) : option (res (list Z)) :=
  match t with
  | OnRegion region _ => subForeach fuel n shape region
  | OnSlice m region _ => viewOffsets (slice n m shape region)
  | OnSection front back _ => viewOffsets (section2 n shape front back)
  end.

(** All the tasks, each in its own thread. The views are made first. *)
Inductive tasksRun (fuel : nat) (n : Z) (r : raster A) (tasks : list task) : res (raster A) -> Prop :=
| tasks_run offsets o : Forall2 (fun t ks => taskOffsets fuel n (rshape r) t = Some (Ok ks)) tasks offsets ->
    threadsRun (map (fun '(t, ks) => mkThread (taskFunc t) ks None) (combine tasks offsets)) (rdata r) o ->
    tasksRun fuel n r tasks (mem <- o ;; Ok (mkRaster (rshape r) mem)).
Inductive tasksReach (fuel : nat) (n : Z) (r : raster A) (tasks : list task) : list thread -> raster A -> Prop :=
| tasks_reach offsets ts mem : Forall2 (fun t ks => taskOffsets fuel n (rshape r) t = Some (Ok ks)) tasks offsets ->
    threadsReach (map (fun '(t, ks) => mkThread (taskFunc t) ks None) (combine tasks offsets)) (rdata r) ts mem ->
    tasksReach fuel n r tasks ts (mkRaster (rshape r) mem).
End Threads.
Arguments thread : clear implicits.
Arguments task : clear implicits.
