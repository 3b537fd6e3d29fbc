(** C105: threads which modify regions of one raster through subrasters, slices and sections. [ValidTasks n r tasks]: the regions are not empty, lie in the raster,
    and are contiguous for slices; [InTask shape t p]: the task works on p; [DisjointTasks shape tasks]: no position is in two tasks; see TaskSpec.
    [tasksRun] holds of the results of all interleavings of the reads and writes, and of [UB] where two threads race or leave the pixels. *)
From Verif Require Import Res VecModel BoxModel RasterModel SubrasterModel TaskModel Spec BoxSpec RasterSpec TaskSpec TaskProofs.
Open Scope Z_scope.

(** All schedules end with one and the same raster, and none has a data race: each pixel of a task is the function of what it was, and the others do not change. *)
Theorem C105_tasks : forall (A : Type) n (r : raster A) tasks, ValidTasks n r tasks -> DisjointTasks (rshape r) tasks ->
  exists enough, forall fuel, (enough <= fuel)%nat -> exists out,
  (forall o, tasksRun fuel n r tasks o <-> o = Ok out) /\ WF out /\ rshape out = rshape r /\
  (forall t p a, In t tasks -> InTask (rshape r) t p -> rget n r p = Ok a -> rget n out p = Ok (taskFunc t a)) /\
  (forall p, InDomain (rshape r) p -> (forall t, In t tasks -> ~ InTask (rshape r) t p) -> rget n out p = rget n r p).
Proof. exact @tasks_result. Qed.
Print Assumptions C105_tasks.

(** At any moment, each pixel has its initial value or its final one, no thread is about to leave the pixels, no two threads are about to race, and each one can go on. *)
Theorem C105_any_moment : forall (A : Type) n (r : raster A) tasks, ValidTasks n r tasks -> DisjointTasks (rshape r) tasks ->
  exists enough, forall fuel, (enough <= fuel)%nat -> forall ts r', tasksReach fuel n r tasks ts r' ->
  WF r' /\ rshape r' = rshape r /\
  (forall p a, InDomain (rshape r) p -> rget n r p = Ok a -> rget n r' p = Ok a \/ exists t, In t tasks /\ InTask (rshape r) t p /\ rget n r' p = Ok (taskFunc t a)) /\
  (forall i t, nth_error ts i = Some t -> ~ accessFails t (rdata r') /\ (tpending t <> [] -> exists t' mem, accessStep t (rdata r') t' mem)) /\
  (forall i j t u, i <> j -> nth_error ts i = Some t -> nth_error ts j = Some u -> ~ conflict t u).
Proof. exact @tasks_moment. Qed.
Print Assumptions C105_any_moment.
Example C105_met : let r := mkRaster [3; 4] [1; 2; 3; 4; 5; 6; 7; 8; 9; 10; 11; 12] in
  let tasks := [OnRegion (mkBox [1; 0] [2; 1]) Z.succ; OnSlice 1 (mkBox [0; 2] [1; 2]) (Z.mul 2); OnSection 3 3 Z.opp] in
  ValidTasks 2 r tasks /\ DisjointTasks (rshape r) tasks.
Proof. exact three_tasks. Qed.

(** Conversely, if two tasks have a common position, some schedule has a data race, whatever the functions are. *)
Theorem C105_overlap : forall (A : Type) n (r : raster A) tasks i j t u p, ValidTasks n r tasks -> i <> j ->
  nth_error tasks i = Some t -> nth_error tasks j = Some u -> InTask (rshape r) t p -> InTask (rshape r) u p ->
  exists enough, forall fuel, (enough <= fuel)%nat -> tasksRun fuel n r tasks UB.
Proof. exact @tasks_race. Qed.
Print Assumptions C105_overlap.
Example C105_overlap_met : let r := mkRaster [3; 4] [1; 2; 3; 4; 5; 6; 7; 8; 9; 10; 11; 12] in
  let t := OnRegion (mkBox [1; 0] [2; 2]) Z.succ in let u := OnSlice 1 (mkBox [0; 2] [1; 2]) (Z.mul 2) in
  ValidTasks 2 r [t; u] /\ InTask (rshape r) t [1; 2] /\ InTask (rshape r) u [1; 2].
Proof. exact two_tasks. Qed.
