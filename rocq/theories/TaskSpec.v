(** Specification of the tasks of several threads on one raster. *)
From Verif Require Import Res VecModel BoxModel RasterModel SubrasterModel TaskModel Spec BoxSpec RasterSpec.
Open Scope Z_scope.

(** The positions on which a task works. *)
Definition InTask {A} (shape : list Z) (t : task A) (p : list Z) : Prop :=
  match t with
  | OnRegion region _ | OnSlice _ region _ => InBox region p
  | OnSection front back _ => InDomain shape p /\ exists q z, p = q ++ [z] /\ front <= z <= back
  end.

(** The region of a task is not empty and lies in the raster; that of a slice is contiguous, and sections are those of rasters of fixed dimension. *)
Definition ValidTask {A} (n : Z) (shape : list Z) (t : task A) : Prop :=
  match t with
  | OnRegion region _ => InDomain shape (bfront region) /\ InDomain shape (bback region) /\ Nonempty region
  | OnSlice m region _ => InDomain shape (bfront region) /\ InDomain shape (bback region) /\ Nonempty region /\
      1 <= m <= Z.of_nat (length shape) /\ Contiguous m shape (bfront region) (bback region)
  | OnSection front back _ => n = Z.of_nat (length shape) /\ 0 <= front <= back /\ exists s l, shape = s ++ [l] /\ back < l
  end.
Definition ValidTasks {A} (n : Z) (r : raster A) (tasks : list (task A)) : Prop :=
  WF r /\ Positive (rshape r) /\ (n = -1 \/ n = Z.of_nat (length (rshape r))) /\ Forall (ValidTask n (rshape r)) tasks.

(** No position is in two tasks. *)
Definition DisjointTasks {A} (shape : list Z) (tasks : list (task A)) : Prop :=
  forall i j t u p, i <> j -> nth_error tasks i = Some t -> nth_error tasks j = Some u -> InTask shape t p -> InTask shape u p -> False.
