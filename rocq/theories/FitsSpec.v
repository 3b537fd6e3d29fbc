(** Specification vocabulary for FITS files. *)
From Verif Require Import Res VecModel FitsModel.

(** A raster of [n] dimensions (-1: any) whose pixels take [w] bytes. *)
Definition RasterOf (n w : Z) (r : bytesRaster) : Prop :=
  (n = -1 \/ n = Z.of_nat (length (bshape r))) /\ 0 < w /\ Forall (fun d => 0 <= d) (bshape r) /\ Z.of_nat (length (bdata r)) = shapeSize (bshape r) * w.

(** A file with as many pixels as its lengths tell. *)
Definition ImageFile (i : image) : Prop := Forall (fun d => 0 <= d) (naxes i) /\ Z.of_nat (length (ibytes i)) = shapeSize (naxes i).

(** No call fails from now on. *)
Definition Reliable (oracle : nat -> option (positive * image)) (w : world) : Prop := forall k, (calls w <= k)%nat -> oracle k = None.

(** The object which is not yet used, or whose last operation succeeded. *)
Definition Ready (name : nat) (f : fits) : Prop := f = newFits name.

(** What an object does. *)
Inductive fop := FWrite (r : bytesRaster) | FRead (n w : Z).
Definition fstep oracle (x : fits * world) (o : fop) : fits * world := match o with FWrite r => fitsWrite oracle x r | FRead n w => fst (fitsRead oracle n w x) end.
Definition fsteps oracle (x : fits * world) (l : list fop) : fits * world := fold_left (fstep oracle) l x.

(** The empty raster. *)
Definition emptyShape (n : Z) : list Z := if n =? -1 then [] else repeat 0 (Z.to_nat n).
