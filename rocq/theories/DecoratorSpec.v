(** Specification of what decorators give access to, from the history of the operations only. *)
From Verif Require Import Res VecModel BoxModel RasterModel TypesModel InterpModel DecoratorModel.

(** The object of rank [i] outlives the operations. *)
Definition Kept (i : nat) (ops : list dop) : Prop := ~ In (Destroy i) ops.
Definition NotAssigned (i : nat) (ops : list dop) : Prop := (forall r, ~ In (Assign i r) ops) /\ ~ In (Moved i) ops.

(** The raster of rank [a], which was [r], after some operations: only those on it matter. *)
Fixpoint current (n : Z) (a : nat) (r : raster Q) (ops : list dop) : res (raster Q) :=
  match ops with
  | [] => Ok r
  | Write i p v :: ops' => if Nat.eqb i a then r' <- rset n r p v ;; current n a r' ops' else current n a r ops'
  | Assign i r' :: ops' => current n a (if Nat.eqb i a then r' else r) ops'
  | Moved i :: ops' => current n a (if Nat.eqb i a then movedRaster n r else r) ops'
  | _ :: ops' => current n a r ops'
  end.

(** The decorator keeps a reference to the object of rank [t]. *)
Definition refersTo (o : dobject) (t : nat) : Prop :=
  match o with
  | ExtraObj t' _ | InterObj _ t' _ => t' = t
  | RasterObj _ => False
  end.

(** A 1D raster. *)
Definition row (d : list Q) : raster Q := mkRaster [Z.of_nat (length d)] d.

(** The object [i], of type [d], decorates the raster [a] through the objects [l], itself and the raster included, with the extrapolation method [m] if any. *)
Inductive Decorates (s : dstore) : nat -> dtype -> list nat -> nat -> option extraMethod -> Prop :=
| itself a r : dobject_at s a = Some (RasterObj r) -> Decorates s a TRaster [a] a None
| extrapolates e a m r : dobject_at s e = Some (ExtraObj a m) -> dobject_at s a = Some (RasterObj r) -> Decorates s e TExtra [e; a] a (Some m)
| interpolates i d t k l a m : dobject_at s i = Some (InterObj d t k) -> Decorates s t d l a m -> Decorates s i (TInter d) (i :: l) a m.

(** The values at integral positions. *)
Definition valueAt (n : Z) (m : option extraMethod) (r : raster Q) (p : list Z) : res Q :=
  match m with Some m => extraAt n m r p | None => rget n r p end.
