(** Specification vocabulary for the ownership of pixels. *)
From Verif Require Import Res VecModel OwnModel.

(** Raster [i] exists, and is [o]. *)
Definition Alive {A} (s : state A) (i : nat) (o : robj) : Prop := nth_error (objs s) i = Some (Some o).

(** A raster which owns its pixels. *)
Definition Owner (o : robj) : Prop := exists b, oholder o = Owned b.

(** [s] is the state after some program. *)
Definition Reachable {A} (zero : A) (s : state A) : Prop := exists ops, exec zero start ops = Some (Ok s).

(** Raster [i] is the same, with the same pixels. *)
Definition Same {A} (s s' : state A) (i : nat) : Prop := forall o, Alive s i o -> Alive s' i o /\ pixels s' (oholder o) = pixels s (oholder o).

(** The operation neither moves from a raster of fixed dimension nor moves a container alone. *)
Definition Safe {A} (s : state A) (o : op A) : Prop :=
  match o with
  | OMove i | OMoveAssign _ i => forall x, Alive s i x -> Owner x -> odim x = -1
  | OMoveTo _ => False
  | _ => True
  end.

(** States after programs made of safe operations only. *)
Inductive SafelyReachable {A} (zero : A) : state A -> Prop :=
| safe_start : SafelyReachable zero start
| safe_step s o s' : SafelyReachable zero s -> Safe s o -> step zero s o = Some (Ok s') -> SafelyReachable zero s'.
