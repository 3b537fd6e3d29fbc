(** Specification vocabulary for the ownership of pixels by rasters which hold an array. *)
From Verif Require Import Res VecModel ArrOwnModel.

(** Raster [i] exists, and is [o]. *)
Definition Living {A} (s : astate A) (i : nat) (o : aobj A) : Prop := nth_error (arasters s) i = Some (Some o).

(** A raster which owns its pixels. *)
Definition OnArray {A} (o : aobj A) : Prop := exists l, aholds o = InPlace l.

(** A raster which points to elements of raster [t], from that of rank [offset]. *)
Definition PointsTo {A} (o : aobj A) (t : nat) (offset : Z) : Prop := exists n, aholds o = Pointer t offset n.

(** [s] is the state after some program. *)
Definition Attainable {A} (zero : A) (selfMoved : list Z -> list Z) (s : astate A) : Prop :=
  exists ops, aexec zero selfMoved astart ops = Some (Ok s).

(** Raster [i] is the same, with the same pixels. *)
Definition Unaltered {A} (s s' : astate A) (i : nat) : Prop := forall o, Living s i o ->
  Living s' i o /\ apixels s' i = apixels s i /\ forall k, areadAt s' i k = areadAt s i k.

(** Where element [k] of raster [i], which is [o], is: the raster whose array has it, and its rank there. *)
Definition address {A} (i : nat) (o : aobj A) (k : Z) : nat * Z :=
  match aholds o with InPlace _ => (i, k) | Pointer t offset _ => (t, offset + k) end.

(** The operation neither makes an array raster without a shape nor moves from a raster of variable dimension. *)
Definition KeepsShapes {A} (s : astate A) (o : aop A) : Prop :=
  match o with
  | ANew cap _ shape => shapeSize shape = 0 -> cap = O
  | AMove i | AMoveAssign _ i => forall x, Living s i x -> OnArray x -> adim x <> -1
  | _ => True
  end.

(** States after programs made of such operations only. *)
Inductive Tidy {A} (zero : A) (selfMoved : list Z -> list Z) : astate A -> Prop :=
| tidy_start : Tidy zero selfMoved astart
| tidy_step s o s' : Tidy zero selfMoved s -> KeepsShapes s o -> astep zero selfMoved s o = Some (Ok s') -> Tidy zero selfMoved s'.
