(** Specification of the aligned buffers, independent of the order of the operations in the code. *)
From Verif Require Import Res AlignedModel.

(** The alignment requirement documented for the constructor (AlignedBuffer.h: 99-114): 0 and -1 stand for SIMD
    (64 bytes), except that 0 stands for no requirement when the data is shared. *)
Definition Requirement (shared : bool) (align a : Z) : Prop :=
  (align = 2 ^ 64 - 1 /\ a = 64) \/
  (align = 0 /\ a = if shared then 1 else 64) \/
  (0 < align < 2 ^ 64 - 1 /\ a = align).

(** [i] is a buffer in scope which owns the block at address [p]. *)
Definition Owns (s : state) (i : nat) (p : Z) : Prop := exists b, alive s i b /\ owns b = true /\ bcont b = p.

Definition Allocated (s : state) (p : Z) : Prop := exists n, In (p, n) (live s).

(** All the buffers are destroyed. *)
Definition AllDestroyed (s : state) : Prop := forall i b, ~ alive s i b.

(** An allocated block which no buffer owns, and which was not handed to the user by release(). *)
Definition Leaked (s : state) (p : Z) : Prop :=
  Allocated s p /\ ~ In p (user s) /\ forall i, ~ Owns s i p.

(** The operation overwrites or drops the address of an owned block:
    move construction from an owner, copy or move assignment to an owner from another buffer. *)
Definition Careless (s : state) (o : op) : Prop :=
  match o with
  | OMove i => exists p, Owns s i p
  | OCopyAssign i j | OMoveAssign i j => i <> j /\ exists p, Owns s i p
  | _ => False
  end.

(** Histories in which no (resp. some) operation is careless. *)
Inductive carefulRun (elt : Z) (s : state) : list op -> state -> Prop :=
| careful_nil : carefulRun elt s [] s
| careful_cons o s1 ops s2 : step elt s o (Ok s1) -> ~ Careless s o -> carefulRun elt s1 ops s2 ->
    carefulRun elt s (o :: ops) s2.
Inductive carelessRun (elt : Z) (s : state) : list op -> state -> Prop :=
| careless_here o s1 ops s2 : step elt s o (Ok s1) -> Careless s o -> run elt s1 ops (Ok s2) ->
    carelessRun elt s (o :: ops) s2
| careless_later o s1 ops s2 : step elt s o (Ok s1) -> carelessRun elt s1 ops s2 -> carelessRun elt s (o :: ops) s2.

(** The operation constructs, modifies or destroys buffer [k]. *)
Definition Touches (s : state) (o : op) (k : nat) : Prop :=
  match o with
  | ONew _ _ _ | OCopy _ => k = length (bufs s)
  | OMove i => k = i \/ k = length (bufs s)
  | OCopyAssign i _ => k = i
  | OMoveAssign i j => k = i \/ k = j
  | ORelease i | OReset i | ODestroy i => k = i
  | OUserFree _ => False
  end.

(** The buffers the operation applies to are in scope; a block freed by the user was released. *)
Definition Valid (s : state) (o : op) : Prop :=
  match o with
  | ONew _ _ _ => True
  | OCopy i | OMove i | ORelease i | OReset i | ODestroy i => exists b, alive s i b
  | OCopyAssign i j | OMoveAssign i j => (exists b, alive s i b) /\ (exists c, alive s j c)
  | OUserFree p => In p (user s)
  end.
