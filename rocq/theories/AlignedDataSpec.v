(** Specification vocabulary for the elements of aligned buffers. *)
From Verif Require Import Res AlignedModel AlignedSpec AlignedDataModel.

(** Two blocks do not overlap. *)
Definition Apart2 (x y : Z * Z) : Prop := fst x + Z.max 1 (snd x) <= fst y \/ fst y + Z.max 1 (snd y) <= fst x.

(** Blocks at valid addresses, which do not overlap. *)
Definition Blocks (l : list (Z * Z)) : Prop :=
  (forall p n, In (p, n) l -> 0 < p /\ p + Z.max 1 n < 2 ^ 64) /\ ForallOrdPairs Apart2 l.

(** [d] is the state after some history of operations, which starts with any blocks of the program's own. *)
Definition DReachable {A} (elt : Z) (d : dstate A) : Prop :=
  exists ext m ops, Blocks ext /\ drun elt (dstart ext m) ops (Ok d).

(** The number of bytes of the buffer is that of a std::size_t, and its alignment is a power of two. *)
Definition Fits (elt : Z) (b : buffer) : Prop :=
  0 <= bsize b /\ elt * bsize b + bas b - 1 < 2 ^ 64 /\ exists k, 0 <= k < 64 /\ bas b = 2 ^ k.

(** The element [k] of buffer [b]: undefined, indeterminate, or a value. *)
Definition element {A} (elt : Z) (d : dstate A) (b : buffer) (k : Z) : res (option A) := look elt d (bdata b + elt * k).

(** The elements of [b] after are those of [c] before. *)
Definition SameElements {A} (elt : Z) (d' : dstate A) (b : buffer) (d : dstate A) (c : buffer) : Prop :=
  bsize b = bsize c /\ forall k, 0 <= k < bsize c -> element elt d' b k = element elt d c k.

(** Everything which could be read before is the same after. *)
Definition Kept {A} (elt : Z) (d d' : dstate A) : Prop := forall a c, look elt d a = Ok c -> look elt d' a = Ok c.

(** The address is in the block which the operation frees. *)
Definition Freed {A} (elt : Z) (d : dstate A) (o : op) (a : Z) : Prop :=
  exists p n, In (p, n) (live (ast d)) /\ p <= a /\ a + elt <= p + n /\
    match o with
    | OReset i | ODestroy i => Owns (ast d) i p
    | OUserFree q => q = p
    | _ => False
    end.

(** All the owners fit. *)
Definition AllFit {A} (elt : Z) (d : dstate A) : Prop := forall i b, alive (ast d) i b -> owns b = true -> Fits elt b.
