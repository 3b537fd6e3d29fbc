(** Specification of what each operation on aligned buffers makes of the buffers it applies to, as documented (AlignedBuffer.h). *)
From Verif Require Import Res AlignedModel AlignedSpec.

(** After reset(): "Size is set to 0, alignment requirement to 1, and pointers are nullified". *)
Definition emptied : buffer := mkBuffer 0 1 0 0.

(** A copy has the size and the requirement of the original; that of a view is a view on the same data,
    and that of an owner does not share its memory: the copy owns a block which was not allocated, or the allocation failed. *)
Definition CopyOf (s : state) (c b : buffer) : Prop :=
  bsize b = bsize c /\ bas b = bas c /\
  (owns c = false -> bdata c <> 0 -> bdata b = bdata c /\ owns b = false) /\
  (owns c = true -> bcont b = 0 \/ (owns b = true /\ ~ Allocated s (bcont b))).

(** What becomes of the buffers an operation applies to. The index of a new buffer is the number of those constructed before. *)
Definition Outcome (s : state) (o : op) (s' : state) : Prop :=
  match o with
  | ONew size data align =>
      (s' = s /\ data <> 0 /\ align <> 0) \/
      exists b, alive s' (length (bufs s)) b /\ bsize b = size /\ (data <> 0 -> bdata b = data /\ owns b = false) /\
        (data = 0 -> bcont b = 0 \/ (owns b = true /\ ~ Allocated s (bcont b)))
  | OCopy i => forall c, alive s i c ->
      (s' = s /\ owns c = false /\ bdata c <> 0 /\ ~ (bas c | bdata c)) \/ exists b, alive s' (length (bufs s)) b /\ CopyOf s c b
  | OMove i => forall c, alive s i c -> alive s' i emptied /\
      exists b, alive s' (length (bufs s)) b /\ bsize b = bsize c /\ bas b = bas c /\ bdata b = bdata c /\ owns b = false
  | OCopyAssign i j => i <> j -> forall c, alive s j c -> exists b, alive s' i b /\ CopyOf s c b
  | OMoveAssign i j => i <> j -> forall c, alive s j c -> alive s' i c /\ alive s' j emptied
  | ORelease i => forall c, alive s i c ->
      (exists b, alive s' i b /\ bsize b = bsize c /\ bas b = bas c /\ bdata b = bdata c /\ owns b = false) /\
      live s' = live s /\ (owns c = true -> In (bcont c) (user s'))
  | OReset i => forall c, alive s i c -> alive s' i emptied /\ (owns c = true -> ~ Allocated s' (bcont c))
  | ODestroy i => forall c, alive s i c -> (forall b, ~ alive s' i b) /\ (owns c = true -> ~ Allocated s' (bcont c))
  | OUserFree p => ~ Allocated s' p /\ ~ In p (user s') /\ bufs s' = bufs s
  end.
