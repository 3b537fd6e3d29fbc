(** Vocabulary for the statistics of integers of bounded width. *)
From Verif Require Import Res WidthModel WidthSpec KernelSpec.
Open Scope Z_scope.

(** Exact sums of the first [k] values, and of the squares of all of them. *)
Definition sumFirst (k : nat) (l : list Z) : Z := total (firstn k l).
Definition squares (l : list Z) : Z := total (map (fun v => v * v) l).

Definition ushort : itype := mkItype false 16.
Definition uchar : itype := mkItype false 8.
Definition schar : itype := mkItype true 8.
