(** Specification vocabulary for regions in memory. *)
From Verif Require Import Res VecModel ArithSpec.

(** The position of coordinates [l] is at address [a]. *)
Definition Holds (mem : list Z) (a : Z) (l : list Z) : Prop :=
  Allocated mem a (length l) /\ forall i, 0 <= i < Z.of_nat (length l) -> zget mem (a + i) = zget l i.

(** The sum or difference of two positions, coordinate by coordinate. *)
Definition shiftedBy (minus : bool) (p s : list Z) : list Z := if minus then vsub p s else vadd p s.

(** The same memory, but for two positions of dimension [n] at addresses [a] and [b]. *)
Definition Frame2 (mem mem' : list Z) (a b : Z) (n : nat) : Prop :=
  length mem' = length mem /\ forall j, Outside j a n -> Outside j b n -> zget mem' j = zget mem j.
