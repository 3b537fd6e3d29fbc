(** Specification vocabulary for integral types and additive noises. *)
From Verif Require Import Res LimitsModel.

(** The integral types of 8, 16, 32 and 64 bits, and bool. *)
Definition Integral (t : itype) : Prop :=
  match t with TBool => True | TUnsigned n | TSigned n => n = 8 \/ n = 16 \/ n = 32 \/ n = 64 end.

(** The values of a type. *)
Definition Value (t : itype) (x : Z) : Prop :=
  match t with TBool => 0 <= x < 2 | TUnsigned n => 0 <= x < 2 ^ n | TSigned n => - 2 ^ (n - 1) <= x < 2 ^ (n - 1) end.

(** The state of the noise after [k] draws, and the next drawn value. *)
Fixpoint after {D E S} (draw : D -> E -> (D * E) * S) (k : nat) (st : D * E) : D * E :=
  match k with O => st | Datatypes.S k' => after draw k' (fst (draw (fst st) (snd st))) end.
Definition drawn {D E S} (draw : D -> E -> (D * E) * S) (st : D * E) (k : nat) : S :=
  let s := after draw k st in snd (draw (fst s) (snd s)).
