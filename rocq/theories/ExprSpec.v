(** Specification vocabulary for formulae. *)
From Verif Require Import Res ArithModel WidthModel WidthSpec ExprModel ArithSpec.

(** All the operands have at least [n] elements in memory. *)
Definition Operands {A} (mem : list A) (n : nat) (operands : list Z) : Prop := Forall (fun a => Allocated mem a n) operands.

(** The formula only refers to the given number of operands. *)
Fixpoint Closed {A} (k : nat) (e : expr A) : Prop :=
  match e with
  | Pix i => (i < k)%nat
  | Bin _ e1 e2 => Closed k e1 /\ Closed k e2
  | BinS _ e1 _ => Closed k e1
  end.

(** Only sums, differences and products. *)
Fixpoint Ring {A} (e : expr A) : Prop :=
  match e with
  | Pix _ => True
  | Bin o e1 e2 => ring o = true /\ Ring e1 /\ Ring e2
  | BinS o e1 _ => ring o = true /\ Ring e1
  end.

(** The scalars are values of the type. *)
Fixpoint Scalars (t : itype) (e : expr Z) : Prop :=
  match e with
  | Pix _ => True
  | Bin _ e1 e2 => Scalars t e1 /\ Scalars t e2
  | BinS _ e1 s => Scalars t e1 /\ InType t s
  end.

(** The [i]-th pixels of the operands. *)
Definition PixelsAt {A} (mem : list A) (operands : list Z) (i : Z) (xs : list A) : Prop :=
  Forall2 (fun a x => zget mem (a + i) = Ok x) operands xs.
