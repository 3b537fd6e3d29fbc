(** Specification vocabulary for integers of bounded width. *)
From Coq Require Import QArith.
From Verif Require Import Res WidthModel TypesModel.
Open Scope Z_scope.

(** The integral types, but bool: 8, 16, 32, 64 bits... *)
Definition Wf (t : itype) : Prop := 8 <= ibits t <= 16 \/ 32 <= ibits t.
Definition InType (t : itype) (z : Z) : Prop := itmin t <= z <= itmax t.

(** Exact results, over unbounded integers. There is none for a zero divisor. *)
Definition exact (o : bop) (x y : Z) : option Z :=
  match o with
  | Add => Some (x + y)
  | Sub => Some (x - y)
  | Mul => Some (x * y)
  | Div => if y =? 0 then None else Some (Z.quot x y)
  | Mod => if y =? 0 then None else Some (Z.rem x y)
  end.

(** [w] is the value of type [t] which is equal to [z] modulo the number of values of the type. *)
Definition Wrapped (t : itype) (z w : Z) : Prop := InType t w /\ exists k, w = z + k * 2 ^ ibits t.

(** Types whose arithmetic is made in the type int because they are narrower, and types whose arithmetic is signed as a consequence
    or because they are so themselves. *)
Definition Narrow (t : itype) : Prop := ibits t < 32.
Definition SignedArithmetic (t : itype) : Prop := isigned (promoted t) = true.

(** What has to be representable for [x op y] to be defined if the arithmetic is signed. *)
Definition evaluated (o : bop) (x y : Z) : Z :=
  match o with Add => x + y | Sub => x - y | Mul => x * y | Div | Mod => Z.quot x y end.

(** The exception: the quotient of the least value of a signed type by -1 is not representable, hence neither is the remainder
    computed, although it is zero. *)
Definition LeastByMinusOne (t : itype) (o : bop) (x y : Z) : Prop :=
  o = Mod /\ isigned t = true /\ 32 <= ibits t /\ x = itmin t /\ y = -1.

(** Sums, differences and products of values of [t] cannot overflow. *)
Definition NeverOverflows (t : itype) : Prop :=
  ibits t <= 15 \/ (ibits t <= 16 /\ isigned t = true) \/ (32 <= ibits t /\ isigned t = false).
Definition ring (o : bop) : bool := match o with Add | Sub | Mul => true | _ => false end.

(** The elements of the container of size [n] at address [a] are values of the type. *)
Definition Typed (t : itype) (mem : list Z) (a : Z) (n : nat) : Prop :=
  forall i x, 0 <= i < Z.of_nat n -> zget mem (a + i) = Ok x -> InType t x.

(** What is expected of a pixel of integral type and a floating-point scalar: the operation on numbers, and then the conversion. *)
Definition qexact (o : bop) (x : Z) (q : Q) : option Q :=
  match o with
  | Add => Some (inject_Z x + q)%Q
  | Sub => Some (inject_Z x - q)%Q
  | Mul => Some (inject_Z x * q)%Q
  | Div => if Qeq_bool q 0 then None else Some (inject_Z x / q)%Q
  | Mod => None
  end.
