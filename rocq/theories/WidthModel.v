(** Model of the pixel-wise operators of containers whose elements are integers of bounded width
    (LitlContainer/LitlContainer/Arithmetic.h, DataContainer.h). Elsewhere in the model integers are unbounded. *)
From Coq Require Import QArith.
From Verif Require Import Res ArithModel TypesModel.
Open Scope Z_scope.

(** An integral type: signedness and number of bits. *)
Record itype := mkItype { isigned : bool; ibits : Z }.
Definition itmin (t : itype) : Z := if isigned t then - 2 ^ (ibits t - 1) else 0.
Definition itmax (t : itype) : Z := if isigned t then 2 ^ (ibits t - 1) - 1 else 2 ^ ibits t - 1.
Definition fits (t : itype) (z : Z) : bool := (itmin t <=? z) && (z <=? itmax t).

(** Conversion of an integer to a type: modulo 2^bits ([conv.integral]; implementation-defined, and so with GCC and Clang,
    for signed types before C++20). *)
Definition convert (t : itype) (z : Z) : Z :=
  if isigned t then (z + 2 ^ (ibits t - 1)) mod 2 ^ ibits t - 2 ^ (ibits t - 1) else z mod 2 ^ ibits t.

(** Integral promotions ([conv.prom]), where int has 32 bits: types of lower width become int. *)
Definition int32 : itype := mkItype true 32.
Definition promoted (t : itype) : itype := if ibits t <? 32 then int32 else t.

(** The value of an expression of the promoted type: overflow is undefined if it is signed, and wraps otherwise. *)
Definition computed (t : itype) (z : Z) : res Z :=
  if isigned (promoted t) then if fits (promoted t) z then Ok z else UB else Ok (convert (promoted t) z).

(** e op f, where e and f have type T (Arithmetic.h: 15-38: the lambdas take and return values).
    Where the quotient is not representable, the remainder is undefined, too ([expr.mul]). *)
Inductive bop := Add | Sub | Mul | Div | Mod.
Definition promotedOp (t : itype) (o : bop) (x y : Z) : res Z :=
  match o with
  | Add => computed t (x + y)
  | Sub => computed t (x - y)
  | Mul => computed t (x * y)
  | Div => if y =? 0 then UB else computed t (Z.quot x y)
  | Mod => if y =? 0 then UB else _ <- computed t (Z.quot x y) ;; computed t (Z.rem x y)
  end.

(** The assignment to an element of the output range (std::transform, Arithmetic.h: 15-38) converts to T. *)
Definition widthOp (t : itype) (o : bop) (x y : Z) : res Z := z <- promotedOp t o x y ;; Ok (convert t z).

(** ++rhs, --rhs, -r (Arithmetic.h: 114-137, 151-157). *)
Definition widthIncr (t : itype) (x : Z) : res Z := widthOp t Add x 1.
Definition widthDecr (t : itype) (x : Z) : res Z := widthOp t Sub x 1.
Definition widthNeg (t : itype) (x : Z) : res Z := z <- computed t (- x) ;; Ok (convert t z).

(** range(min, step) (DataContainer.h: 142-150): v += step is evaluated after each element, including the last one. *)
Fixpoint widthRange (t : itype) (n : nat) (v step : Z) : res (list Z) :=
  match n with
  | O => Ok []
  | S n' => v' <- widthOp t Add v step ;; l <- widthRange t n' v' step ;; Ok (v :: l)
  end.

(** A floating-point scalar given to an operator between a container and a scalar: the parameter is a const T&
    (Arithmetic.h: 28-29; boost::operators<TDerived, T> for the new-instance ones), hence a temporary of type T is made from it
    ([conv.fpint]: truncation, undefined if not representable). *)
Definition scalarOf (t : itype) (q : Q) : res Z := if fits t (qtrunc q) then Ok (qtrunc q) else UB.

(** V op= q (Arithmetic.h: 28-38): the temporary is not an element of V. *)
Definition scalarInPlace (t : itype) (o : bop) (q : Q) (n : nat) (mem : list Z) (a : Z) : res (list Z) :=
  s <- scalarOf t q ;; transform1 (fun x => widthOp t o x s) n mem a.
(** W = V op q (boost::operators, Arithmetic.h: 28-38). *)
Definition scalarNew (t : itype) (o : bop) (q : Q) (n : nat) (mem : list Z) (a : Z) : res (list Z) :=
  s <- scalarOf t q ;; new1 (fun x => widthOp t o x s) n mem a.
