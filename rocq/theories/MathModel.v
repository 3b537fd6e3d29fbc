(** Model of the mathematical functions of containers of integers (LitlContainer/LitlContainer/Math.h).
    The functions of the C++ library over doubles are parameters. *)
From Flocq Require Import IEEE754.BinarySingleNaN.
From Verif Require Import Res ArithModel WidthModel FloatModel.

(** Conversion of a double to the integral type [t], when a result is assigned to an element: truncation,
    undefined if the result does not fit or if the double is infinite or not a number. *)
Definition dconvert (t : itype) (x : double) : res Z :=
  match x with
  | B754_zero _ => Ok 0
  | B754_finite s m e _ =>
      let a := if 0 <=? e then Zpos m * 2 ^ e else Zpos m / 2 ^ (- e) in
      let z := if s then - a else a in
      if fits t z then Ok z else UB
  | _ => UB
  end.

(** [](auto e) { return std::function(e); } (Math.h: 41-43), where the element is of the integral type [t]: there, the overloads
    of <cmath> take the value as a double; std::transform assigns the returned double to the element. *)
Definition mathUnary (t : itype) (f : double -> double) (x : Z) : res Z := dconvert t (f (dofZ x)).

(** [](auto e, auto f) { return std::function(e, f); } (Math.h: 52-54, 63-65), where both are of integral types. *)
Definition mathBinary (t : itype) (f : double -> double -> double) (x y : Z) : res Z := dconvert t (f (dofZ x) (dofZ y)).

(** std::abs(e) (Math.h: 41-43, 69): the overloads for int, long and long long; the value is promoted and the result converted back.
    For unsigned types of 32 bits or more the call is ambiguous and does not compile. *)
Definition absElement (t : itype) (x : Z) : res Z := z <- computed t (Z.abs x) ;; Ok (convert t z).

(** function(in, other) for a scalar (Math.h: 132-141): [out] is a copy of [in], and calls the overload for scalars (Math.h: 58-67). *)
Definition newVal {A : Type} (op : A -> A -> res A) (n : nat) (mem : list A) (a s : Z) : res (list A) :=
  y <- zget mem s ;; new1 (fun x => op x y) n mem a.
