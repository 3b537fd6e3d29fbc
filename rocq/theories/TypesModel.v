(** Model of floor, of linspace for floating-point values, and of Segment. [double] values are exact rationals. *)
From Coq Require Export QArith Qround.
From Verif Require Import Res.
Open Scope Z_scope.

(** Conversion of a floating-point value to an integer: truncation toward zero.
    Simplification: the result is unbounded (C++: undefined if it does not fit). *)
Definition qtrunc (x : Q) : Z := Z.quot (Qnum x) (Zpos (Qden x)).

(** Comparison x < y. *)
Definition qltb (x y : Q) : bool := negb (Qle_bool y x).

(** floor<TInt>(in) (LitlTypes/LitlTypes/TypeUtils.h: 165-169). *)
Definition floorM (x : Q) : Z := qtrunc x - (if qltb x 0 then 1 else 0).

(** linspace(min, max) for a floating-point type (LitlContainer/LitlContainer/DataContainer.h: 162-170).
    One element: the division by zero gives an infinity or NaN which is not used. *)
Fixpoint linspaceLoop (n : nat) (i : Z) (mn step : Q) : list Q :=
  match n with
  | O => []
  | S n' => (mn + step * inject_Z i)%Q :: linspaceLoop n' (i + 1) mn step
  end.
Definition linspaceQ (size : nat) (mn mx : Q) : res (list Q) :=
  match size with
  | O => UB (* size() - 1 wraps around: writes out of the container *)
  | S k => Ok (linspaceLoop k 0 mn ((mx - mn) / inject_Z (Z.of_nat k))%Q ++ [mx])
  end.

(** Segment (LitlTypes/LitlTypes/Segment.h: 12-38). In fromSize, [size - front - 1] is computed in std::size_t. *)
Record segment := mkSegment { segFront : Z; segBack : Z }.
Definition segFromSize (front size : Z) : segment := mkSegment front (s64 (u64 (u64 (u64 size - u64 front) - 1))).
Definition segSize (s : segment) : Z := u64 (segBack s - segFront s + 1).
