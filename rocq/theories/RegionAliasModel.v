(** Model of the modifiers of regions whose operand may be a part of the modified region, e.g. [box -= box.front()]
    (LitlRaster/LitlRaster/Box.h, LitlRaster/LitlRaster/Ball.h).
    As in ArithModel, everything lives in one memory of integers: a position of dimension [n] is the address of its
    first coordinate, a box is the addresses [fa] and [ba] of its front and back, a position or scalar passed by
    reference is an address. *)
From Verif Require Import Res VecModel BoxModel ArithModel.

(** The two operators: addition or subtraction of coordinates. *)
Definition shiftOp (minus : bool) : Z -> Z -> res Z := if minus then opSub else opAdd.

(** box += shift and box -= shift (Box.h: 209-225): the front first, then the back; the shift is a reference, so that
    its coordinates are read anew by each of both loops. *)
Definition memShift (minus : bool) (n : nat) (mem : list Z) (fa ba sa : Z) : res (list Z) :=
  m <- transform2 (shiftOp minus) n mem fa sa ;; transform2 (shiftOp minus) n m ba sa.

(** box += margin and box -= margin (Box.h: 191-207), the margin being at [mf] and [mb]. *)
Definition memMargin (minus : bool) (n : nat) (mem : list Z) (fa ba mf mb : Z) : res (list Z) :=
  m <- transform2 (shiftOp minus) n mem fa mf ;; transform2 (shiftOp minus) n m ba mb.

(** box += scalar and box -= scalar (Box.h: 227-243): the parameter is a copy, here at the end of the memory, of the
    scalar at [s]; it is passed by reference to the operators of vectors, and dies with the call. *)
Definition memScalar (minus : bool) (n : nat) (mem : list Z) (fa ba s : Z) : res (list Z) :=
  y <- zget mem s ;;
  m1 <- transformRef (shiftOp minus) n (mem ++ [y]) fa (Z.of_nat (length mem)) ;;
  m2 <- transformRef (shiftOp minus) n m1 ba (Z.of_nat (length mem)) ;;
  Ok (firstn (length mem) m2).

(** box + shift and box - shift (Box.h: 20, boost::additive): a copy of the box, at the end of the memory, is
    shifted; the front of the copy is at [length mem] and its back [n] coordinates further. *)
Definition memShiftNew (minus : bool) (n : nat) (mem : list Z) (fa ba sa : Z) : res (list Z) :=
  m1 <- copyNew n mem fa ;;
  m2 <- copyNew n m1 ba ;;
  memShift minus n m2 (Z.of_nat (length mem)) (Z.of_nat (length mem) + Z.of_nat n) sa.

(** ball += shift and ball -= shift (Ball.h: 141-152), where the center of the ball is at [ca]. *)
Definition memBallShift (minus : bool) (n : nat) (mem : list Z) (ca sa : Z) : res (list Z) :=
  transform2 (shiftOp minus) n mem ca sa.
