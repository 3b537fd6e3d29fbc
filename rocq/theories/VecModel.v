(** Model of Vector and Position (LitlRaster/LitlRaster/Vector.h).
    A Position<N> is the list of its coordinates, N being the length of the list. *)
From Verif Require Import Res.

(** std::transform over two ranges of the same length.
    Simplification: the lists have the same length, as guaranteed by the type Position<N> for N >= 0
    (all the theorems state it); see [transform2] in ArithModel.v for ranges of different lengths. *)
Fixpoint map2 {A B C : Type} (f : A -> B -> C) (l : list A) (r : list B) : list C :=
  match l, r with
  | a :: l', b :: r' => f a b :: map2 f l' r'
  | _, _ => []
  end.

(** Position + Position, Position - Position
    (LitlContainer/LitlContainer/Arithmetic.h: 15-26, 85-103 through boost::additive). *)
Definition vadd (u v : list Z) : list Z := map2 Z.add u v.
Definition vsub (u v : list Z) : list Z := map2 Z.sub u v.

(** Position + scalar, Position - scalar, - Position
    (LitlContainer/LitlContainer/Arithmetic.h: 28-38, 85-103, 151-157 through boost::additive). *)
Definition vadds (u : list Z) (a : Z) : list Z := map (fun x => x + a) u.
Definition vsubs (u : list Z) (a : Z) : list Z := map (fun x => x - a) u.
Definition vopp (u : list Z) : list Z := map Z.opp u.

(** Equality of vectors: same size and same elements
    (LitlContainer/LitlContainer/ContiguousContainer.h: 198-200). *)
Fixpoint veqb (u v : list Z) : bool :=
  match u, v with
  | [], [] => true
  | x :: u', y :: v' => (x =? y) && veqb u' v'
  | _, _ => false
  end.

(** shapeStride(shape, axis): product of the [axis] first lengths, accumulated from the left
    (LitlRaster/LitlRaster/Vector.h: 202-205). *)
Definition shapeStride (shape : list Z) (axis : nat) : Z :=
  fold_left Z.mul (firstn axis shape) 1.

(** shapeSize(shape) (LitlRaster/LitlRaster/Vector.h: 220-227). *)
Definition shapeSize (shape : list Z) : Z :=
  match shape with
  | [] => 0
  | _ => shapeStride shape (length shape)
  end.

(** shapeStride and shapeSize with 64-bit signed multiplications
    (LitlRaster/LitlRaster/Vector.h: 202-227). *)
Definition shapeStride64 (shape : list Z) (axis : nat) : res Z :=
  fold_left (fun acc x => a <- acc ;; chk64 (a * x)) (firstn axis shape) (Ok 1).

Definition shapeSize64 (shape : list Z) : res Z :=
  match shape with
  | [] => Ok 0
  | _ => shapeStride64 shape (length shape)
  end.

(** Limits<T>::inf() for T = Index: the greatest value (LitlTypes/LitlTypes/TypeUtils.h: 180-258). *)
Definition indexInf : Z := 2 ^ 63 - 1.

(** The dimension of the vectors built by zero(), one(), inf(): std::abs(N) for template parameter [n]
    (LitlRaster/LitlRaster/Vector.h: 91, 99, 107). *)
Definition tplDim (n : Z) : nat := Z.to_nat (Z.abs n).

(** zero(), one(), inf() (LitlRaster/LitlRaster/Vector.h: 90-109); note the sign in inf(). *)
Definition vzero (n : Z) : list Z := repeat 0 (tplDim n).
Definition vone (n : Z) : list Z := repeat 1 (tplDim n).
Definition vinf (n : Z) : list Z := repeat (- indexInf) (tplDim n).

(** isZero(), isOne(), isInf() (LitlRaster/LitlRaster/Vector.h: 114-145). *)
Fixpoint vall (x : Z) (u : list Z) : bool :=
  match u with
  | [] => true
  | i :: u' => if negb (i =? x) then false else vall x u'
  end.
Definition isZero (u : list Z) : bool := vall 0 u.
Definition isOne (u : list Z) : bool := vall 1 u.
Definition isInf (u : list Z) : bool := vall indexInf u.

(** std::copy_n(src, n, dst): undefined if a range is too short. *)
Fixpoint copy_n {A : Type} (src : list A) (n : nat) (dst : list A) : res (list A) :=
  match n, src, dst with
  | O, _, _ => Ok dst
  | S n', x :: src', _ :: dst' => t <- copy_n src' n' dst' ;; Ok (x :: t)
  | _, _, _ => UB
  end.

(** slice<M>() (LitlRaster/LitlRaster/Vector.h: 153-158); the new vector is value-initialized. *)
Definition vslice (m : nat) (u : list Z) : res (list Z) := copy_n u m (repeat 0 m).

(** extend<M>(padding) (LitlRaster/LitlRaster/Vector.h: 167-172). *)
Definition vextend (u padding : list Z) : res (list Z) := copy_n u (length u) padding.

(** clamp(value, min, max) (LitlTypes/LitlTypes/TypeUtils.h: 157-160). *)
Definition clampZ (x lo hi : Z) : Z :=
  if x <? lo then lo else if hi <? x then hi else x.

(** clamp(position, shape) (LitlRaster/LitlRaster/Box.h: 311-318). *)
Definition vclamp (pos shape : list Z) : list Z := map2 (fun p s => clampZ p 0 (s - 1)) pos shape.
