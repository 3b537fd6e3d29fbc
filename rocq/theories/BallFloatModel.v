(** Model of Ball and its iterator with doubles (LitlRaster/LitlRaster/Ball.h, LitlRaster/LitlRaster/BallIterator.h). *)
From Flocq Require Import IEEE754.BinarySingleNaN.
From Verif Require Import Res VecModel BoxModel BallModel FloatModel.
Open Scope Z_scope.

(** Radius and center (Ball.h: 200-209). *)
Record dball := mkDball { dbradius : double; dbcenter : list Z }.

(** std::abs. *)
Definition dabs : double -> double := Babs.

(** box() (Ball.h: 80-82): the radius is converted to Index. *)
Definition dballBox (b : dball) : res box := k <- dtrunc (dbradius b) ;; Ok (fromCenter k (dbcenter b)).

Section Power.
(** [std::pow( ., P)]: any function; the theorems state what they require of it. *)
Variable pow : double -> double.

(** distanceToCenter() (BallIterator.h: 65-75): std::inner_product from 0., with conversions of the coordinates to double. *)
Fixpoint dballDist (acc : double) (p c : list Z) : double :=
  match p, c with
  | x :: p', y :: c' => dballDist (dadd acc (pow (dabs (dsub (dofZ y) (dofZ x))))) p' c'
  | _, _ => acc
  end.

(** distanceToCenter() > m_radiusP (BallIterator.h: 18, 20, 61). *)
Definition dballOut (b : dball) (p : list Z) : bool := dltb (pow (dbradius b)) (dballDist (dofZ 0) p (dbcenter b)).

(** [for (const auto& p : ball) visit(p)] (BallIterator.h: 25-31, 106-122). *)
Definition dballForeach (fuel : nat) (b : dball) : option (res (list (list Z))) :=
  match dballBox b with
  | Ok bx => regionForeach bx (dballOut b) fuel
  | Throw x => Some (Throw x)
  | UB => Some UB
  end.
End Power.
