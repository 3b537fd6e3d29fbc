(** Model of Ball and its iterator (LitlRaster/LitlRaster/Ball.h, LitlRaster/LitlRaster/BallIterator.h).
    The radius, a double, is an exact rational; distances, sums of powers of integers computed in double, are exact.
    The pseudo-norm L0 is not modelled: its iterator is declared and not defined (Ball.h: 20-23). *)
From Verif Require Import Res VecModel BoxModel TypesModel.
Open Scope Z_scope.

(** Radius and center (Ball.h: 200-209). *)
Record ball := mkBall { bradius : Q; bcenter : list Z }.

(** box() (Ball.h: 80-82): the radius is converted to Index. *)
Definition ballBox (b : ball) : box := fromCenter (qtrunc (bradius b)) (bcenter b).

(** length() (Ball.h: 108-118) and shape() for template parameter [n] >= 0 (Ball.h: 87-89). *)
Definition ballLength (b : ball) : Z := 2 * qtrunc (bradius b) + 1.
Definition ballShape (n : nat) (b : ball) : list Z := repeat (ballLength b) n.

(** dimension() (Ball.h: 94-96) and size() (Ball.h: 101-103). *)
Definition ballDim (b : ball) : nat := length (bcenter b).
Definition ballSize (b : ball) : Z := boxSize (ballBox b).

(** Equality (Ball.h: 125-134). *)
Definition ballEqb (a b : ball) : bool := Qeq_bool (bradius a) (bradius b) && veqb (bcenter a) (bcenter b).

(** Shifts and opposite (Ball.h: 141-196). *)
Definition ballShift (b : ball) (v : list Z) : ball := mkBall (bradius b) (vadd (bcenter b) v).
Definition ballUnshift (b : ball) (v : list Z) : ball := mkBall (bradius b) (vsub (bcenter b) v).
Definition ballAdds (b : ball) (a : Z) : ball := mkBall (bradius b) (vadds (bcenter b) a).
Definition ballSubs (b : ball) (a : Z) : ball := mkBall (bradius b) (vsubs (bcenter b) a).
Definition ballOpp (b : ball) : ball := mkBall (bradius b) (vopp (bcenter b)).

(** distanceToCenter() for norm [P] (BallIterator.h: 65-75). *)
Fixpoint ballDist (P : Z) (p c : list Z) : Z :=
  match p, c with
  | x :: p', y :: c' => Z.abs (y - x) ^ P + ballDist P p' c'
  | _, _ => 0
  end.

(** distanceToCenter() > m_radiusP (BallIterator.h: 18, 20, 61). *)
Definition ballOut (P : Z) (b : ball) (p : list Z) : bool :=
  qltb (Qpower (bradius b) P) (inject_Z (ballDist P p (bcenter b))).

(** The iterator only depends on the bounding box [bx] and on the test [out], distanceToCenter() > m_radiusP. *)
Section Region.
Variables (bx : box) (out : list Z -> bool).

(** The loop of the constructor: skip the positions of the box which are not in the ball (BallIterator.h: 20-22). *)
Fixpoint regionSkip (fuel : nat) (e cur : list Z) : option (res (list Z)) :=
  match fuel with
  | O => None
  | S fuel' =>
      if veqb cur e then Some (Ok cur)
      else if out cur then
        match next bx cur with
        | Ok c' => regionSkip fuel' e c'
        | Throw x => Some (Throw x)
        | UB => Some UB
        end
      else Some (Ok cur)
  end.

(** next() (BallIterator.h: 58-63): move, then skip. *)
Definition regionNext (fuel : nat) (e cur : list Z) : option (res (list Z)) :=
  match next bx cur with
  | Ok c' => regionSkip fuel e c'
  | Throw x => Some (Throw x)
  | UB => Some UB
  end.

(** [for (it = cur; it != end; ++it) visit( *it)]. *)
Fixpoint regionLoop (fuel : nat) (e cur : list Z) : option (res (list (list Z))) :=
  match fuel with
  | O => None
  | S fuel' =>
      if veqb cur e then Some (Ok [])
      else match regionNext fuel e cur with
           | Some (Ok c') =>
               match regionLoop fuel' e c' with
               | Some (Ok l) => Some (Ok (cur :: l))
               | r => r
               end
           | Some (Throw x) => Some (Throw x)
           | Some UB => Some UB
           | None => None
           end
  end.

(** [for (const auto& p : ball) visit(p)] (BallIterator.h: 25-31, 106-122): begin() skips, end() does not move. *)
Definition regionForeach (fuel : nat) : option (res (list (list Z))) :=
  match endPosition bx with
  | Ok e =>
      match regionSkip fuel e (beginPosition bx) with
      | Some (Ok c) => regionLoop fuel e c
      | Some (Throw x) => Some (Throw x)
      | Some UB => Some UB
      | None => None
      end
  | Throw x => Some (Throw x)
  | UB => Some UB
  end.
End Region.

Definition ballForeach (fuel : nat) (P : Z) (b : ball) : option (res (list (list Z))) := regionForeach (ballBox b) (ballOut P b) fuel.
