(** Model of the iterators over boxes, balls and subrasters as objects: which objects they refer to, and what copies do
    (LitlRaster/LitlRaster/BoxIterator.h, BallIterator.h, SubrasterIterator.h).
    What their increment computes is modelled by [next], [regionNext] and [subNext]. *)
From Coq Require Import QArith.
From Verif Require Import Res VecModel BoxModel TypesModel RasterModel BallModel SubrasterModel.
Open Scope Z_scope.

(** Members of the iterators but the reference to the region which is iterated over.
    Box::Iterator (BoxIterator.h: 109-118): m_current.
    Ball::Iterator (BallIterator.h: 76-101): m_radiusP, m_center (a reference to the center of an object), m_box, and the positions
    of m_current and m_end.
    Subraster::Iterator (SubrasterIterator.h: 81-109): m_beginPlane, m_width, and the rest. *)
Inductive iter :=
| BoxIter (cur : list Z)
| BallIter (radiusP : Q) (center : nat) (own : box) (cur fin : list Z)
| SubIter (own : box) (width : Z) (cur : subIt).

(** Objects are designated by their rank of creation. An iterator has a reference to a box:
    m_region of Box::Iterator (BoxIterator.h: 113), and that of the box iterators which Ball::Iterator (m_current and m_end, BallIterator.h:
    96-101) and Subraster::Iterator (m_beginIt, SubrasterIterator.h: 94) hold. *)
Inductive object :=
| BoxObj (b : box)
| BallObj (b : ball)
| IterObj (region : nat) (it : iter).

(** The objects; None: destroyed. *)
Definition store := list (option object).
Definition object_at (s : store) (i : nat) : option object := match nth_error s i with Some (Some o) => Some o | _ => None end.

(** The box to which a reference refers: a Box object, or the member m_box or m_beginPlane of an iterator. *)
Definition regionOf (s : store) (r : nat) : res box :=
  match object_at s r with
  | Some (BoxObj b) => Ok b
  | Some (IterObj _ (BallIter _ _ own _ _)) | Some (IterObj _ (SubIter own _ _)) => Ok own
  | _ => UB
  end.
(** The center to which m_center refers. *)
Definition centerOf (s : store) (r : nat) : res (list Z) := match object_at s r with Some (BallObj b) => Ok (bcenter b) | _ => UB end.

Section Programs.
(** The norm of the balls, the parent of the subrasters (which outlives all the iterators), and the fuel of the loops. *)
Variables (P n : Z) (shape : list Z) (fuel : nat).

Definition out (rp : Q) (c p : list Z) : bool := qltb rp (inject_Z (ballDist P p c)).

(** next() of the three iterators (BoxIterator.h: 93-107, BallIterator.h: 58-63, SubrasterIterator.h: 70-79).
    Simplification: the center of the ball is looked for even if it is not needed because the end is reached. *)
Definition nextIter (s : store) (r : nat) (it : iter) : option (res iter) :=
  match it with
  | BoxIter c => Some (b <- regionOf s r ;; c' <- next b c ;; Ok (BoxIter c'))
  | BallIter rp center own cur fin =>
      match regionOf s r, centerOf s center with
      | Ok b, Ok c => match regionNext b (out rp c) fuel fin cur with
                      | Some (Ok cur') => Some (Ok (BallIter rp center own cur' fin))
                      | Some (Throw x) => Some (Throw x)
                      | Some UB => Some UB
                      | None => None
                      end
      | _, _ => Some UB
      end
  | SubIter own w c =>
      Some (if negb (siCurrent c + 1 =? siEol c) then Ok (SubIter own w (mkSubIt (siBegin c) (siCurrent c + 1) (siEol c)))
            else b <- regionOf s r ;; p <- next b (siBegin c) ;; i <- rindex n shape p ;; Ok (SubIter own w (mkSubIt p i (i + w))))
  end.

(** Constructors, for objects of rank [self]: the box iterators in a Ball::Iterator refer to its own m_box, and the one in a
    Subraster::Iterator refers to its own m_beginPlane (BallIterator.h: 17-23, SubrasterIterator.h: 23-25).
    begin() returns a temporary (BallIterator.h: 110-113): as of C++17, it is the object which is initialized with it, and no copy. *)
Definition ballIter (center : nat) (b : ball) (pos : list Z) : option (res iter) :=
  match endPosition (ballBox b) with
  | Ok e => match regionSkip (ballBox b) (out (Qpower (bradius b) P) (bcenter b)) fuel e pos with
            | Some (Ok c) => Some (Ok (BallIter (Qpower (bradius b) P) center (ballBox b) c e))
            | Some (Throw x) => Some (Throw x)
            | Some UB => Some UB
            | None => None
            end
  | Throw x => Some (Throw x)
  | UB => Some UB
  end.
Definition subIter (region : box) (pos : list Z) : res iter :=
  plane <- project region 0 ;; w <- boxLength region 0 ;; c <- subItMake n shape region pos ;; Ok (SubIter plane w c).

(** Operations. The result of the increments is the position, or the address of the pixel, to which the returned reference or pointer refers. *)
Inductive iop :=
| NewBox (b : box)
| NewBall (b : ball)
| Begin (i : nat)              (* begin(box) and begin(ball) *)
| BeginSub (region : box)      (* begin(subraster): its region is only used by the constructor *)
| Copy (i : nat)               (* the implicit copy constructors *)
| Incr (i : nat)               (* ++it *)
| PostIncr (i : nat)           (* it++ *)
| Reset (i : nat)              (* it.reset(), only for boxes *)
| SetBox (i : nat) (b : box)   (* any modification of a box, or the assignment to a box *)
| SetBall (i : nat) (b : ball) (* the same of a ball *)
| Destroy (i : nat).

Definition create (s : store) (o : object) : store := s ++ [Some o].

(** One operation. None: not a C++ program, or not enough fuel.
    Iterators cannot be assigned to, because they have reference members. The copy constructors are member-wise, hence references in the copy refer to the same objects as in the source.
    Both increments call next() (BoxIterator.h: 54-63, BallIterator.h: 41-47, SubrasterIterator.h: 44-53). *)
Definition istep (s : store) (o : iop) : option (res store) :=
  match o with
  | NewBox b => Some (Ok (create s (BoxObj b)))
  | NewBall b => Some (Ok (create s (BallObj b)))
  | Begin i =>
      match object_at s i with
      | Some (BoxObj b) => Some (Ok (create s (IterObj i (BoxIter (beginPosition b)))))
      | Some (BallObj b) =>
          match ballIter i b (beginPosition (ballBox b)) with
          | Some (Ok it) => Some (Ok (create s (IterObj (length s) it)))
          | Some (Throw x) => Some (Throw x)
          | Some UB => Some UB
          | None => None
          end
      | _ => None
      end
  | BeginSub region => Some (it <- subIter region (beginPosition region) ;; Ok (create s (IterObj (length s) it)))
  | Copy i => match object_at s i with Some o => Some (Ok (create s o)) | None => None end
  | Incr i | PostIncr i =>
      match object_at s i with
      | Some (IterObj r it) =>
          match nextIter s r it with
          | Some (Ok it') => Some (Ok (replace s i (Some (IterObj r it'))))
          | Some (Throw x) => Some (Throw x)
          | Some UB => Some UB
          | None => None
          end
      | _ => None
      end
  | Reset i =>   (* BoxIterator.h: 82-84 *)
      match object_at s i with
      | Some (IterObj r (BoxIter _)) => Some (b <- regionOf s r ;; Ok (replace s i (Some (IterObj r (BoxIter (bfront b))))))
      | _ => None
      end
  | SetBall i b => match object_at s i with Some (BallObj _) => Some (Ok (replace s i (Some (BallObj b)))) | _ => None end
  | SetBox i b => match object_at s i with Some (BoxObj _) => Some (Ok (replace s i (Some (BoxObj b)))) | _ => None end
  | Destroy i => match object_at s i with Some _ => Some (Ok (replace s i None)) | None => None end
  end.

Fixpoint iexec (s : store) (ops : list iop) : option (res store) :=
  match ops with
  | [] => Some (Ok s)
  | o :: ops' => match istep s o with Some (Ok s') => iexec s' ops' | r => r end
  end.
End Programs.

(** [while (it != end) visit( *it++);] for a box iterator: it++ returns the address of m_current, after it was moved (BoxIterator.h: 61-63). *)
Fixpoint postLoop (fuel : nat) (b : box) (e cur : list Z) : option (res (list (list Z))) :=
  match fuel with
  | O => None
  | S fuel' =>
      if veqb cur e then Some (Ok [])
      else match next b cur with
           | Ok c' => match postLoop fuel' b e c' with Some (Ok l) => Some (Ok (c' :: l)) | r => r end
           | Throw x => Some (Throw x)
           | UB => Some UB
           end
  end.
