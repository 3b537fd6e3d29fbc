(** Model of Box and Box::Iterator
    (LitlRaster/LitlRaster/Box.h, LitlRaster/LitlRaster/BoxIterator.h). *)
From Verif Require Import Res VecModel.

(** A box is given by its front and back positions, both included (Box.h: 39, 276-281). *)
Record box := mkBox { bfront : list Z; bback : list Z }.

(** Box::fromShape (Box.h: 44-46). *)
Definition fromShape (front shape : list Z) : box := mkBox front (vsubs (vadd front shape) 1).

(** Box::fromCenter (Box.h: 51-53). *)
Definition fromCenter (radius : Z) (center : list Z) : box :=
  mkBox (vsubs center radius) (vadds center radius).

(** Box::whole for template parameter [n] (Box.h: 60-62). *)
Definition wholeBox (n : Z) : box := mkBox (vzero n) (vinf n).

(** Box::shape (Box.h: 83-85). *)
Definition boxShape (b : box) : list Z := vadds (vsub (bback b) (bfront b)) 1.

(** Box::dimension (Box.h: 90-92). *)
Definition boxDim (b : box) : nat := length (bfront b).

(** Box::size (Box.h: 97-99). *)
Definition boxSize (b : box) : Z := shapeSize (boxShape b).

(** Box::length(i) and Box::length<I>() (Box.h: 104-114). *)
Definition boxLength (b : box) (i : Z) : res Z :=
  k <- zget (bback b) i ;; f <- zget (bfront b) i ;; Ok (k - f + 1).

(** Box::operator== and operator!= (Box.h: 121-130). *)
Definition boxEqb (a b : box) : bool := veqb (bfront a) (bfront b) && veqb (bback a) (bback b).
Definition boxNeqb (a b : box) : bool :=
  negb (veqb (bfront a) (bfront b)) || negb (veqb (bback a) (bback b)).

(** One iteration of the loop of Box::surround along axis [i] (Box.h: 152-171).
    The state is the current (grown) box and the boxes pushed so far. *)
Definition surroundAxis (margin : box) (st : box * list box) (i : nat) : res (box * list box) :=
  let (current, out) := st in
  let zi := Z.of_nat i in
  f <- zget (bfront margin) zi ;;
  st1 <- (if f <? 0 then
            cf <- zget (bfront current) zi ;;
            bb <- zset (bback current) zi (cf - 1) ;;
            bf <- zset (bfront current) zi (cf + f) ;;
            Ok (mkBox bf (bback current), out ++ [mkBox bf bb])
          else Ok (current, out)) ;;
  let (current1, out1) := st1 : box * list box in
  b <- zget (bback margin) zi ;;
  if 0 <? b then
    cb <- zget (bback current1) zi ;;
    af <- zset (bfront current1) zi (cb + 1) ;;
    ab <- zset (bback current1) zi (cb + b) ;;
    Ok (mkBox (bfront current1) ab, out1 ++ [mkBox af ab])
  else Ok (current1, out1).

(** The loop over the axes of Box::surround (Box.h: 152). *)
Fixpoint surroundLoop (margin : box) (axes : list nat) (st : box * list box) : res (box * list box) :=
  match axes with
  | [] => Ok st
  | i :: axes' => st' <- surroundAxis margin st i ;; surroundLoop margin axes' st'
  end.

(** Box::surround (Box.h: 145-174). *)
Definition surround (b margin : box) : res (list box) :=
  st <- surroundLoop margin (seq 0 (boxDim b)) (b, []) ;; Ok (snd st).

(** Box::project(axis) and project(box, axis) (Box.h: 183-186, 288-292). *)
Definition project (b : box) (axis : Z) : res box :=
  f <- zget (bfront b) axis ;; k <- zset (bback b) axis f ;; Ok (mkBox (bfront b) k).

(** Box += Box, Box -= Box (Box.h: 191-204). *)
Definition boxGrow (b margin : box) : box :=
  mkBox (vadd (bfront b) (bfront margin)) (vadd (bback b) (bback margin)).
Definition boxShrink (b margin : box) : box :=
  mkBox (vsub (bfront b) (bfront margin)) (vsub (bback b) (bback margin)).

(** Box += Position, Box -= Position (Box.h: 209-222). *)
Definition boxShift (b : box) (v : list Z) : box := mkBox (vadd (bfront b) v) (vadd (bback b) v).
Definition boxUnshift (b : box) (v : list Z) : box := mkBox (vsub (bfront b) v) (vsub (bback b) v).

(** Box += Index, Box -= Index (Box.h: 227-240), ++Box, --Box (Box.h: 245-254). *)
Definition boxAdds (b : box) (a : Z) : box := mkBox (vadds (bfront b) a) (vadds (bback b) a).
Definition boxSubs (b : box) (a : Z) : box := mkBox (vsubs (bfront b) a) (vsubs (bback b) a).
Definition boxIncr (b : box) : box := boxAdds b 1.
Definition boxDecr (b : box) : box := boxSubs b 1.

(** - Box (Box.h: 266-268). *)
Definition boxOpp (b : box) : box := mkBox (vopp (bfront b)) (vopp (bback b)).

(** Box::Iterator::beginPosition (BoxIterator.h: 24-26). *)
Definition beginPosition (b : box) : list Z := bfront b.

(** [--p[0]] (BoxIterator.h: 33, 96): undefined if there is no axis 0. *)
Definition decr0 (p : list Z) : res (list Z) :=
  match p with
  | [] => UB
  | x :: p' => Ok (x - 1 :: p')
  end.

(** Box::Iterator::endPosition (BoxIterator.h: 31-35). *)
Definition endPosition (b : box) : res (list Z) := decr0 (bfront b).

(** The carry loop of Box::Iterator::next (BoxIterator.h: 100-105).
    The axes are scanned in order; the last axis is not tested. *)
Fixpoint carry (f b c : list Z) : list Z :=
  match f, b, c with
  | x :: f', y :: b', z :: (z' :: c'') as c' =>
      if y <? z then x :: carry f' b' (z' + 1 :: c'') else z :: carry f' b' (z' :: c'')
  | _, _, _ => c
  end.

(** [++current[0]] and the carry loop (BoxIterator.h: 99-106). *)
Definition advance (b : box) (c : list Z) : res (list Z) :=
  match c with
  | [] => UB
  | z :: c' => Ok (carry (bfront b) (bback b) (z + 1 :: c'))
  end.

(** Box::Iterator::next (BoxIterator.h: 93-107). *)
Definition next (b : box) (c : list Z) : res (list Z) :=
  if veqb c (bback b) then decr0 (bfront b) else advance b c.

(** Outcome of a loop run with some fuel: [None] if the fuel does not suffice.
    [for (it = cur; it != e; ++it) visit( *it)] yields the list of visited positions. *)
Fixpoint boxLoop (fuel : nat) (b : box) (e cur : list Z) : option (res (list (list Z))) :=
  match fuel with
  | O => None
  | S fuel' =>
      if veqb cur e then Some (Ok [])
      else match next b cur with
           | Ok c' =>
               match boxLoop fuel' b e c' with
               | Some (Ok l) => Some (Ok (cur :: l))
               | r => r
               end
           | Throw x => Some (Throw x)
           | UB => Some UB
           end
  end.

(** [for (const auto& p : box) visit(p)] with begin(box) and end(box) (BoxIterator.h: 125-137). *)
Definition boxForeach (fuel : nat) (b : box) : option (res (list (list Z))) :=
  match endPosition b with
  | Ok e => boxLoop fuel b e (beginPosition b)
  | Throw x => Some (Throw x)
  | UB => Some UB
  end.
