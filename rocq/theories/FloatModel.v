(** Model of the functions which work on values of type double, with rounding: IEEE 754 binary64 numbers, to nearest, ties to even
    (the formalisation of Flocq, the operations of which are computable). Simplification: the compiler neither contracts nor
    reorders operations, and does not use an extended precision. *)
From Flocq Require Import IEEE754.BinarySingleNaN.
From Verif Require Import Res.

Definition hprec : FLX.Prec_gt_0 53 := eq_refl.
Definition hmax : Prec_lt_emax 53 1024 := eq_refl.

Definition double := binary_float 53 1024.
Definition dadd : double -> double -> double := Bplus (prec_gt_0_ := hprec) (prec_lt_emax_ := hmax) mode_NE.
Definition dsub : double -> double -> double := Bminus (prec_gt_0_ := hprec) (prec_lt_emax_ := hmax) mode_NE.
Definition dmul : double -> double -> double := Bmult (prec_gt_0_ := hprec) (prec_lt_emax_ := hmax) mode_NE.
Definition ddiv : double -> double -> double := Bdiv (prec_gt_0_ := hprec) (prec_lt_emax_ := hmax) mode_NE.
Definition dopp : double -> double := Bopp.

(** Conversion of an integer to double. *)
Definition dofZ (z : Z) : double := binary_normalize 53 1024 hprec hmax mode_NE z 0 false.

(** The double m 2^e, rounded: for literals. *)
Definition dlit (m e : Z) : double := binary_normalize 53 1024 hprec hmax mode_NE m e false.

(** Comparison x < y: false if any is NaN. *)
Definition dltb (x y : double) : bool := match Bcompare x y with Some Lt => true | _ => false end.

(** Conversion of a double to Index: truncation, undefined if the result does not fit. *)
Definition dtrunc (x : double) : res Z :=
  match x with
  | B754_zero _ => Ok 0
  | B754_finite s m e _ =>
      let a := if 0 <=? e then Zpos m * 2 ^ e else Zpos m / 2 ^ (- e) in
      chk64 (if s then - a else a)
  | _ => UB
  end.

(** floor<Index>(in) (LitlTypes/LitlTypes/TypeUtils.h: 165-169). *)
Definition dfloor (x : double) : res Z := z <- dtrunc x ;; chk64 (z - (if dltb x (dofZ 0) then 1 else 0)).

(** The formula of Linear::at (LitlTransforms/LitlTransforms/InterpolationMethods.h: 104, 115) for pixels of type double. *)
Definition dlinear (d p n : double) : double := dadd (dmul d (dsub p n)) n.

(** Linear::at (InterpolationMethods.h: 98-117), as linearRec in InterpModel.v. *)
Fixpoint dlinearRec (get : list Z -> res double) (rpos : list double) (indices : list Z) : res double :=
  match rpos with
  | [] => UB
  | x :: rpos' =>
      f <- dfloor x ;;
      let d := dsub x (dofZ f) in
      let at_ i := match rpos' with [] => get (i :: indices) | _ => dlinearRec get rpos' (i :: indices) end in
      p <- at_ f ;; n <- at_ (f + 1) ;; Ok (dlinear d p n)
  end.
Definition dlinearAt (get : list Z -> res double) (p : list double) : res double := dlinearRec get (rev p) [].

(** The formula of Cubic::at (InterpolationMethods.h: 133, 146) for pixels of type double. *)
Definition dcubic (d pp p n nn : double) : double :=
  let a := dmul d (dadd (dopp pp) n) in
  let b := dmul (dmul d d) (dsub (dadd (dsub (dmul (dofZ 2) pp) (dmul (dofZ 5) p)) (dmul (dofZ 4) n)) nn) in
  let c := dmul (dmul (dmul d d) d) (dadd (dsub (dadd (dopp pp) (dmul (dofZ 3) p)) (dmul (dofZ 3) n)) nn) in
  dadd p (dmul (dlit 1 (-1)) (dadd (dadd a b) c)).

(** Cubic::at (InterpolationMethods.h: 125-147), as cubicRec in InterpModel.v. *)
Fixpoint dcubicRec (get : list Z -> res double) (rpos : list double) (indices : list Z) : res double :=
  match rpos with
  | [] => UB
  | x :: rpos' =>
      f <- dfloor x ;;
      let d := dsub x (dofZ f) in
      let at_ i := match rpos' with [] => get (i :: indices) | _ => dcubicRec get rpos' (i :: indices) end in
      pp <- at_ (f - 1) ;; p <- at_ f ;; n <- at_ (f + 1) ;; nn <- at_ (f + 2) ;; Ok (dcubic d pp p n nn)
  end.
Definition dcubicAt (get : list Z -> res double) (p : list double) : res double := dcubicRec get (rev p) [].

(** NearestNeighbor::at for floating-point positions (InterpolationMethods.h: 59-66): the index along each axis. *)
Definition dnearest (x : double) : res Z := dtrunc (dadd x (dlit 1 (-1))).

(** range(min, step) of DataContainer (LitlContainer/LitlContainer/DataContainer.h: 142-150) for values passed by copy. *)
Fixpoint drange (n : nat) (v step : double) : list double :=
  match n with
  | O => []
  | S n' => v :: drange n' (dadd v step) step
  end.

(** linspace(min, max) (DataContainer.h: 162-170). One element: the division by zero gives an infinity or NaN which is not used. *)
Fixpoint dlinspaceLoop (n : nat) (i : Z) (mn step : double) : list double :=
  match n with
  | O => []
  | S n' => dadd mn (dmul step (dofZ i)) :: dlinspaceLoop n' (i + 1) mn step
  end.
Definition dlinspace (size : nat) (mn mx : double) : res (list double) :=
  match size with
  | O => UB (* size() - 1 wraps around: writes out of the container *)
  | S k => Ok (dlinspaceLoop k 0 mn (ddiv (dsub mx mn) (dofZ (Z.of_nat k))) ++ [mx])
  end.

(** mean() (LitlContainer/LitlContainer/DataDistribution.h: 47-54, 109-111): the sum from 0, over the number of elements. *)
Definition dmean (l : list double) : double := ddiv (fold_left dadd l (dofZ 0)) (dofZ (Z.of_nat (length l))).
