(** Model of the extrapolation and interpolation methods (LitlTransforms/LitlTransforms/InterpolationMethods.h)
    and of their decorators (LitlTransforms/LitlTransforms/Interpolation.h): operator[] and operator() call at().
    Values of type double are exact rationals. *)
From Verif Require Import Res VecModel BoxModel RasterModel TypesModel.

(** OutOfBoundsConstant::at (InterpolationMethods.h: 27-33). *)
Definition constantAt {A} (n : Z) (value : A) (r : raster A) (p : list Z) : res A :=
  c <- contains r p ;; if c then rget n r p else Ok value.

(** NearestNeighbor::at for integral positions (InterpolationMethods.h: 50-54).
    clamp is that of LitlRaster/LitlRaster/Box.h: 311-318. Simplification: positions of another dimension are excluded. *)
Definition nearestAt {A} (n : Z) (r : raster A) (p : list Z) : res A :=
  if Nat.eqb (length p) (length (rshape r)) then rget n r (vclamp p (rshape r)) else UB.

(** Periodic::at (InterpolationMethods.h: 78-89). The remainder of Index has the sign of the dividend; that by 0 is undefined. *)
Fixpoint periodicPos (p shape : list Z) : res (list Z) :=
  match p, shape with
  | [], _ => Ok []
  | x :: p', s :: shape' =>
      if s =? 0 then UB else
      let q := Z.rem x s in
      t <- periodicPos p' shape' ;; Ok ((if q <? 0 then q + s else q) :: t)
  | _ :: _, [] => UB
  end.
Definition periodicAt {A} (n : Z) (r : raster A) (p : list Z) : res A :=
  q <- periodicPos p (rshape r) ;; rget n r q.

(** NearestNeighbor::at for floating-point positions (InterpolationMethods.h: 59-66):
    the sums are converted to Index, hence truncated. [get] is operator[] of the raster or extrapolator. *)
Definition nearestInterp {A} (get : list Z -> res A) (p : list Q) : res A := get (map (fun e => qtrunc (e + (1 # 2))) p).

(** The formula of Linear::at (InterpolationMethods.h: 104, 115). *)
Definition linearFormula (d p n : Q) : Q := (d * (p - n) + n)%Q.

(** Linear::at (InterpolationMethods.h: 98-117): recursion from the last axis to the first one.
    The coordinates are given from the last one, [indices] are the indices of the next axes. *)
Fixpoint linearRec (get : list Z -> res Q) (rpos : list Q) (indices : list Z) : res Q :=
  match rpos with
  | [] => UB
  | x :: rpos' =>
      let f := floorM x in
      let d := (x - inject_Z f)%Q in
      let at_ i := match rpos' with [] => get (i :: indices) | _ => linearRec get rpos' (i :: indices) end in
      p <- at_ f ;; n <- at_ (f + 1) ;; Ok (linearFormula d p n)
  end.
Definition linearAt (get : list Z -> res Q) (p : list Q) : res Q := linearRec get (rev p) [].

(** The formula of Cubic::at (InterpolationMethods.h: 133, 146). *)
Definition cubicFormula (d pp p n nn : Q) : Q :=
  (p + (1 # 2) * (d * (- pp + n) + d * d * (2 * pp - 5 * p + 4 * n - nn) + d * d * d * (- pp + 3 * p - 3 * n + nn)))%Q.

(** Cubic::at (InterpolationMethods.h: 125-147). *)
Fixpoint cubicRec (get : list Z -> res Q) (rpos : list Q) (indices : list Z) : res Q :=
  match rpos with
  | [] => UB
  | x :: rpos' =>
      let f := floorM x in
      let d := (x - inject_Z f)%Q in
      let at_ i := match rpos' with [] => get (i :: indices) | _ => cubicRec get rpos' (i :: indices) end in
      pp <- at_ (f - 1) ;; p <- at_ f ;; n <- at_ (f + 1) ;; nn <- at_ (f + 2) ;; Ok (cubicFormula d pp p n nn)
  end.
Definition cubicAt (get : list Z -> res Q) (p : list Q) : res Q := cubicRec get (rev p) [].
