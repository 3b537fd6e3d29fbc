(** Model of extrapolators and interpolators as objects: what they refer to
    (LitlTransforms/LitlTransforms/Interpolation.h). What their methods compute is modelled in InterpModel.v. *)
From Verif Require Import Res VecModel BoxModel RasterModel TypesModel InterpModel.

(** The methods, which are members of the decorators (Interpolation.h: 80-83, 175-178). *)
Inductive extraMethod := Constant (c : Q) | Nearest | Repeated.
Inductive interMethod := NearestInter | LinearInter | CubicInter.

(** TMethod::at (InterpolationMethods.h: 27-33, 50-54, 78-89). *)
Definition extraAt (n : Z) (m : extraMethod) (r : raster Q) (p : list Z) : res Q :=
  match m with
  | Constant c => constantAt n c r p
  | Nearest => nearestAt n r p
  | Repeated => periodicAt n r p
  end.

(** TMethod::at<Floating> (InterpolationMethods.h: 59-66, 98-147; Interpolation.h: 162-167), where [get] is operator[] of the decorated object. *)
Definition interAt (m : interMethod) (get : list Z -> res Q) (p : list Q) : res Q :=
  match m with
  | NearestInter => nearestInterp get p
  | LinearInter => linearAt get p
  | CubicInter => cubicAt get p
  end.

(** The types of objects, up to methods: Raster, Extrapolator<Raster, TMethod> and Interpolator<TRaster, TMethod> (Interpolation.h: 24-25, 109-110). There are
    no extrapolators of decorators, because the methods require TRaster::value_type or TRaster::contains(), which decorators do not have
    (InterpolationMethods.h: 27-33, 50-54, 78-89). *)
Inductive dtype := TRaster | TExtra | TInter (d : dtype).

(** Objects are designated by their rank of creation. Decorators keep a reference, m_raster (Interpolation.h: 75-78, 170-173). [d]: type of the target of an
    interpolator. *)
Inductive dobject :=
| RasterObj (r : raster Q)
| ExtraObj (target : nat) (m : extraMethod)
| InterObj (d : dtype) (target : nat) (m : interMethod).
Definition typeOf (o : dobject) : dtype := match o with RasterObj _ => TRaster | ExtraObj _ _ => TExtra | InterObj d _ _ => TInter d end.

(** The objects; None: destroyed. *)
Definition dstore := list (option dobject).
Definition dobject_at (s : dstore) (i : nat) : option dobject := match nth_error s i with Some (Some o) => Some o | _ => None end.

(** operator[] of an object of type [d], or through a reference to this type (Interpolation.h: 65-72, 155-160). The use of a destroyed object is undefined. *)
Fixpoint readTarget (n : Z) (s : dstore) (d : dtype) (i : nat) (p : list Z) : res Q :=
  match d, dobject_at s i with
  | TRaster, Some (RasterObj r) => rget n r p
  | TExtra, Some (ExtraObj t m) => match dobject_at s t with Some (RasterObj r) => extraAt n m r p | _ => UB end
  | TInter d', Some (InterObj _ t _) => readTarget n s d' t p
  | _, _ => UB
  end.

(** operator[] of any object (Interpolation.h: 65-72, 155-160). *)
Definition subscript (n : Z) (s : dstore) (i : nat) (p : list Z) : res Q :=
  match dobject_at s i with
  | Some o => readTarget n s (typeOf o) i p
  | None => UB
  end.

(** operator() of an interpolator (Interpolation.h: 162-167). *)
Definition evaluate (n : Z) (s : dstore) (i : nat) (p : list Q) : res Q :=
  match dobject_at s i with
  | Some (InterObj d t m) => interAt m (readTarget n s d t) p
  | _ => UB
  end.

(** A raster of template dimension [n] after it was moved from (Raster.h: 176-177): it has no pixel left, and m_shape is emptied if it is a vector
    (see movedFrom in RasterModel.v). *)
Definition movedRaster (n : Z) (r : raster Q) : raster Q := mkRaster (movedFrom n (rshape r)) [].

(** Operations: creation of a raster, extrapolate(), interpolate() (Interpolation.h: 181-206), copies of rasters and decorators, pixel
    assignment, assignment to a raster, possibly of another shape, move from a raster, and end of lifetime. Decorators cannot be assigned to,
    because they have reference members; their moves are copies (the methods hold at most a value).
    Simplification: the raster which takes the pixels of the one which is moved from is given by another operation, [NewRaster] or [Assign]. *)
Inductive dop :=
| NewRaster (r : raster Q)
| Extrapolate (target : nat) (m : extraMethod)
| Interpolate (target : nat) (m : interMethod)
| CopyOf (i : nat)
| Write (i : nat) (p : list Z) (v : Q)
| Assign (i : nat) (r : raster Q)
| Moved (i : nat)
| Destroy (i : nat).

(** One operation. None: not a C++ program. *)
Definition dstep (n : Z) (s : dstore) (o : dop) : option (res dstore) :=
  match o with
  | NewRaster r => Some (Ok (s ++ [Some (RasterObj r)]))
  | Extrapolate t m => match dobject_at s t with Some (RasterObj _) => Some (Ok (s ++ [Some (ExtraObj t m)])) | _ => None end
  | Interpolate t m =>
      match dobject_at s t with
      | Some x => Some (Ok (s ++ [Some (InterObj (typeOf x) t m)]))
      | None => None
      end
  | CopyOf i => match dobject_at s i with Some x => Some (Ok (s ++ [Some x])) | None => None end
  | Write i p v =>
      match dobject_at s i with
      | Some (RasterObj r) => Some (r' <- rset n r p v ;; Ok (replace s i (Some (RasterObj r'))))
      | _ => None
      end
  | Assign i r => match dobject_at s i with Some (RasterObj _) => Some (Ok (replace s i (Some (RasterObj r)))) | _ => None end
  | Moved i => match dobject_at s i with Some (RasterObj r) => Some (Ok (replace s i (Some (RasterObj (movedRaster n r))))) | _ => None end
  | Destroy i => match dobject_at s i with Some _ => Some (Ok (replace s i None)) | None => None end
  end.

Fixpoint drun (n : Z) (s : dstore) (ops : list dop) : option (res dstore) :=
  match ops with
  | [] => Some (Ok s)
  | o :: ops' =>
      match dstep n s o with
      | Some (Ok s') => drun n s' ops'
      | r => r
      end
  end.

(** What the reference returned by operator[] designates: a pixel of a raster or the member `value` of the method of an extrapolator. *)
Inductive place := Pixel (i : nat) (p : list Z) | Member (i : nat).

(** The reference returned by operator[] of an extrapolator (Interpolation.h: 65-72; InterpolationMethods.h: 27-33, 50-54, 78-89),
    of rank [i], of method [m], which decorates the raster [r] of rank [t]. Binding a reference to a pixel does not read it, yet
    there must be one. *)
Definition extraPlace (n : Z) (i : nat) (m : extraMethod) (t : nat) (r : raster Q) (p : list Z) : res place :=
  let pixel q := _ <- rget n r q ;; Ok (Pixel t q) in
  match m with
  | Constant _ => c <- contains r p ;; if c then pixel p else Ok (Member i)
  | Nearest => if Nat.eqb (length p) (length (rshape r)) then pixel (vclamp p (rshape r)) else UB
  | Repeated => q <- periodicPos p (rshape r) ;; pixel q
  end.
Definition referTo (n : Z) (s : dstore) (i : nat) (p : list Z) : res place :=
  match dobject_at s i with
  | Some (ExtraObj t m) => match dobject_at s t with Some (RasterObj r) => extraPlace n i m t r p | _ => UB end
  | _ => UB
  end.

(** Read through such a reference. Simplification: the assignment to a whole raster, which may reallocate its pixels, and the move of
    its pixels are not followed; the theorems exclude them. *)
Definition readPlace (n : Z) (s : dstore) (l : place) : res Q :=
  match l with
  | Pixel t q => match dobject_at s t with Some (RasterObj r) => rget n r q | _ => UB end
  | Member i => match dobject_at s i with Some (ExtraObj _ (Constant c)) => Ok c | _ => UB end
  end.
