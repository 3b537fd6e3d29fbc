(** Model of ND kernels (LitlTransforms/LitlTransforms/Kernel.h). Values are exact integers. *)
From Verif Require Import Res VecModel BoxModel RasterModel SamplingModel LineKernelModel SeparableModel.

(** An ND kernel: values and window (Kernel.h: 33, 161-170). The constructor copies as many values as the size of the window. *)
Record nkernel := mkNkernel { kvalues : list Z; kwindow : box }.

(** kernelize from a raster and an origin, and from a raster only (Kernel.h: 186-200).
    Index division truncates. [n] is the template parameter. *)
Definition kernelizeAt (n : Z) (r : raster Z) (origin : list Z) : res nkernel :=
  d <- rdomain n (rshape r) ;; Ok (mkNkernel (rdata r) (boxUnshift d origin)).
Definition kernelize (n : Z) (r : raster Z) : res nkernel :=
  kernelizeAt n r (map (fun s => Z.quot s 2) (rshape r)).

(** The weighted sum of one pixel, row by row (Kernel.h: 119-123). *)
Fixpoint rowSum (rows : nat) (values mem : list Z) (kIt inIt kWidth inWidth acc : Z) : res Z :=
  match rows with
  | O => Ok acc
  | S rows' =>
      acc' <- innerLoop (Z.to_nat kWidth) values mem kIt inIt 1 acc ;;
      rowSum rows' values mem (kIt + kWidth) (inIt + inWidth) kWidth inWidth acc'
  end.

(** The loop over the pixels of a row (Kernel.h: 117-125): the state is the input address and the output memory.
    Simplification: the difference between pointers to different arrays is a difference of addresses;
    both arrays start at address 0 of their own memory. *)
Fixpoint rowLoop (pixels : nat) (values mem : list Z) (rows : nat) (kWidth inWidth distance outIt inIt : Z) (out : list Z)
  : res (Z * list Z) :=
  match pixels with
  | O => Ok (inIt, out)
  | S pixels' =>
      sum <- rowSum rows values mem 0 inIt kWidth inWidth 0 ;;
      out' <- zset out outIt sum ;;
      rowLoop pixels' values mem rows kWidth inWidth distance (outIt + 1) (outIt + 1 - distance) out'
  end.

(** The loop over the hyperplane (Kernel.h: 113-126): the input address is not moved to the new row. *)
Fixpoint rowsLoop (n : Z) (shape : list Z) (ps : list (list Z)) (pixels : nat) (values mem : list Z) (rows : nat)
  (kWidth inWidth distance inIt : Z) (out : list Z) : res (list Z) :=
  match ps with
  | [] => Ok out
  | p :: ps' =>
      outIt <- rindex n shape p ;;
      st <- rowLoop pixels values mem rows kWidth inWidth distance outIt inIt out ;;
      let (inIt', out') := st : Z * list Z in
      rowsLoop n shape ps' pixels values mem rows kWidth inWidth distance inIt' out'
  end.

(** correlateWithoutExtrapolation (Kernel.h: 92-127). *)
Definition correlateInner (fuel : nat) (n : Z) (k : nkernel) (r : raster Z) (b : box) (out : raster Z) : option (res (raster Z)) :=
  if boxSize b =? 0 then Some (Ok out) else
  obind (lift (boxLength b 0)) (fun boxWidth =>
  obind (lift (project b 0)) (fun pb =>
  obind (lift (zget (rshape r) 0)) (fun inWidth =>
  obind (lift (boxLength (kwindow k) 0)) (fun kWidth =>
  if kWidth =? 0 then Some UB else
  let rows := Z.quot (boxSize (kwindow k)) kWidth in
  obind (lift (rindex n (rshape out) (bfront pb))) (fun outIt =>
  obind (boxForeach fuel pb) (fun ps =>
  obind (lift (rowsLoop n (rshape out) ps (Z.to_nat boxWidth) (kvalues k) (rdata r) (Z.to_nat rows) kWidth inWidth outIt 0 (rdata out)))
    (fun d => Some (Ok (mkRaster (rshape out) d))))))))).

(** One pixel of an extrapolated region (Kernel.h: 150-157). [ext] is the extrapolated input,
    [buffer] the buffer: std::transform writes as many values as there are positions in the window. *)
Definition extPixel (fuel : nat) (n : Z) (k : nkernel) (ext : list Z -> res Z) (p : list Z) (out : raster Z) (buffer : list Z)
  : option (res (raster Z * list Z)) :=
  obind (boxForeach fuel (boxShift (kwindow k) p)) (fun qs =>
  obind (lift (mapRes ext qs)) (fun xs =>
  if Nat.ltb (length buffer) (length xs) then Some UB else
  let buffer' := xs ++ skipn (length xs) buffer in
  obind (lift (innerProduct (kvalues k) buffer' 0 (Z.of_nat (length (kvalues k))) 0 1 0)) (fun sum =>
  obind (lift (rset n out p sum)) (fun out' => Some (Ok (out', buffer')))))).

Fixpoint extLoop (fuel : nat) (n : Z) (k : nkernel) (ext : list Z -> res Z) (ps : list (list Z)) (out : raster Z) (buffer : list Z)
  : option (res (raster Z)) :=
  match ps with
  | [] => Some (Ok out)
  | p :: ps' =>
      obind (extPixel fuel n k ext p out buffer) (fun st => let (out', buffer') := st : raster Z * list Z in extLoop fuel n k ext ps' out' buffer')
  end.

(** correlateWithExtrapolation (Kernel.h: 132-159). *)
Definition correlateExt (fuel : nat) (n : Z) (k : nkernel) (ext : list Z -> res Z) (b : box) (out : raster Z) : option (res (raster Z)) :=
  if boxSize b =? 0 then Some (Ok out) else
  obind (boxForeach fuel b) (fun ps => extLoop fuel n k ext ps out (repeat 0 (length (kvalues k)))).

Fixpoint correlateExts (fuel : nat) (n : Z) (k : nkernel) (ext : list Z -> res Z) (bs : list box) (out : raster Z) : option (res (raster Z)) :=
  match bs with
  | [] => Some (Ok out)
  | b :: bs' => obind (correlateExt fuel n k ext b out) (correlateExts fuel n k ext bs')
  end.

(** correlateTo (Kernel.h: 78-86): [r] is the raster, [ext] its extrapolation. *)
Definition correlateTo (fuel : nat) (n : Z) (k : nkernel) (r : raster Z) (ext : list Z -> res Z) (out : raster Z) : option (res (raster Z)) :=
  obind (lift (rdomain n (rshape r))) (fun d =>
  let inner := boxShrink d (kwindow k) in
  obind (lift (surround inner (kwindow k))) (fun outers =>
  obind (correlateInner fuel n k r inner out) (correlateExts fuel n k ext outers))).

(** kernel * extrapolator (Kernel.h: 68-73). *)
Definition kernelApply (fuel : nat) (n : Z) (k : nkernel) (r : raster Z) (ext : list Z -> res Z) : option (res (raster Z)) :=
  correlateTo fuel n k r ext (mkRaster (rshape r) (repeat 0 (Z.to_nat (shapeSize (rshape r))))).
