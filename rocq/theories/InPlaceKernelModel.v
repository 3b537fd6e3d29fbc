(** Model of ND kernels applied in place, i.e. [kernel.correlateTo(extrapolator(raster), raster)] (LitlTransforms/LitlTransforms/Kernel.h),
    for any types of values and pixels. The loops are those of TypedKernelModel.v, except that each pixel is read in the current state of the output. *)
From Verif Require Import Res VecModel BoxModel RasterModel SamplingModel LineKernelModel SeparableModel TypedKernelModel.

Section InPlaceKernel.
(** The types, T {}, the steps of the inner products and the conversions, as in TypedKernelModel.v (Kernel.h: 120-124, 140-157). *)
Context {X V : Type}.
Variable zero : V.
Variable inner : V -> V -> X -> res V.
Variable border : V -> V -> V -> res V.
Variable store : X -> res V.
Variable back : V -> res X.
(** The value of the extrapolator at a position when the pixels of the raster it decorates are those of the first argument
    (Interpolation.h: 70-72, 78): the decorator refers to the raster, which is also the output. *)
Variable view : raster X -> list Z -> res X.

(** The loop over the pixels of a row (Kernel.h: 117-125), where [inIt] and [outIt] move in the same memory [mem]. *)
Fixpoint rowLoopS (pixels : nat) (values : list V) (rows : nat) (kWidth inWidth distance outIt inIt : Z) (mem : list X) : res (Z * list X) :=
  match pixels with
  | O => Ok (inIt, mem)
  | S pixels' =>
      sum <- rowSumG inner rows values mem 0 inIt kWidth inWidth zero ;;
      v <- back sum ;;
      mem' <- zset mem outIt v ;;
      rowLoopS pixels' values rows kWidth inWidth distance (outIt + 1) (outIt + 1 - distance) mem'
  end.

(** The loop over the hyperplane (Kernel.h: 113-126). *)
Fixpoint rowsLoopS (n : Z) (shape : list Z) (ps : list (list Z)) (pixels : nat) (values : list V) (rows : nat)
  (kWidth inWidth distance inIt : Z) (mem : list X) : res (list X) :=
  match ps with
  | [] => Ok mem
  | p :: ps' =>
      outIt <- rindex n shape p ;;
      st <- rowLoopS pixels values rows kWidth inWidth distance outIt inIt mem ;;
      rowsLoopS n shape ps' pixels values rows kWidth inWidth distance (fst st) (snd st)
  end.

(** correlateWithoutExtrapolation (Kernel.h: 92-127): [outIt - inIt] is between elements of one array. *)
Definition correlateInnerS (fuel : nat) (n : Z) (values : list V) (window b : box) (r : raster X) : option (res (raster X)) :=
  if boxSize b =? 0 then Some (Ok r) else
  obind (lift (boxLength b 0)) (fun boxWidth =>
  obind (lift (project b 0)) (fun pb =>
  obind (lift (zget (rshape r) 0)) (fun inWidth =>
  obind (lift (boxLength window 0)) (fun kWidth =>
  if kWidth =? 0 then Some UB else
  let rows := Z.quot (boxSize window) kWidth in
  obind (lift (rindex n (rshape r) (bfront pb))) (fun outIt =>
  obind (boxForeach fuel pb) (fun ps =>
  obind (lift (rowsLoopS n (rshape r) ps (Z.to_nat boxWidth) values (Z.to_nat rows) kWidth inWidth outIt 0 (rdata r)))
    (fun d => Some (Ok (mkRaster (rshape r) d))))))))).

(** The loop over an extrapolated region (Kernel.h: 150-158). *)
Fixpoint extLoopS (fuel : nat) (n : Z) (values : list V) (window : box) (ps : list (list Z)) (r : raster X) (buffer : list V)
  : option (res (raster X)) :=
  match ps with
  | [] => Some (Ok r)
  | p :: ps' => obind (extPixelG zero border store back fuel n values window (view r) p r buffer) (fun st => extLoopS fuel n values window ps' (fst st) (snd st))
  end.

(** correlateWithExtrapolation (Kernel.h: 132-159). *)
Definition correlateExtS (fuel : nat) (n : Z) (values : list V) (window b : box) (r : raster X) : option (res (raster X)) :=
  if boxSize b =? 0 then Some (Ok r) else
  obind (boxForeach fuel b) (fun ps => extLoopS fuel n values window ps r (repeat zero (length values))).

Fixpoint correlateExtsS (fuel : nat) (n : Z) (values : list V) (window : box) (bs : list box) (r : raster X) : option (res (raster X)) :=
  match bs with
  | [] => Some (Ok r)
  | b :: bs' => obind (correlateExtS fuel n values window b r) (correlateExtsS fuel n values window bs')
  end.

(** correlateTo (Kernel.h: 78-86). *)
Definition correlateSelfG (fuel : nat) (n : Z) (values : list V) (window : box) (r : raster X) : option (res (raster X)) :=
  obind (lift (rdomain n (rshape r))) (fun d =>
  let region := boxShrink d window in
  obind (lift (surround region window)) (fun outers =>
  obind (correlateInnerS fuel n values window region r) (correlateExtsS fuel n values window outers))).
End InPlaceKernel.

(** The same with a kernel and pixels which are exact integers. *)
Definition selfCorrelate := correlateSelfG (X := Z) (V := Z) 0 (fun a k x => Ok (a + k * x)) (fun a k x => Ok (a + k * x)) (@Ok Z) (@Ok Z).
Definition otherCorrelate := correlateToG (X := Z) (V := Z) 0 (fun a k x => Ok (a + k * x)) (fun a k x => Ok (a + k * x)) (@Ok Z) (@Ok Z).
