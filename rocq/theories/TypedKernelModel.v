(** Model of ND kernels (LitlTransforms/LitlTransforms/Kernel.h) for any types of values and pixels. In KernelModel.v all of them are exact integers.
    The input and output pixels have the same type: [outIt - inIt] and [inIt = outIt - distance] (Kernel.h: 110, 117) do not compile otherwise. *)
From Verif Require Import Res VecModel BoxModel RasterModel SamplingModel LineKernelModel SeparableModel WidthModel FloatModel TypedMedianModel MixedModel.

(** [acc = acc + *first1 * *first2] for [n] successive elements in std::inner_product (Kernel.h: 122, 157); [step] is one of them,
    with the conversion of the sum to the type of the accumulator, which is that of the kernel. *)
Fixpoint innerLoopG {V Y : Type} (step : V -> V -> Y -> res V) (n : nat) (values : list V) (mem : list Y) (a b : Z) (acc : V) : res V :=
  match n with
  | O => Ok acc
  | S n' => k <- zget values a ;; x <- zget mem b ;; acc' <- step acc k x ;; innerLoopG step n' values mem (a + 1) (b + 1) acc'
  end.

Section TypedKernel.
(** The types of the pixels and of the values of the kernel. *)
Context {X V : Type}.
(** T {} (Kernel.h: 120, 140, 157). *)
Variable zero : V.
(** The step of the inner product with pixels (Kernel.h: 122), and with the elements of the buffer, which have the type of the kernel (Kernel.h: 157). *)
Variable inner : V -> V -> X -> res V.
Variable border : V -> V -> V -> res V.
(** The conversion of pixels to the type of the buffer (Kernel.h: 152-154). *)
Variable store : X -> res V.
(** The conversion of the sum to the type of the output pixels (Kernel.h: 124, 157). *)
Variable back : V -> res X.

(** The weighted sum of one pixel, row by row (Kernel.h: 119-123). *)
Fixpoint rowSumG (rows : nat) (values : list V) (mem : list X) (kIt inIt kWidth inWidth : Z) (acc : V) : res V :=
  match rows with
  | O => Ok acc
  | S rows' =>
      acc' <- innerLoopG inner (Z.to_nat kWidth) values mem kIt inIt acc ;;
      rowSumG rows' values mem (kIt + kWidth) (inIt + inWidth) kWidth inWidth acc'
  end.

(** The loop over the pixels of a row (Kernel.h: 117-125): the state is the input address and the output memory.
    Simplification: as in KernelModel.v, each array starts at address 0 of its own memory. *)
Fixpoint rowLoopG (pixels : nat) (values : list V) (mem : list X) (rows : nat) (kWidth inWidth distance outIt inIt : Z) (out : list X)
  : res (Z * list X) :=
  match pixels with
  | O => Ok (inIt, out)
  | S pixels' =>
      sum <- rowSumG rows values mem 0 inIt kWidth inWidth zero ;;
      v <- back sum ;;
      out' <- zset out outIt v ;;
      rowLoopG pixels' values mem rows kWidth inWidth distance (outIt + 1) (outIt + 1 - distance) out'
  end.

(** The loop over the hyperplane (Kernel.h: 113-126): the input address is not moved to the new row. *)
Fixpoint rowsLoopG (n : Z) (shape : list Z) (ps : list (list Z)) (pixels : nat) (values : list V) (mem : list X) (rows : nat)
  (kWidth inWidth distance inIt : Z) (out : list X) : res (list X) :=
  match ps with
  | [] => Ok out
  | p :: ps' =>
      outIt <- rindex n shape p ;;
      st <- rowLoopG pixels values mem rows kWidth inWidth distance outIt inIt out ;;
      rowsLoopG n shape ps' pixels values mem rows kWidth inWidth distance (fst st) (snd st)
  end.

(** correlateWithoutExtrapolation (Kernel.h: 92-127). *)
Definition correlateInnerG (fuel : nat) (n : Z) (values : list V) (window : box) (r : raster X) (b : box) (out : raster X) : option (res (raster X)) :=
  if boxSize b =? 0 then Some (Ok out) else
  obind (lift (boxLength b 0)) (fun boxWidth =>
  obind (lift (project b 0)) (fun pb =>
  obind (lift (zget (rshape r) 0)) (fun inWidth =>
  obind (lift (boxLength window 0)) (fun kWidth =>
  if kWidth =? 0 then Some UB else
  let rows := Z.quot (boxSize window) kWidth in
  obind (lift (rindex n (rshape out) (bfront pb))) (fun outIt =>
  obind (boxForeach fuel pb) (fun ps =>
  obind (lift (rowsLoopG n (rshape out) ps (Z.to_nat boxWidth) values (rdata r) (Z.to_nat rows) kWidth inWidth outIt 0 (rdata out)))
    (fun d => Some (Ok (mkRaster (rshape out) d))))))))).

(** One pixel of an extrapolated region (Kernel.h: 150-157). [ext] is the extrapolated input,
    [buffer] the buffer: std::transform writes as many values as there are positions in the window. *)
Definition extPixelG (fuel : nat) (n : Z) (values : list V) (window : box) (ext : list Z -> res X) (p : list Z) (out : raster X) (buffer : list V)
  : option (res (raster X * list V)) :=
  obind (boxForeach fuel (boxShift window p)) (fun qs =>
  obind (lift (mapRes (fun q => x <- ext q ;; store x) qs)) (fun xs =>
  if Nat.ltb (length buffer) (length xs) then Some UB else
  let buffer' := xs ++ skipn (length xs) buffer in
  obind (lift (innerLoopG border (length values) values buffer' 0 0 zero)) (fun sum =>
  obind (lift (v <- back sum ;; rset n out p v)) (fun out' => Some (Ok (out', buffer')))))).

Fixpoint extLoopG (fuel : nat) (n : Z) (values : list V) (window : box) (ext : list Z -> res X) (ps : list (list Z)) (out : raster X) (buffer : list V)
  : option (res (raster X)) :=
  match ps with
  | [] => Some (Ok out)
  | p :: ps' => obind (extPixelG fuel n values window ext p out buffer) (fun st => extLoopG fuel n values window ext ps' (fst st) (snd st))
  end.

(** correlateWithExtrapolation (Kernel.h: 132-159). *)
Definition correlateExtG (fuel : nat) (n : Z) (values : list V) (window : box) (ext : list Z -> res X) (b : box) (out : raster X) : option (res (raster X)) :=
  if boxSize b =? 0 then Some (Ok out) else
  obind (boxForeach fuel b) (fun ps => extLoopG fuel n values window ext ps out (repeat zero (length values))).

Fixpoint correlateExtsG (fuel : nat) (n : Z) (values : list V) (window : box) (ext : list Z -> res X) (bs : list box) (out : raster X) : option (res (raster X)) :=
  match bs with
  | [] => Some (Ok out)
  | b :: bs' => obind (correlateExtG fuel n values window ext b out) (correlateExtsG fuel n values window ext bs')
  end.

(** correlateTo (Kernel.h: 78-86): [r] is the raster, [ext] its extrapolation. *)
Definition correlateToG (fuel : nat) (n : Z) (values : list V) (window : box) (r : raster X) (ext : list Z -> res X) (out : raster X) : option (res (raster X)) :=
  obind (lift (rdomain n (rshape r))) (fun d =>
  let region := boxShrink d window in
  obind (lift (surround region window)) (fun outers =>
  obind (correlateInnerG fuel n values window r region out) (correlateExtsG fuel n values window ext outers))).
End TypedKernel.

(** correlateTo (Kernel.h: 78-86) with kernel and pixels of integral type [t]; with both of type double;
    with a kernel of integral type [t] and pixels of type double; with a kernel of type double and pixels of integral type [t].
    The steps are those of std::inner_product: [acc + *k * *x] has the common type of both, and is converted to that of acc ([conv.fpint]). *)
Definition intCorrelateTo (t : itype) := correlateToG 0 (innerStep t t) (innerStep t t) (@Ok Z) (@Ok Z).
Definition doubleStep (acc k x : double) : res double := Ok (dadd acc (dmul k x)).
Definition doubleCorrelateTo := correlateToG (dofZ 0) doubleStep doubleStep (@Ok double) (@Ok double).
Definition intDoubleStep (t : itype) (acc k : Z) (x : double) : res Z := dtruncTo t (dadd (dofZ acc) (dmul (dofZ k) x)).
Definition intDoubleCorrelateTo (t : itype) := correlateToG 0 (intDoubleStep t) (innerStep t t) (dtruncTo t) (fun s => Ok (dofZ s)).
Definition doubleIntCorrelateTo (t : itype) :=
  correlateToG (dofZ 0) (fun acc k x => doubleStep acc k (dofZ x)) doubleStep (fun x => Ok (dofZ x)) (dtruncTo t).
