(** Model of the correlations whose kernel and raster have bounded integers or different types of values
    (LitlTransforms/LitlTransforms/LineKernel.h, SeparableKernel.h). In LineKernelModel.v and SeparableModel.v integers are unbounded. *)
From Coq Require Import QArith.
From Verif Require Import Res VecModel BoxModel RasterModel SamplingModel LineKernelModel SeparableModel WidthModel TypesModel.
Open Scope Z_scope.

(** The usual arithmetic conversions of two integral types ([expr.arith.conv]): both are promoted; then the widest one, or the unsigned one
    if they have the same width. *)
Definition common (t u : itype) : itype :=
  let t := promoted t in
  let u := promoted u in
  if ibits t =? ibits u then mkItype (isigned t && isigned u) (ibits t) else if ibits t <? ibits u then u else t.

(** The value of an expression of some type which is not subject to promotion: overflow is undefined if it is signed, and wraps otherwise. *)
Definition arith (t : itype) (z : Z) : res Z := if isigned t then if fits t z then Ok z else UB else Ok (convert t z).

(** [acc = acc + *k * *x] in std::inner_product, where acc and *k have type T and *x has type TIn.
    The product has the common type of both, which is also that of the sum; the result is converted to T. *)
Definition innerStep (t tin : itype) (acc k x : Z) : res Z :=
  let c := common t tin in
  p <- arith c (convert c k * convert c x) ;; s <- arith c (convert c acc + p) ;; Ok (convert t s).

(** The same for an integral T and floating-point pixels, without rounding: the sum is converted back to T at each step
    ([conv.fpint]: truncation, undefined if not representable). *)
Definition innerStepQ (t : itype) (acc k : Z) (x : Q) : res Z := scalarOf t (inject_Z acc + inject_Z k * x).

(** std::inner_product(first1, last1, first2, init) (LineKernel.h: 99, 105, 110): [step] is one of the above. *)
Fixpoint innerLoopT {X : Type} (step : Z -> Z -> X -> res Z) (n : nat) (k : list Z) (mem : list X) (a b stride acc : Z) : res Z :=
  match n with
  | O => Ok acc
  | S n' => v <- zget k a ;; x <- zget mem b ;; acc' <- step acc v x ;; innerLoopT step n' k mem (a + 1) (b + stride) stride acc'
  end.
Definition innerProductT {X : Type} (step : Z -> Z -> X -> res Z) (k : list Z) (mem : list X) (first last b stride : Z) : res Z :=
  if last <? first then UB else innerLoopT step (Z.to_nat (last - first)) k mem first b stride 0.

(** correlate(in, out) (LineKernel.h: 82-112), as [correlate] in LineKernelModel.v. The bias is T's zero; the output has type T. *)
Definition correlateT {X : Type} (step : Z -> Z -> X -> res Z) (fuel : nat) (k : lkernel) (min : list X) (din : dsamples) (mout : list Z) (dout : dsamples)
  : option (res (list Z)) :=
  let front := sfront (dSampling din) in
  let back := sback (dSampling din) in
  let dstep := sstep (dSampling din) in
  let istride := dStride din in
  let unitIn := dsMake (dData din) (dSize din) (mkSampling front back 1) istride in
  let begin := dsIter unitIn 0 in
  let inMin := begin - front * istride in
  let ostride := sstep (dSampling dout) * dStride dout in
  let forward := u64 (lsize k - lorigin k - 1) in
  let inner first last it := innerProductT step (lvalues k) min first last it istride in
  let s0 := mkCstate front (begin - lorigin k * istride) (dsIter dout 0) mout in
  obind (corrLoop fuel (fun i => i <? lorigin k) (fun i it => inner (lorigin k - i) (lsize k) inMin)
           dstep istride ostride s0)
  (fun s1 =>
  obind (corrLoop fuel (fun i => u64 i <=? u64 (dSize din - forward - dstep)) (fun i it => inner 0 (lsize k) it)
           dstep istride ostride s1)
  (fun s2 =>
  obind (corrLoop fuel (fun i => i <=? back) (fun i it => inner 0 (lorigin k + (dSize din - i)) it)
           dstep istride ostride s2)
  (fun s3 => Some (Ok (cmem s3))))).

(** correlateAlong<J>(in) (SeparableKernel.h: 212-225), as in SeparableModel.v. *)
Definition correlateAlongT {X : Type} (step : Z -> Z -> X -> res Z) (fuel : nat) (n : Z) (k : lkernel) (axis : Z) (r : raster X) : option (res (raster Z)) :=
  obind (lift (zget (rshape r) axis)) (fun len =>
  let stride := shapeStride (rshape r) (Z.to_nat axis) in
  obind (lift (d <- rdomain n (rshape r) ;; project d axis)) (fun domain =>
  obind (boxForeach fuel domain) (fun ps =>
  obind (eachRow (fun out p =>
           obind (lift (rindex n (rshape r) p)) (fun a =>
           correlateT step fuel k (rdata r) (dsMake a len sdefault stride) out (dsMake a len sdefault stride)))
         ps (repeat 0 (Z.to_nat (shapeSize (rshape r)))))
    (fun out => Some (Ok (mkRaster (rshape r) out)))))).

(** kernel * raster (SeparableKernel.h: 167-180, 199-210): the intermediate rasters have type T. The axes are not empty (I0, Is...). *)
Fixpoint correlateSeqT (t : itype) (fuel : nat) (n : Z) (m : list (Z * lkernel)) (axes : list Z) (r : raster Z) : option (res (raster Z)) :=
  match axes with
  | [] => Some (Ok r)
  | axis :: axes' =>
      obind (lift (mapAt m axis)) (fun k =>
      obind (correlateAlongT (innerStep t t) fuel n k axis r) (correlateSeqT t fuel n m axes'))
  end.
Definition sapplyT {X : Type} (step : Z -> Z -> X -> res Z) (t : itype) (fuel : nat) (n : Z) (s : skernel) (r : raster X) : option (res (raster Z)) :=
  match saxes s with
  | [] => Some UB
  | axis :: axes =>
      obind (lift (mapAt (smap s) axis)) (fun k =>
      obind (correlateAlongT step fuel n k axis r) (correlateSeqT t fuel n (smap s) axes))
  end.
