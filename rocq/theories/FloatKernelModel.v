(** Model of the correlations of rasters of doubles with kernels of doubles, with rounding
    (LitlTransforms/LitlTransforms/LineKernel.h, SeparableKernel.h). In LineKernelModel.v and SeparableModel.v values are exact integers. *)
From Verif Require Import Res VecModel BoxModel RasterModel SamplingModel LineKernelModel SeparableModel FloatModel.

(** A line kernel of doubles: values and origin (LineKernel.h: 38, 114-117). The bias is always +0. *)
Record dkernel := mkDkernel { dkvalues : list double; dkorigin : Z }.

Definition dksize (k : dkernel) : Z := Z.of_nat (length (dkvalues k)).

(** std::inner_product(first1, last1, first2, init) (LineKernel.h: 99, 105, 110): [acc = acc + *first1 * *first2] for each value,
    with a rounding after the product and another one after the sum. *)
Fixpoint innerLoopD (n : nat) (k mem : list double) (a b stride : Z) (acc : double) : res double :=
  match n with
  | O => Ok acc
  | S n' => x <- zget k a ;; y <- zget mem b ;; innerLoopD n' k mem (a + 1) (b + stride) stride (dadd acc (dmul x y))
  end.

(** With last1 before first1 the loop reads past the end. *)
Definition innerProductD (k mem : list double) (first last b stride : Z) : res double :=
  if last <? first then UB else innerLoopD (Z.to_nat (last - first)) k mem first b stride (dofZ 0).

(** State of correlate: index, input address, output address, output memory (see LineKernelModel.v). *)
Record dcstate := mkDcstate { dci : Z; dcin : Z; dcout : Z; dcmem : list double }.

(** [for (; cond(i); i += step, inIt += step, ++outIt) *outIt = value(i, inIt);] (LineKernel.h: 98, 104, 109) *)
Fixpoint corrLoopD (fuel : nat) (cond : Z -> bool) (value : Z -> Z -> res double) (step istride ostride : Z) (s : dcstate)
  : option (res dcstate) :=
  match fuel with
  | O => None
  | S fuel' =>
      if cond (dci s) then
        match value (dci s) (dcin s) with
        | Ok v =>
            match zset (dcmem s) (dcout s) v with
            | Ok m => corrLoopD fuel' cond value step istride ostride
                        (mkDcstate (dci s + step) (dcin s + step * istride) (dcout s + ostride) m)
            | Throw e => Some (Throw e)
            | UB => Some UB
            end
        | Throw e => Some (Throw e)
        | UB => Some UB
        end
      else Some (Ok s)
  end.

(** correlate(in, out) (LineKernel.h: 82-112): the output memory. The bound of the second loop is computed in std::size_t. *)
Definition correlateD (fuel : nat) (k : dkernel) (min : list double) (din : dsamples) (mout : list double) (dout : dsamples)
  : option (res (list double)) :=
  let front := sfront (dSampling din) in
  let back := sback (dSampling din) in
  let step := sstep (dSampling din) in
  let istride := dStride din in
  let unitIn := dsMake (dData din) (dSize din) (mkSampling front back 1) istride in
  let begin := dsIter unitIn 0 in
  let inMin := begin - front * istride in
  let ostride := sstep (dSampling dout) * dStride dout in
  let forward := u64 (dksize k - dkorigin k - 1) in
  let inner first last it := innerProductD (dkvalues k) min first last it istride in
  let s0 := mkDcstate front (begin - dkorigin k * istride) (dsIter dout 0) mout in
  obind (corrLoopD fuel (fun i => i <? dkorigin k) (fun i it => inner (dkorigin k - i) (dksize k) inMin)
           step istride ostride s0)
  (fun s1 =>
  obind (corrLoopD fuel (fun i => u64 i <=? u64 (dSize din - forward - step)) (fun i it => inner 0 (dksize k) it)
           step istride ostride s1)
  (fun s2 =>
  obind (corrLoopD fuel (fun i => i <=? back) (fun i it => inner 0 (dkorigin k + (dSize din - i)) it)
           step istride ostride s2)
  (fun s3 => Some (Ok (dcmem s3))))).

(** correlateAlong<J>(in) (SeparableKernel.h: 212-225) for dimension [n]. The output raster is allocated with zeros. *)
Definition correlateAlongD (fuel : nat) (n : Z) (k : dkernel) (axis : Z) (r : raster double) : option (res (raster double)) :=
  obind (lift (zget (rshape r) axis)) (fun len =>
  let stride := shapeStride (rshape r) (Z.to_nat axis) in
  obind (lift (d <- rdomain n (rshape r) ;; project d axis)) (fun domain =>
  obind (boxForeach fuel domain) (fun ps =>
  obind (eachRow (fun out p =>
           obind (lift (rindex n (rshape r) p)) (fun a =>
           correlateD fuel k (rdata r) (dsMake a len sdefault stride) out (dsMake a len sdefault stride)))
         ps (repeat (dofZ 0) (Z.to_nat (shapeSize (rshape r)))))
    (fun out => Some (Ok (mkRaster (rshape r) out)))))).

(** correlateAlongSeqTo (SeparableKernel.h: 200-210), given the line kernel which std::map::at returns for each axis in order. *)
Fixpoint correlateSeqD (fuel : nat) (n : Z) (ks : list (dkernel * Z)) (r : raster double) : option (res (raster double)) :=
  match ks with
  | [] => Some (Ok r)
  | (k, axis) :: ks' => obind (correlateAlongD fuel n k axis r) (correlateSeqD fuel n ks')
  end.
