(** Model of what the correlations write to the standard output: the debug calls to printf of SeparableKernel and Kernel1d
    (LitlTransforms/LitlTransforms/SeparableKernel.h: 204; LitlTransforms/LitlTransforms/Convolution.h: 85-198),
    which the models of the correlations themselves leave out (SeparableModel.v, LineKernelModel.v, Conv2dModel.v).
    Simplification: printf does not fail. *)
From Coq Require String.
From Verif Require Import Res VecModel BoxModel RasterModel SamplingModel LineKernelModel SeparableModel Conv2dModel WidthModel.
Export String.StringSyntax.
Open Scope string_scope.
Open Scope list_scope.
Open Scope Z_scope.

(** The types of the output pixels: integers, or float and double. *)
Inductive vtype := VInt (t : itype) | VFloat.

(** An argument of a variadic function is promoted ([conv.prom], [expr.call]); printf is undefined when an argument is not of the type
    of its conversion specification (C11 7.21.6.1), which is int for %i and long for %li. It may also be of the unsigned type of the same
    width if the value is representable in both (C11 7.16.1.1). *)
Definition asInt (t : vtype) (z : Z) : res Z :=
  match t with
  | VInt t => if (ibits (promoted t) =? 32) && fits int32 z then Ok z else UB
  | VFloat => UB
  end.
Definition int64 : itype := mkItype true 64.
Definition asLong (z : Z) : res Z := if fits int64 z then Ok z else UB.

(** One call to printf: its format, without the escape sequence, and its arguments. *)
Record call := mkCall { cformat : String.string; cargs : list Z }.

(** correlateAlongSeqTo (SeparableKernel.h: 199-210): the call comes after those of the other axes,
    and reads the first pixel of the raster filtered along this axis and that of the output. *)
Definition seqFormat : String.string := "%li: %i -> %i".
Fixpoint correlateSeqP (fuel : nat) (n : Z) (t : vtype) (m : list (Z * lkernel)) (axes : list Z) (r : raster Z)
  : option (res (raster Z * list call)) :=
  match axes with
  | [] => Some (Ok (r, []))
  | axis :: axes' =>
      obind (lift (mapAt m axis)) (fun k =>
      obind (correlateAlong fuel n k axis r) (fun tmp =>
      obind (correlateSeqP fuel n t m axes' tmp) (fun oc =>
      lift (a <- zget (rdata tmp) 0 ;; b <- zget (rdata (fst oc)) 0 ;;
            a <- asInt t a ;; b <- asInt t b ;; Ok (fst oc, snd oc ++ [mkCall seqFormat [axis; a; b]])))))
  end.

(** kernel * raster (SeparableKernel.h: 167-180). [t] is the type of the values of the kernel. *)
Definition sapplyP (fuel : nat) (n : Z) (t : vtype) (s : skernel) (r : raster Z) : option (res (raster Z * list call)) :=
  correlateSeqP fuel n t (smap s) (saxes s) r.

(** [for (; cond(i); i += step, inIt += step, ++outIt) { *outIt = value(i, inIt); printf(...); }] (Convolution.h: 88-103). *)
Fixpoint corrLoopP (fuel : nat) (cond : Z -> bool) (value : Z -> Z -> res Z) (print : Z -> Z -> res call) (step istride ostride : Z) (s : cstate) (cs : list call)
  : option (res (cstate * list call)) :=
  match fuel with
  | O => None
  | S fuel' =>
      if cond (ci s) then
        obind (lift (v <- value (ci s) (cin s) ;; m <- zset (cmem s) (cout s) v ;; c <- print (ci s) v ;; Ok (m, c))) (fun mc =>
        corrLoopP fuel' cond value print step istride ostride
          (mkCstate (ci s + step) (cin s + step * istride) (cout s + ostride) (fst mc)) (cs ++ [snd mc]))
      else Some (Ok (s, cs))
  end.

Definition headFormat := "in = [%li:%li:%li:%li]".
Definition beginFormat := "Begin (<%li): out[%li] = %i".
Definition centerFormat := "Center (<=%li): out[%li] = %i".
Definition endFormat := "End (<=%li): out[%li] = %i".

(** sparseCorrelate1dTo(in, out) (Convolution.h: 70-104) with its prints; the rest is as [correlate] in LineKernelModel.v.
    The bound of the second loop is a std::size_t. *)
Definition correlateP (fuel : nat) (t : vtype) (k : lkernel) (min : list Z) (din : dsamples) (mout : list Z) (dout : dsamples)
  : option (res (list Z * list call)) :=
  let front := sfront (dSampling din) in
  let back := sback (dSampling din) in
  let step := sstep (dSampling din) in
  let istride := dStride din in
  let unitIn := dsMake (dData din) (dSize din) (mkSampling front back 1) istride in
  let begin := dsIter unitIn 0 in
  let inMin := begin - front * istride in
  let ostride := sstep (dSampling dout) * dStride dout in
  let forward := u64 (lsize k - lorigin k - 1) in
  let bound := u64 (dSize din - forward - step) in
  let inner first last it := innerProduct (lvalues k) min first last it istride 0 in
  let print format bound i v := b <- asLong bound ;; i <- asLong i ;; v <- asInt t v ;; Ok (mkCall format [b; i; v]) in
  let s0 := mkCstate front (begin - lorigin k * istride) (dsIter dout 0) mout in
  obind (corrLoopP fuel (fun i => i <? lorigin k) (fun i it => inner (lorigin k - i) (lsize k) inMin) (print beginFormat (lorigin k))
           step istride ostride s0 [mkCall headFormat [front; back; step; istride]])
  (fun s1 =>
  obind (corrLoopP fuel (fun i => u64 i <=? bound) (fun i it => inner 0 (lsize k) it) (print centerFormat bound)
           step istride ostride (fst s1) (snd s1))
  (fun s2 =>
  obind (corrLoopP fuel (fun i => i <=? back) (fun i it => inner 0 (lorigin k + (dSize din - i)) it) (print endFormat back)
           step istride ostride (fst s2) (snd s2))
  (fun s3 => Some (Ok (cmem (fst s3), snd s3))))).

(** Kernel1d::correlateAlong<Axis>(in) (Convolution.h: 52-65). *)
Definition alongP (fuel : nat) (n : Z) (t : vtype) (k : lkernel) (axis : Z) (r : raster Z) : option (res (raster Z * list call)) :=
  obind (lift (zget (rshape r) axis)) (fun len =>
  let stride := shapeStride (rshape r) (Z.to_nat axis) in
  obind (lift (d <- rdomain n (rshape r) ;; project d axis)) (fun domain =>
  obind (boxForeach fuel domain) (fun ps =>
  obind (eachRow (fun oc p =>
           obind (lift (rindex n (rshape r) p)) (fun a =>
           obind (correlateP fuel t k (rdata r) (dsMake a len sdefault stride) (fst oc) (dsMake a len sdefault stride)) (fun oc' =>
           Some (Ok (fst oc', snd oc ++ snd oc')))))
         ps (repeat 0 (Z.to_nat (shapeSize (rshape r))), []))
    (fun oc => Some (Ok (mkRaster (rshape r) (fst oc), snd oc)))))).

(** The two loops over lines of sparseCorrelate2dTo (Convolution.h: 150-158, 183-191), as [lines] in Conv2dModel.v, where each iteration
    prints the offsets of the samples in their rasters first. *)
Fixpoint linesP (format : String.string) (t : vtype) (convI convO : Z -> Z) (di dO : Z) (fuel n : nat) (k : lkernel) (min : list Z) (din : dsamples) (mout : list Z) (dout : dsamples) (cs : list call)
  : option (res (list Z * list call)) :=
  match n with
  | O => Some (Ok (mout, cs))
  | S n' =>
      let c := mkCall format [dData din; dData dout] in
      obind (correlateP fuel t k min din mout dout) (fun mc =>
      linesP format t convI convO di dO fuel n' k min (dsMove convI din di) (fst mc) (dsMove convO dout dO) (cs ++ c :: snd mc))
  end.

(** The rows of a raster of dimension 2 (Convolution.h: 160-166, 193-199): the lengths, then the pixels, each row being followed by a line feed. *)
Definition pixelFormat := "%i ".
Definition rowP (t : vtype) (r : raster Z) (w y : Z) : res (list call) :=
  cs <- mapRes (fun x => v <- rget 2 r [x; y] ;; v <- asInt t v ;; Ok (mkCall pixelFormat [v])) (zrange 0 (w - 1)) ;; Ok (cs ++ [mkCall "" []]).
Definition rasterP (title : String.string) (t : vtype) (r : raster Z) (w h : Z) : res (list call) :=
  rows <- mapRes (rowP t r w) (zrange 0 (h - 1)) ;; Ok (mkCall title [w; h] :: concat rows).

Definition samplesCall (format : String.string) (d : dsamples) : call :=
  mkCall format [sfront (dSampling d); sback (dSampling d); sstep (dSampling d); dStride d].

(** sparseCorrelate2dTo(in, sampling, out) (Convolution.h: 117-200) with its prints; the rest is as [sparseCorrelate2d] in Conv2dModel.v. *)
Definition sparseCorrelate2dP (t : vtype) (convI convO : Z -> Z) (fuel : nat) (k : lkernel) (rin : raster Z) (sx sy : sampling) (rout : raster Z)
  : option (res (list Z * list call)) :=
  match rshape rin, rshape rout with
  | [w; h], [ow; oh] =>
      let forward := lsize k - 1 - lorigin k in
      let yFrom := Z.max 0 (sfront sy - lorigin k) in
      let yTo := Z.min (h - 1) (sback sy + forward) in
      let c0 := mkCall "%li-%li:%li - %li-%li:%li" [sfront sx; sback sx; sstep sx; yFrom; yTo; sstep sy] in
      if sstep sx =? 0 then Some UB
      else
        let xw := Z.quot (sback sx - sfront sx + sstep sx) (sstep sx) in
        let xh := yTo - yFrom + 1 in
        if xw * xh <? 0 then Some (Throw EGeneric)
        else
          obind (lift (rindex 2 [w; h] [0; yFrom])) (fun a =>
          match iterations yFrom yTo 1, iterations (sfront sx) (sback sx) (sstep sx) with
          | Some ny, Some nx =>
              let inSamples := dsMake a w sx 1 in
              let xConvolvedSamples := dsMake 0 xw sdefault 1 in
              obind (linesP "in: %li, xConvolved: %li" t convI convO w xw fuel ny k (rdata rin) inSamples (repeat 0 (Z.to_nat (xw * xh))) xConvolvedSamples
                       [c0; samplesCall "inSamples: %li-%li:%li:%li" inSamples; samplesCall "xConvolvedSamples: %li-%li:%li:%li" xConvolvedSamples]) (fun tc =>
              obind (lift (rasterP "xConvolved:" t (mkRaster [xw; xh] (fst tc)) xw xh)) (fun c1 =>
              let ySamples := dsMake 0 xh (mkSampling (sfront sy - yFrom) (sback sy - yFrom) (sstep sy)) xw in
              let outSamples := dsMake 0 oh sdefault ow in
              obind (linesP "xConvolved: %li, out: %li" t convO convO 1 1 fuel nx k (fst tc) ySamples (rdata rout) outSamples
                       (snd tc ++ c1 ++ [samplesCall "ySamples: %li-%li:%li:%li" ySamples; samplesCall "outSamples: %li-%li:%li:%li" outSamples])) (fun oc =>
              obind (lift (rasterP "out:" t (mkRaster [ow; oh] (fst oc)) ow oh)) (fun c2 =>
              Some (Ok (fst oc, snd oc ++ c2))))))
          | _, _ => None
          end)
  | _, _ => Some UB
  end.
