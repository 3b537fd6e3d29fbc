(** Model of Kernel1d::correlate2dTo and sparseCorrelate2dTo (LitlTransforms/LitlTransforms/Convolution.h: 109-200)
    for rasters of dimension 2 with integer pixels. Simplification: the debug prints are left out, although they read the
    intermediate and output rasters. *)
From Verif Require Import Res VecModel BoxModel RasterModel SamplingModel LineKernelModel SeparableModel.

(** [n] times: sparseCorrelate1dTo(in, out); in += di; out += dO (Convolution.h: 152-160, 183-191).
    The offsets are converted to the types of the elements (see dsMove). *)
Fixpoint lines (convI convO : Z -> Z) (di dO : Z) (fuel n : nat) (k : lkernel) (min : list Z) (din : dsamples) (mout : list Z) (dout : dsamples)
  : option (res (list Z)) :=
  match n with
  | O => Some (Ok mout)
  | S n' => obind (correlate fuel k min din mout dout) (fun m => lines convI convO di dO fuel n' k min (dsMove convI din di) m (dsMove convO dout dO))
  end.

(** The number of iterations of [for (Index i = from; i <= to; i += step)] (Convolution.h: 150, 183); None: it does not end. *)
Definition iterations (from to step : Z) : option nat :=
  if to <? from then Some O else if step <=? 0 then None else Some (Z.to_nat ((to - from) / step + 1)).

(** sparseCorrelate2dTo(in, sampling, out) (Convolution.h: 117-200): the output pixels. [sx] and [sy] are the samplings along each axis;
    [convI] and [convO] are the conversions of indices to the types of the input and output pixels. *)
Definition sparseCorrelate2d (convI convO : Z -> Z) (fuel : nat) (k : lkernel) (rin : raster Z) (sx sy : sampling) (rout : raster Z) : option (res (list Z)) :=
  match rshape rin, rshape rout with
  | [w; h], [ow; oh] =>
      let forward := lsize k - 1 - lorigin k in
      let yFrom := Z.max 0 (sfront sy - lorigin k) in
      let yTo := Z.min (h - 1) (sback sy + forward) in
      if sstep sx =? 0 then Some UB
      else
        let xw := Z.quot (sback sx - sfront sx + sstep sx) (sstep sx) in
        let xh := yTo - yFrom + 1 in
        if xw * xh <? 0 then Some (Throw EGeneric)
        else
          obind (lift (rindex 2 [w; h] [0; yFrom])) (fun a =>
          match iterations yFrom yTo 1, iterations (sfront sx) (sback sx) (sstep sx) with
          | Some ny, Some nx =>
              obind (lines convI convO w xw fuel ny k (rdata rin) (dsMake a w sx 1) (repeat 0 (Z.to_nat (xw * xh))) (dsMake 0 xw sdefault 1)) (fun tmp =>
              lines convO convO 1 1 fuel nx k tmp (dsMake 0 xh (mkSampling (sfront sy - yFrom) (sback sy - yFrom) (sstep sy)) xw)
                (rdata rout) (dsMake 0 oh sdefault ow))
          | _, _ => None
          end)
  | _, _ => Some UB
  end.

(** correlate2dTo(in, out) (Convolution.h: 109-113): the samplings of the domain. *)
Definition correlate2d (convI convO : Z -> Z) (fuel : nat) (k : lkernel) (rin rout : raster Z) : option (res (list Z)) :=
  obind (lift (d <- rdomain 2 (rshape rin) ;; psampling d (vone 2))) (fun l =>
  obind (lift (zget l 0)) (fun sx => obind (lift (zget l 1)) (fun sy => sparseCorrelate2d convI convO fuel k rin sx sy rout))).
