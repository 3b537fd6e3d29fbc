(** Model of filters which are applied in place, i.e. whose output is their input
    (LitlTransforms/LitlTransforms/MedianFilter.h, LitlTransforms/LitlTransforms/LineKernel.h).
    The loops are those of MedianModel.v and LineKernelModel.v, except that each value is read in the current state of
    the output. Values are exact. *)
From Verif Require Import Res VecModel TypesModel BoxModel RasterModel SamplingModel DistModel LineKernelModel MedianModel.

(** The loop of applyTo(in, out, region), where [in] is [out] or decorates it (MedianFilter.h: 62-73):
    [view r q] is in[q] when the pixels of the raster are those of [r]. *)
Inductive selfLoop (fuel : nat) (n : Z) (window : box) (view : raster Q -> list Z -> res Q) :
  list (list Z) -> list Q -> raster Q -> res (raster Q) -> Prop :=
| self_done buffer out : selfLoop fuel n window view [] buffer out (Ok out)
| self_step p ps buffer out qs xs l' v out' r :
    boxForeach fuel (boxShift window p) = Some (Ok qs) -> mapRes (view out) qs = Ok xs -> (length xs <= length buffer)%nat ->
    filterMedian (xs ++ skipn (length xs) buffer) l' (Ok v) -> rset n out p v = Ok out' ->
    selfLoop fuel n window view ps l' out' r -> selfLoop fuel n window view (p :: ps) buffer out r
| self_read p ps buffer out qs :
    boxForeach fuel (boxShift window p) = Some (Ok qs) -> mapRes (view out) qs = UB -> selfLoop fuel n window view (p :: ps) buffer out UB
| self_over p ps buffer out qs xs :
    boxForeach fuel (boxShift window p) = Some (Ok qs) -> mapRes (view out) qs = Ok xs -> (length buffer < length xs)%nat ->
    selfLoop fuel n window view (p :: ps) buffer out UB
| self_median p ps buffer out qs xs l' :
    boxForeach fuel (boxShift window p) = Some (Ok qs) -> mapRes (view out) qs = Ok xs -> (length xs <= length buffer)%nat ->
    filterMedian (xs ++ skipn (length xs) buffer) l' UB -> selfLoop fuel n window view (p :: ps) buffer out UB
| self_write p ps buffer out qs xs l' v :
    boxForeach fuel (boxShift window p) = Some (Ok qs) -> mapRes (view out) qs = Ok xs -> (length xs <= length buffer)%nat ->
    filterMedian (xs ++ skipn (length xs) buffer) l' (Ok v) -> rset n out p v = UB ->
    selfLoop fuel n window view (p :: ps) buffer out UB.

(** applyTo(in, out, region) (MedianFilter.h: 62-73). *)
Inductive selfApplyTo (fuel : nat) (n : Z) (window region : box) (view : raster Q -> list Z -> res Q) (r : raster Q)
  : res (raster Q) -> Prop :=
| self_apply ps r' : boxForeach fuel region = Some (Ok ps) ->
    selfLoop fuel n window view ps (repeat 0%Q (Z.to_nat (boxSize window))) r r' -> selfApplyTo fuel n window region view r r'.

(** The loops of correlate, where [value m i it] reads the memory [m] (LineKernel.h: 97-111). *)
Fixpoint corrLoopSelf (fuel : nat) (cond : Z -> bool) (value : list Z -> Z -> Z -> res Z) (step istride ostride : Z) (s : cstate)
  : option (res cstate) :=
  match fuel with
  | O => None
  | S fuel' =>
      if cond (ci s) then
        match value (cmem s) (ci s) (cin s) with
        | Ok v =>
            match zset (cmem s) (cout s) v with
            | Ok m => corrLoopSelf fuel' cond value step istride ostride
                        (mkCstate (ci s + step) (cin s + step * istride) (cout s + ostride) m)
            | Throw e => Some (Throw e)
            | UB => Some UB
            end
        | Throw e => Some (Throw e)
        | UB => Some UB
        end
      else Some (Ok s)
  end.

(** correlate(samples, samples) (LineKernel.h: 82-112): the samples [d] of the memory [mem] are read and written. *)
Definition correlateSelf (fuel : nat) (k : lkernel) (mem : list Z) (d : dsamples) : option (res (list Z)) :=
  let front := sfront (dSampling d) in
  let back := sback (dSampling d) in
  let step := sstep (dSampling d) in
  let stride := dStride d in
  let unitIn := dsMake (dData d) (dSize d) (mkSampling front back 1) stride in
  let begin := dsIter unitIn 0 in
  let inMin := begin - front * stride in
  let ostride := step * stride in
  let forward := u64 (lsize k - lorigin k - 1) in
  let inner m first last it := innerProduct (lvalues k) m first last it stride 0 in
  let s0 := mkCstate front (begin - lorigin k * stride) (dsIter d 0) mem in
  obind (corrLoopSelf fuel (fun i => i <? lorigin k) (fun m i it => inner m (lorigin k - i) (lsize k) inMin)
           step stride ostride s0)
  (fun s1 =>
  obind (corrLoopSelf fuel (fun i => u64 i <=? u64 (dSize d - forward - step)) (fun m i it => inner m 0 (lsize k) it)
           step stride ostride s1)
  (fun s2 =>
  obind (corrLoopSelf fuel (fun i => i <=? back) (fun m i it => inner m 0 (lorigin k + (dSize d - i)) it)
           step stride ostride s2)
  (fun s3 => Some (Ok (cmem s3))))).
