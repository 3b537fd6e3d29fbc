(** Model of LineKernel and Kernel1d
    (LitlTransforms/LitlTransforms/LineKernel.h, LitlTransforms/LitlTransforms/Convolution.h).
    Values are exact integers. *)
From Verif Require Import Res VecModel SamplingModel.

(** A line kernel: values and origin (LineKernel.h: 38, 114-117). The bias is always zero.
    Kernel1d has the same data (Convolution.h: 24-26, 202-206): backward = origin, forward = size - 1 - origin. *)
Record lkernel := mkLkernel { lvalues : list Z; lorigin : Z }.

Definition lsize (k : lkernel) : Z := Z.of_nat (length (lvalues k)).

(** The constructor with values only delegates to [LineKernel(std::move(values), values.size() / 2)] (LineKernel.h: 43).
    The order in which both arguments are evaluated is unspecified: if [values] is moved first, its size is then 0. *)
Inductive lmake (values : list Z) : lkernel -> Prop :=
| lmake_size_first : lmake values (mkLkernel values (Z.of_nat (length values) / 2))
| lmake_move_first : lmake values (mkLkernel values (0 / 2)).

(** std::inner_product(first1, last1, first2, init) (LineKernel.h: 99, 105, 110), for a pointer to the kernel values and a strided iterator to the data. *)
Fixpoint innerLoop (n : nat) (k mem : list Z) (a b stride acc : Z) : res Z :=
  match n with
  | O => Ok acc
  | S n' => x <- zget k a ;; y <- zget mem b ;; innerLoop n' k mem (a + 1) (b + stride) stride (acc + x * y)
  end.

(** With last1 before first1 the loop reads past the end. *)
Definition innerProduct (k mem : list Z) (first last b stride acc : Z) : res Z :=
  if last <? first then UB else innerLoop (Z.to_nat (last - first)) k mem first b stride acc.

(** State of correlate: index, input address, output address, output memory.
    Simplifications: the output is not the input; an address out of the block is an error when it is accessed only. *)
Record cstate := mkCstate { ci : Z; cin : Z; cout : Z; cmem : list Z }.

(** [for (; cond(i); i += step, inIt += step, ++outIt) *outIt = value(i, inIt);] (LineKernel.h: 98-111) *)
Fixpoint corrLoop (fuel : nat) (cond : Z -> bool) (value : Z -> Z -> res Z) (step istride ostride : Z) (s : cstate)
  : option (res cstate) :=
  match fuel with
  | O => None
  | S fuel' =>
      if cond (ci s) then
        match value (ci s) (cin s) with
        | Ok v =>
            match zset (cmem s) (cout s) v with
            | Ok m => corrLoop fuel' cond value step istride ostride
                        (mkCstate (ci s + step) (cin s + step * istride) (cout s + ostride) m)
            | Throw e => Some (Throw e)
            | UB => Some UB
            end
        | Throw e => Some (Throw e)
        | UB => Some UB
        end
      else Some (Ok s)
  end.

Definition obind {A B : Type} (x : option (res A)) (f : A -> option (res B)) : option (res B) :=
  match x with
  | Some (Ok a) => f a
  | Some (Throw e) => Some (Throw e)
  | Some UB => Some UB
  | None => None
  end.

(** correlate(in, out) (LineKernel.h: 82-112) and sparseCorrelate1dTo(in, out) (Convolution.h: 70-104):
    the output memory. The bound of the second loop is computed in std::size_t. *)
Definition correlate (fuel : nat) (k : lkernel) (min : list Z) (din : dsamples) (mout : list Z) (dout : dsamples)
  : option (res (list Z)) :=
  let front := sfront (dSampling din) in
  let back := sback (dSampling din) in
  let step := sstep (dSampling din) in
  let istride := dStride din in
  let unitIn := dsMake (dData din) (dSize din) (mkSampling front back 1) istride in
  let begin := dsIter unitIn 0 in
  let inMin := begin - front * istride in
  let ostride := sstep (dSampling dout) * dStride dout in
  let forward := u64 (lsize k - lorigin k - 1) in
  let inner first last it := innerProduct (lvalues k) min first last it istride 0 in
  let s0 := mkCstate front (begin - lorigin k * istride) (dsIter dout 0) mout in
  obind (corrLoop fuel (fun i => i <? lorigin k) (fun i it => inner (lorigin k - i) (lsize k) inMin)
           step istride ostride s0)
  (fun s1 =>
  obind (corrLoop fuel (fun i => u64 i <=? u64 (dSize din - forward - step)) (fun i it => inner 0 (lsize k) it)
           step istride ostride s1)
  (fun s2 =>
  obind (corrLoop fuel (fun i => i <=? back) (fun i it => inner 0 (lorigin k + (dSize din - i)) it)
           step istride ostride s2)
  (fun s3 => Some (Ok (cmem s3))))).
