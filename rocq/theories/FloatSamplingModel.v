(** Model of AxisSampling<double> (LitlRaster/LitlRaster/Sampling.h: 17-113). In SamplingModel.v the scalars are indices. *)
From Flocq Require Import IEEE754.BinarySingleNaN.
From Verif Require Import Res WidthModel FloatModel TypedMedianModel LoopModel.

(** std::size_t. *)
Definition sizeType : itype := mkItype false 64.

(** Front, back, step (Sampling.h: 99-112). *)
Record axis := mkAxis { afront : double; aback : double; astep : double }.

(** The default sampling [{}] (Sampling.h: 99-112). *)
Definition axisDefault : axis := mkAxis (dofZ 0) (B754_infinity false) (dofZ 1).

(** size() (Sampling.h: 74-76): std::max(a, b) is [(a < b) ? b : a], and the result is converted to std::size_t. *)
Definition axisSize (s : axis) : res Z :=
  let q := ddiv (dadd (dsub (aback s) (afront s)) (astep s)) (astep s) in
  dtruncTo sizeType (if dltb (dofZ 0) q then q else dofZ 0).

(** Iterator(sampling, index): m_current and m_index (Sampling.h: 27-28, 65-68). *)
Definition axisIter (s : axis) (index : Z) : double * Z := (dadd (afront s) (dmul (astep s) (dofZ index)), index).

(** iterator += n (Sampling.h: 47-51): [n] is a double, and the index is added in double then converted back. *)
Definition axisAdd (s : axis) (n : double) (it : double * Z) : res (double * Z) :=
  i <- dtruncTo sizeType (dadd (dofZ (snd it)) n) ;; Ok (dadd (fst it) (dmul (astep s) n), i).

(** ++iterator (Sampling.h: 38-40), iterator -= n (Sampling.h: 53-55). *)
Definition axisNext (s : axis) (it : double * Z) : res (double * Z) := axisAdd s (dofZ 1) it.
Definition axisSub (s : axis) (n : double) (it : double * Z) : res (double * Z) := axisAdd s (dopp n) it.

(** [for (auto x : sampling) visit(x)], which is also how vector() reads the range (Sampling.h: 57-63, 81-97): the iterators compare by index. *)
Definition axisForeach (fuel : nat) (s : axis) : option (res (list double)) :=
  match axisSize s with
  | Ok n =>
      match forLoop fuel (fun it => snd it =? n) (axisNext s) (axisIter s 0) with
      | Some (Ok l) => Some (Ok (map fst l))
      | Some (Throw e) => Some (Throw e)
      | Some UB => Some UB
      | None => None
      end
  | Throw e => Some (Throw e)
  | UB => Some UB
  end.
