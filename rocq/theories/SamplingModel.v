(** Model of AxisSampling<Index>, PositionSampling and DataSamples (LitlRaster/LitlRaster/Sampling.h). *)
From Verif Require Import Res VecModel BoxModel LoopModel.

(** Elements of a list of outcomes, in order. *)
Fixpoint mapRes {A B : Type} (f : A -> res B) (l : list A) : res (list B) :=
  match l with
  | [] => Ok []
  | a :: l' => b <- f a ;; r <- mapRes f l' ;; Ok (b :: r)
  end.

(** AxisSampling<Index>: front, back, step (Sampling.h: 99-112). *)
Record sampling := mkSampling { sfront : Z; sback : Z; sstep : Z }.

(** The default sampling [{}] (Sampling.h: 99-112). *)
Definition sdefault : sampling := mkSampling 0 indexInf 1.

(** size() (Sampling.h: 74-76), with signed 64-bit arithmetic. *)
Definition ssize (s : sampling) : res Z :=
  d <- chk64 (sback s - sfront s) ;;
  e <- chk64 (d + sstep s) ;;
  if sstep s =? 0 then UB
  else q <- chk64 (Z.quot e (sstep s)) ;; Ok (Z.max 0 q).

(** Iterator: m_current and m_index (Sampling.h: 27-28, 65-68). [front + step * index] is computed in std::size_t. *)
Definition siter (s : sampling) (index : Z) : Z * Z := (s64 (sfront s + sstep s * index), index).

(** ++iterator (Sampling.h: 38-40, 47-51). *)
Definition snext (s : sampling) (it : Z * Z) : res (Z * Z) :=
  c <- chk64 (fst it + sstep s) ;; Ok (c, snd it + 1).

(** [for (auto i : sampling) visit(i)], which is also how vector() reads the range (Sampling.h: 57-63, 81-97):
    the iterators compare by index. *)
Definition sforeach (fuel : nat) (s : sampling) : option (res (list Z)) :=
  match ssize s with
  | Ok n =>
      match forLoop fuel (fun it => snd it =? n) (snext s) (siter s 0) with
      | Some (Ok l) => Some (Ok (map fst l))
      | Some (Throw e) => Some (Throw e)
      | Some UB => Some UB
      | None => None
      end
  | Throw e => Some (Throw e)
  | UB => Some UB
  end.

(** PositionSampling(box, step) (Sampling.h: 129-133): one sampling per element of [step]. *)
Definition psampling (b : box) (step : list Z) : res (list sampling) :=
  mapRes (fun i => f <- zget (bfront b) i ;; k <- zget (bback b) i ;; s <- zget step i ;; Ok (mkSampling f k s))
    (zrange 0 (Z.of_nat (length step) - 1)).

(** shape() for template parameter [n] (Sampling.h: 138-144): the output is default-constructed, that is,
    it has no element if the dimension is variable ([n] = -1). *)
Definition pshape (n : Z) (l : list sampling) : res (list Z) :=
  sizes <- mapRes ssize l ;;
  copy_n sizes (length sizes) (repeat 0 (if n =? -1 then O else Z.to_nat n)).

(** DataSamples: data pointer (an address in the memory block), size, sampling, stride (Sampling.h: 374-393). *)
Record dsamples := mkDsamples { dData : Z; dSize : Z; dSampling : sampling; dStride : Z }.

(** Constructor (Sampling.h: 238-242); m_size - 1 is computed in std::size_t. *)
Definition dsMake (data size : Z) (s : sampling) (stride : Z) : dsamples :=
  mkDsamples data size
    (mkSampling (sfront s) (if sback s =? indexInf then s64 (u64 (size - 1)) else sback s) (sstep s)) stride.

(** count() (Sampling.h: 261-263). *)
Definition dsCount (d : dsamples) : res Z := ssize (dSampling d).

(** Iterator(samples, index): an address (Sampling.h: 184-188). Simplification: address arithmetic is unbounded, and an
    address out of the block is an error when it is read only. *)
Definition dsIter (d : dsamples) (index : Z) : Z :=
  dData d + sfront (dSampling d) * dStride d + sstep (dSampling d) * dStride d * index.

(** Visit of the current element, then ++iterator (Sampling.h: 190-210). *)
Definition dsNext {A : Type} (mem : list A) (d : dsamples) (p : Z) : res Z :=
  _ <- zget mem p ;; Ok (p + sstep (dSampling d) * dStride d).

(** [for (auto e : samples) visit(e)], and vector() (Sampling.h: 217-223, 342-372): note that end() uses size(), not count(). *)
Definition dsForeach {A : Type} (fuel : nat) (mem : list A) (d : dsamples) : option (res (list A)) :=
  match forLoop fuel (fun p => p =? dsIter d (dSize d)) (dsNext mem d) (dsIter d 0) with
  | Some (Ok l) => Some (mapRes (zget mem) l)
  | Some (Throw e) => Some (Throw e)
  | Some UB => Some UB
  | None => None
  end.

(** operator+=(T n) and operator-=(T n) (Sampling.h: 326-337): the offset has the type of the elements;
    [conv] is the conversion of an integer to T. *)
Definition dsMove (conv : Z -> Z) (d : dsamples) (n : Z) : dsamples :=
  mkDsamples (dData d + conv n) (dSize d) (dSampling d) (dStride d).
Definition dsMoveBack (conv : Z -> Z) (d : dsamples) (n : Z) : dsamples := dsMove conv d (- conv n).

(** operator++() and operator++(int) (Sampling.h: 310-321): the returned samples and the new value of the operand. *)
Definition dsIncr (conv : Z -> Z) (d : dsamples) : dsamples * dsamples := (dsMove conv d 1, dsMove conv d 1).
Definition dsPostIncr (conv : Z -> Z) (d : dsamples) : dsamples * dsamples := (dsMove conv d 1, d).
