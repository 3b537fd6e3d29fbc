(** Model of the loops of IterationBenchmark (LitlRun/src/lib/IterationBenchmark.cpp, LitlRun/LitlRun/IterationBenchmark.h).
    The three rasters have the same shape, and are given by their pixels in memory order; [op] is the addition of pixels,
    with the conversion to the pixel type. Simplifications: the chronometer (see ChronoModel) is left out. *)
From Verif Require Import Res VecModel BoxModel RasterModel ArithModel.

(** [for (Index i = lo; i < hi; ++i) body(i)] (IterationBenchmark.cpp: 18-44, 67-76). *)
Fixpoint forLoop {S : Type} (n : nat) (i : Z) (body : Z -> S -> res S) (s : S) : res S :=
  match n with
  | O => Ok s
  | Datatypes.S n' => t <- body i s ;; forLoop n' (i + 1) body t
  end.
Definition forFromTo {S : Type} (lo hi : Z) (body : Z -> S -> res S) (s : S) : res S := forLoop (Z.to_nat (hi - lo)) lo body s.

(** [for (const auto& p : positions) body(p)] (IterationBenchmark.cpp: 46-65), once the positions are known: the body does not change the iterator. *)
Fixpoint forEach {X S : Type} (l : list X) (body : X -> S -> res S) (s : S) : res S :=
  match l with
  | [] => Ok s
  | x :: l' => t <- body x s ;; forEach l' body t
  end.

Section Bench.
Context {A : Type}.
Variable op : A -> A -> A.
Variables (w h d : Z). (* m_width, m_height and m_depth (IterationBenchmark.cpp: 10) *)
Definition bshape : list Z := [w; h; d].
Variables (da db : list A). (* the pixels of m_a and m_b *)

(** [m_c[p] = m_a[p] + m_b[p]] (IterationBenchmark.cpp: 24, 38, 50). *)
Definition addAt (p : list Z) (dc : list A) : res (list A) :=
  x <- rget 3 (mkRaster bshape da) p ;;
  y <- rget 3 (mkRaster bshape db) p ;;
  c <- rset 3 (mkRaster bshape dc) p (op x y) ;;
  Ok (rdata c).

(** [m_c[i] = m_a[i] + m_b[i]] (IterationBenchmark.cpp: 61, 72). *)
Definition addAtIndex (i : Z) (dc : list A) : res (list A) :=
  x <- zget da i ;; y <- zget db i ;; zset dc i (op x y).

(** loopOverXyz (IterationBenchmark.cpp: 18-30). *)
Definition loopOverXyz (dc : list A) : res (list A) :=
  forFromTo 0 w (fun x => forFromTo 0 h (fun y => forFromTo 0 d (fun z => addAt [x; y; z]))) dc.

(** loopOverZyx (IterationBenchmark.cpp: 32-44). *)
Definition loopOverZyx (dc : list A) : res (list A) :=
  forFromTo 0 d (fun z => forFromTo 0 h (fun y => forFromTo 0 w (fun x => addAt [x; y; z]))) dc.

(** iterateOverPositions (IterationBenchmark.cpp: 46-54); None if the fuel does not suffice. *)
Definition overDomain (fuel : nat) (body : list Z -> list A -> res (list A)) (dc : list A) : option (res (list A)) :=
  match rdomain 3 bshape with
  | Ok b =>
      match boxForeach fuel b with
      | None => None
      | Some r => Some (l <- r ;; forEach l body dc)
      end
  | Throw e => Some (Throw e)
  | UB => Some UB
  end.
Definition iterateOverPositions (fuel : nat) (dc : list A) : option (res (list A)) := overDomain fuel addAt dc.

(** iterateOverPositionsOptimized (IterationBenchmark.cpp: 56-65). *)
Definition iterateOverPositionsOptimized (fuel : nat) (dc : list A) : option (res (list A)) :=
  overDomain fuel (fun p c => i <- rindex 3 bshape p ;; addAtIndex i c) dc.

(** loopOverIndices (IterationBenchmark.cpp: 67-76). *)
Definition loopOverIndices (dc : list A) : res (list A) := forFromTo 0 (Z.of_nat (length dc)) addAtIndex dc.

(** iterateOverValues (IterationBenchmark.cpp: 78-90): the three iterators are addresses in their own containers. *)
Fixpoint valuesLoop (n : nat) (a b c : Z) (dc : list A) : res (list A) :=
  match n with
  | O => Ok dc
  | S n' => x <- zget da a ;; y <- zget db b ;; dc' <- zset dc c (op x y) ;; valuesLoop n' (a + 1) (b + 1) (c + 1) dc'
  end.
Definition iterateOverValues (dc : list A) : res (list A) := valuesLoop (length dc) 0 0 0 dc.

(** The three containers one after the other in memory, and the first one of them after some operation. *)
Definition memory (dc : list A) : list A := da ++ db ++ dc.
Definition addressB : Z := Z.of_nat (length da).
Definition addressC : Z := Z.of_nat (length da + length db).

(** callOperator (IterationBenchmark.cpp: 92-98): the sum is a new instance, which is then moved to m_c. *)
Definition callOperator (dc : list A) : res (list A) :=
  m <- new2 (fun x y => Ok (op x y)) (length da) (memory dc) 0 addressB ;;
  zgetN (length da) m (Z.of_nat (length (memory dc))).

(** callGenerate (IterationBenchmark.cpp: 100-111); the pixels of m_c afterwards. *)
Definition addArgs (st : unit) (args : list A) : res (unit * A) :=
  match args with [x; y] => Ok (st, op x y) | _ => UB end.
Definition callGenerate (dc : list A) : res (list A) :=
  r <- generate addArgs (length dc) tt (memory dc) addressC [0; addressB] ;;
  zgetN (length dc) (snd r) addressC.
End Bench.
