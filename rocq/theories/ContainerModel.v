(** Model of DataContainer and ContiguousContainer
    (LitlContainer/LitlContainer/DataContainer.h, LitlContainer/LitlContainer/ContiguousContainer.h). *)
From Coq Require Import Ascii String.
From Verif Require Import Res VecModel RasterModel.
Open Scope list_scope.

(** DataContainer::at(Index), read and write (DataContainer.h: 110-121).
    [size()] is a std::size_t: the bounds are computed modulo 2^64 and converted to Index,
    and [i + s] is computed modulo 2^64. *)
Definition atIndex {A} (data : list A) (i : Z) : res Z :=
  let s := Z.of_nat (length data) in
  _ <- boundsCheck i (s64 (u64 (- s))) (s64 (u64 (s - 1))) ;;
  Ok (if 0 <=? i then i else u64 (u64 i + s)).
Definition cat {A} (data : list A) (i : Z) : res A := k <- atIndex data i ;; zget data k.
Definition catSet {A} (data : list A) (i : Z) (a : A) : res (list A) := k <- atIndex data i ;; zset data k a.

Section MinMax.
Context {A : Type} (lt : A -> A -> bool).

(** std::min_element (DataContainer.h: 222-224) over the elements from index [i] on, where the current smallest one is [v] at [k]. *)
Fixpoint minLoop (l : list A) (i k : Z) (v : A) : Z * A :=
  match l with
  | [] => (k, v)
  | x :: l' => if lt x v then minLoop l' (i + 1) i x else minLoop l' (i + 1) k v
  end.
(** std::max_element, the same (DataContainer.h: 230-232). *)
Fixpoint maxLoop (l : list A) (i k : Z) (v : A) : Z * A :=
  match l with
  | [] => (k, v)
  | x :: l' => if lt v x then maxLoop l' (i + 1) i x else maxLoop l' (i + 1) k v
  end.
(** std::minmax_element (DataContainer.h: 238-241), by its specification ([alg.min.max]): the first smallest element and the last largest one. *)
Fixpoint minmaxLoop (l : list A) (i : Z) (mn mx : Z * A) : (Z * A) * (Z * A) :=
  match l with
  | [] => (mn, mx)
  | x :: l' =>
      minmaxLoop l' (i + 1) (if lt x (snd mn) then (i, x) else mn) (if lt x (snd mx) then mx else (i, x))
  end.

(** min(), max(), minmax() (DataContainer.h: 222-241): index and value of the referenced elements.
    Dereferencing the end of an empty container is undefined. *)
Definition cmin (l : list A) : res (Z * A) :=
  match l with [] => UB | x :: l' => Ok (minLoop l' 1 0 x) end.
Definition cmax (l : list A) : res (Z * A) :=
  match l with [] => UB | x :: l' => Ok (maxLoop l' 1 0 x) end.
Definition cminmax (l : list A) : res ((Z * A) * (Z * A)) :=
  match l with [] => UB | x :: l' => Ok (minmaxLoop l' 1 (0, x) (0, x)) end.
End MinMax.

(** The characters of a literal. *)
Definition lit (s : string) : list ascii := list_ascii_of_string s.

(** operator<< (ContiguousContainer.h: 216-236), where [pr] writes an element.
    The result is the text which is appended to the stream. *)
Section Print.
Context {A : Type} (pr : A -> list ascii).

(** [n] iterations of the loops [os << ", " << container[i]] from [i] on (ContiguousContainer.h: 220-232). *)
Fixpoint printLoop (n : nat) (l : list A) (i : Z) : res (list ascii) :=
  match n with
  | O => Ok []
  | S n' => x <- zget l i ;; t <- printLoop n' l (i + 1) ;; Ok (lit ", " ++ pr x ++ t)
  end.

Definition cprint (l : list A) : res (list ascii) :=
  let size := Z.of_nat (length l) in
  if size =? 0 then Ok (lit "[" ++ lit "]")
  else
    x0 <- zget l 0 ;;
    if 7 <? size then
      t <- printLoop (Z.to_nat (3 - 1)) l 1 ;;
      x <- zget l (size - 3) ;;
      u <- printLoop (Z.to_nat (size - (size - 2))) l (size - 2) ;;
      Ok (lit "[" ++ pr x0 ++ t ++ lit " ... " ++ pr x ++ u ++ lit "]")
    else
      u <- printLoop (Z.to_nat (size - 1)) l 1 ;;
      Ok (lit "[" ++ pr x0 ++ u ++ lit "]").
End Print.

(** serialize(logger, arg0, args...): the arguments are already written out as texts
    (LitlTypes/LitlTypes/SeqUtils.h: 212-217). *)
Fixpoint serializeRest (args : list (list ascii)) : list ascii :=
  match args with
  | [] => []
  | a :: args' => lit ", " ++ a ++ serializeRest args'
  end.
Definition serialize (arg0 : list ascii) (args : list (list ascii)) : list ascii := arg0 ++ serializeRest args.
