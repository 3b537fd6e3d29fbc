(** Model of the sequence utilities (LitlTypes/LitlTypes/SeqUtils.h) the order of evaluation of which is unspecified in C++. *)
From Verif Require Import Res ArithModel.

Section Seq.
Context {A : Type}.

(** func( *std::get<Is>(tuple)++...) (SeqUtils.h: 66-68): the arguments are evaluated in some order, which is a list of indices in the
    tuple. The iterators are addresses; args are the arguments evaluated so far. *)
Fixpoint evalArgs (mem : list A) (order : list nat) (its : list Z) (args : list (option A)) : res (list Z * list (option A)) :=
  match order with
  | [] => Ok (its, args)
  | k :: order' =>
      match nth_error its k with
      | None => UB
      | Some it => x <- zget mem it ;; evalArgs mem order' (replace its k (it + 1)) (replace args k (Some x))
      end
  end.
Fixpoint allSome (l : list (option A)) : option (list A) :=
  match l with
  | [] => Some []
  | Some x :: l' => match allSome l' with Some r => Some (x :: r) | None => None end
  | None :: _ => None
  end.

(** iteratorTupleApply (SeqUtils.h: 144-150): the arguments of the function, and the iterators afterwards. *)
Definition tupleRead (order : list nat) (mem : list A) (its : list Z) : res (list A * list Z) :=
  r <- evalArgs mem order its (repeat None (length its)) ;;
  match allSome (snd r) with Some xs => Ok (xs, fst r) | None => UB end.

(** DataContainer::generate (LitlContainer/LitlContainer/DataContainer.h: 186-194), where each call may use another order. *)
Fixpoint generateAny {S : Type} (orders : nat -> list nat) (func : S -> list A -> res (S * A)) (n : nat) (st : S) (mem : list A) (a : Z) (its : list Z)
  : res (S * list A) :=
  match n with
  | O => Ok (st, mem)
  | Datatypes.S n' =>
      t <- tupleRead (orders n) mem its ;;
      r <- func st (fst t) ;;
      m <- zset mem a (snd r) ;;
      generateAny orders func n' (fst r) m (a + 1) (snd t)
  end.

(** seqTransform of a container (SeqUtils.h: 195-200): the result has the size of the sequence, and std::transform applies the function
    to the elements in some order. *)
Fixpoint transformLoop {B : Type} (f : A -> B) (seq : list A) (order : list nat) (out : list B) : res (list B) :=
  match order with
  | [] => Ok out
  | k :: order' => x <- zget seq (Z.of_nat k) ;; o <- zset out (Z.of_nat k) (f x) ;; transformLoop f seq order' o
  end.
Definition seqTransform {B : Type} (zero : B) (order : list nat) (f : A -> B) (seq : list A) : res (list B) :=
  transformLoop f seq order (repeat zero (length seq)).
End Seq.
