(** Outcomes of C++ expressions, and memory blocks as lists. *)
From Coq Require Export List ZArith Lia Bool.
Export ListNotations.
Open Scope Z_scope.

(** The exceptions thrown by the library (LitlTypes/LitlTypes/Exceptions.h: 18-117,
    LitlContainer/LitlContainer/Holders.h: 18-28, LitlContainer/LitlContainer/AlignedBuffer.h: 57-76). *)
Inductive err := EOutOfBounds | ESize | ENullPtr | EAlignment | EGeneric.

(** [Ok a]: the expression evaluates to [a]; [Throw e]: it throws;
    [UB]: its behaviour is undefined (out-of-bounds access, signed overflow, division by zero...). *)
Inductive res (A : Type) : Type :=
| Ok (a : A)
| Throw (e : err)
| UB.
Arguments Ok {A} a.
Arguments Throw {A} e.
Arguments UB {A}.

Definition bind {A B : Type} (r : res A) (k : A -> res B) : res B :=
  match r with
  | Ok a => k a
  | Throw e => Throw e
  | UB => UB
  end.

Notation "x <- e ;; k" := (bind e (fun x => k)) (at level 61, e at next level, right associativity).

(** Read of element [i] of a block: undefined out of the block. *)
Definition zget {A : Type} (l : list A) (i : Z) : res A :=
  if i <? 0 then UB
  else match nth_error l (Z.to_nat i) with
       | Some a => Ok a
       | None => UB
       end.

(** Replacement of the [n]-th element. *)
Fixpoint replace {A : Type} (l : list A) (n : nat) (a : A) : list A :=
  match l, n with
  | [], _ => []
  | _ :: l', O => a :: l'
  | x :: l', S n' => x :: replace l' n' a
  end.

(** Write of element [i] of a block: undefined out of the block. *)
Definition zset {A : Type} (l : list A) (i : Z) (a : A) : res (list A) :=
  if (i <? 0) || (Z.of_nat (length l) <=? i) then UB
  else Ok (replace l (Z.to_nat i) a).

(** Signed 64-bit result of an operation whose mathematical value is [z]: undefined on overflow. *)
Definition chk64 (z : Z) : res Z :=
  if (- 2 ^ 63 <=? z) && (z <? 2 ^ 63) then Ok z else UB.

(** Conversion to std::size_t. *)
Definition u64 (z : Z) : Z := z mod 2 ^ 64.

(** Conversion of a std::size_t to long (two's complement). *)
Definition s64 (z : Z) : Z :=
  let m := z mod 2 ^ 64 in if m <? 2 ^ 63 then m else m - 2 ^ 64.

(** The integers from [a] to [b] included, in increasing order. *)
Definition zrange (a b : Z) : list Z :=
  map (fun k => a + Z.of_nat k) (seq 0 (Z.to_nat (b - a + 1))).
