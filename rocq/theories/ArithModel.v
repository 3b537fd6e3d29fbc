(** Model of the pixel-wise operators (LitlContainer/LitlContainer/Arithmetic.h, LitlContainer/LitlContainer/Math.h)
    and of the modifiers of DataContainer (LitlContainer/LitlContainer/DataContainer.h).
    All the containers and scalars live in one memory [mem]; a container is an address and a size, a scalar passed
    by reference is an address. Accesses out of the memory are undefined; an access which overruns a container but
    stays in the memory reads or writes the neighbour, as in C++ implementations. *)
From Verif Require Import Res VecModel RasterModel ContainerModel.

Section Transform.
Context {A : Type}.

(** std::transform(a, a + n, a, f), i.e. the unary in-place operators
    (Arithmetic.h: 114-137, 151-157, Math.h: 37-45). *)
Fixpoint transform1 (f : A -> res A) (n : nat) (mem : list A) (a : Z) : res (list A) :=
  match n with
  | O => Ok mem
  | S n' =>
      x <- zget mem a ;; y <- f x ;; m <- zset mem a y ;; transform1 f n' m (a + 1)
  end.

(** V op= U, where V is at [a] and U at [b]: std::transform(a, a + n, b, a, op)
    (Arithmetic.h: 15-26, Math.h: 47-56). Only the size of V is known to the loop. *)
Fixpoint transform2 (op : A -> A -> res A) (n : nat) (mem : list A) (a b : Z) : res (list A) :=
  match n with
  | O => Ok mem
  | S n' =>
      x <- zget mem a ;; y <- zget mem b ;; z <- op x y ;; m <- zset mem a z ;;
      transform2 op n' m (a + 1) (b + 1)
  end.

(** V op= a, where the scalar is captured by reference and lies at [s] (Arithmetic.h: 28-38). *)
Fixpoint transformRef (op : A -> A -> res A) (n : nat) (mem : list A) (a s : Z) : res (list A) :=
  match n with
  | O => Ok mem
  | S n' =>
      x <- zget mem a ;; y <- zget mem s ;; z <- op x y ;; m <- zset mem a z ;;
      transformRef op n' m (a + 1) s
  end.

(** V.function(a), where the scalar is captured by value (Math.h: 58-67). *)
Definition transformVal (op : A -> A -> res A) (n : nat) (mem : list A) (a s : Z) : res (list A) :=
  y <- zget mem s ;; transform1 (fun x => op x y) n mem a.

(** The [n] elements at address [a]. *)
Fixpoint zgetN (n : nat) (mem : list A) (a : Z) : res (list A) :=
  match n with
  | O => Ok []
  | S n' => x <- zget mem a ;; t <- zgetN n' mem (a + 1) ;; Ok (x :: t)
  end.

(** Copy of a container into fresh memory, at the end; the address of the copy is the former memory size.
    (boost::operators: [T nrv(lhs); nrv op= rhs; return nrv;]; Arithmetic.h: 151-157, Math.h: 125-141.) *)
Definition copyNew (n : nat) (mem : list A) (a : Z) : res (list A) :=
  l <- zgetN n mem a ;; Ok (mem ++ l).

(** W = V op U, W = V op a, W = f(V): new instance at address [length mem] (Arithmetic.h: 15-38, 151-157, Math.h: 123-140). *)
Definition new1 (f : A -> res A) (n : nat) (mem : list A) (a : Z) : res (list A) :=
  m <- copyNew n mem a ;; transform1 f n m (Z.of_nat (length mem)).
Definition new2 (op : A -> A -> res A) (n : nat) (mem : list A) (a b : Z) : res (list A) :=
  m <- copyNew n mem a ;; transform2 op n m (Z.of_nat (length mem)) b.
Definition newRef (op : A -> A -> res A) (n : nat) (mem : list A) (a s : Z) : res (list A) :=
  m <- copyNew n mem a ;; transformRef op n m (Z.of_nat (length mem)) s.

(** fill(value), the value being at address [s] (DataContainer.h: 128-131). *)
Fixpoint fillLoop (n : nat) (mem : list A) (a s : Z) : res (list A) :=
  match n with
  | O => Ok mem
  | S n' => v <- zget mem s ;; m <- zset mem a v ;; fillLoop n' m (a + 1) s
  end.

(** The arguments of one call of iteratorTupleApply (LitlTypes/LitlTypes/SeqUtils.h: 61-68, 141-151). *)
Fixpoint readArgs (mem : list A) (args : list Z) : res (list A) :=
  match args with
  | [] => Ok []
  | b :: args' => x <- zget mem b ;; t <- readArgs mem args' ;; Ok (x :: t)
  end.

(** generate(func, args...), where [args] are the addresses of the argument containers and [func] is stateful
    (DataContainer.h: 186-194). *)
Fixpoint generate {S : Type} (func : S -> list A -> res (S * A)) (n : nat) (st : S) (mem : list A) (a : Z) (args : list Z)
  : res (S * list A) :=
  match n with
  | O => Ok (st, mem)
  | Datatypes.S n' =>
      xs <- readArgs mem args ;;
      r <- func st xs ;;
      m <- zset mem a (snd r) ;;
      generate func n' (fst r) m (a + 1) (map (fun b => b + 1) args)
  end.

(** apply(func, args...) (DataContainer.h: 211-214). *)
Definition apply {S : Type} (func : S -> list A -> res (S * A)) (n : nat) (st : S) (mem : list A) (a : Z) (args : list Z)
  : res (S * list A) :=
  generate func n st mem a (a :: args).
End Transform.

(** Scalar operators on integers, as called by the functors of Arithmetic.h: 15-38, 114-157: division truncates toward zero, division by zero is undefined.
    Simplification: unbounded integers. *)
Definition opAdd (x y : Z) : res Z := Ok (x + y).
Definition opSub (x y : Z) : res Z := Ok (x - y).
Definition opMul (x y : Z) : res Z := Ok (x * y).
Definition opDiv (x y : Z) : res Z := if y =? 0 then UB else Ok (Z.quot x y).
Definition opMod (x y : Z) : res Z := if y =? 0 then UB else Ok (Z.rem x y).
Definition opNeg (x : Z) : res Z := Ok (- x).
Definition opIncr (x : Z) : res Z := Ok (x + 1).
Definition opDecr (x : Z) : res Z := Ok (x - 1).

(** a - V for a Vector of template parameter [n], by boost::subtractable2_left: Vector(a) -= V, where Vector(a)
    is the zero vector of dimension a (Arithmetic.h: 89, 172, Vector.h: 71-74, Holders.h: 78-82, 157-166). *)
Definition scalarMinusVector (n a : Z) (v : list Z) : res (list Z) :=
  nrv <- (if n =? -1 then (if a <? 0 then Throw EGeneric else Ok (repeat 0 (Z.to_nat a)))
          else if negb (u64 a =? n) && negb (u64 a =? 0) then Throw EGeneric else Ok (repeat 0 (Z.to_nat n))) ;;
  if Nat.leb (length nrv) (length v) then Ok (map2 Z.sub nrv v) else UB.

(** range(min, step): [min] is copied, [step] is a reference to address [s] (DataContainer.h: 142-150). *)
Fixpoint rangeLoop (n : nat) (mem : list Z) (a v s : Z) : res (list Z) :=
  match n with
  | O => Ok mem
  | S n' => m <- zset mem a v ;; st <- zget m s ;; rangeLoop n' m (a + 1) (v + st) s
  end.

(** linspace(min, max) for a 64-bit signed integer type: the subtraction is signed, the division and the
    multiplication are made in std::size_t (DataContainer.h: 162-170). Values are passed, not references. *)
Fixpoint linspaceIntLoop (n : nat) (i step mn : Z) : list Z :=
  match n with
  | O => []
  | S n' => s64 (u64 (mn + u64 (step * i))) :: linspaceIntLoop n' (i + 1) step mn
  end.
Definition linspaceInt (size : nat) (mn mx : Z) : res (list Z) :=
  match size with
  | O => UB (* size() - 1 wraps around: writes out of the container *)
  | 1%nat => UB (* division by zero *)
  | S k => Ok (linspaceIntLoop k 0 (u64 (mx - mn) / Z.of_nat k) mn ++ [mx])
  end.
