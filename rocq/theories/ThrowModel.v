(** Model of the pixel-wise functions and operators when the function or the operator of the element type throws
    (LitlContainer/LitlContainer/DataContainer.h, LitlContainer/LitlContainer/Arithmetic.h, LitlContainer/LitlContainer/Math.h).
    As in ArithModel.v, containers are addresses in one memory; but the memory and the state of the function are also
    known after an exception. Copies and assignments of elements do not throw. *)
From Verif Require Import Res ArithModel.

Section Throw.
Context {A : Type}.

(** generate(func, args...) (DataContainer.h: 186-194): the state of the function and the memory, and how the call ended.
    The function may change its own state before throwing. *)
Fixpoint generateT {S : Type} (func : S -> list A -> S * res A) (n : nat) (st : S) (mem : list A) (a : Z) (args : list Z)
  : S * list A * res unit :=
  match n with
  | O => (st, mem, Ok tt)
  | Datatypes.S n' =>
      match readArgs mem args with
      | Ok xs =>
          let '(st', r) := func st xs in
          match r with
          | Ok y =>
              match zset mem a y with
              | Ok m => generateT func n' st' m (a + 1) (map (fun b => b + 1) args)
              | Throw e => (st', mem, Throw e)
              | UB => (st', mem, UB)
              end
          | Throw e => (st', mem, Throw e)
          | UB => (st', mem, UB)
          end
      | Throw e => (st, mem, Throw e)
      | UB => (st, mem, UB)
      end
  end.

(** apply(func, args...) (DataContainer.h: 211-214). *)
Definition applyT {S : Type} (func : S -> list A -> S * res A) (n : nat) (st : S) (mem : list A) (a : Z) (args : list Z)
  : S * list A * res unit :=
  generateT func n st mem a (a :: args).

(** The in-place operators and functions (Arithmetic.h: 15-38, 114-137, Math.h: 37-67): std::transform on the container at
    [a]. It calls the operator in any order: [order] are indices of elements. [reads k] are the addresses of
    the operands for element [k]: [a + k] and, for V op= U, [b + k], or for V op= s, the address of s. *)
Fixpoint transformT (op : list A -> res A) (reads : Z -> list Z) (order : list Z) (mem : list A) (a : Z) : list A * res unit :=
  match order with
  | [] => (mem, Ok tt)
  | k :: order' =>
      match readArgs mem (reads k) with
      | Ok xs =>
          match op xs with
          | Ok y =>
              match zset mem (a + k) y with
              | Ok m => transformT op reads order' m a
              | Throw e => (mem, Throw e)
              | UB => (mem, UB)
              end
          | Throw e => (mem, Throw e)
          | UB => (mem, UB)
          end
      | Throw e => (mem, Throw e)
      | UB => (mem, UB)
      end
  end.

(** W = V op U, W = V op s, W = f(V) (boost::operators; Arithmetic.h: 151-157, Math.h: 125-141): copy of the container at [a] to the end
    of the memory, and in-place operator on it; the exceptions destroy the copy. *)
Definition newT (op : list A -> res A) (reads : Z -> list Z) (order : list Z) (n : nat) (mem : list A) (a : Z) : list A * res unit :=
  match zgetN n mem a with
  | Ok l =>
      let '(m, r) := transformT op reads order (mem ++ l) (Z.of_nat (length mem)) in
      match r with
      | Throw e => (firstn (length mem) m, Throw e)
      | _ => (m, r)
      end
  | Throw e => (mem, Throw e)
  | UB => (mem, UB)
  end.
End Throw.
