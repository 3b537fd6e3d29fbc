(** Specification vocabulary for interrupted calls. *)
From Verif Require Import Res ArithModel ArithSpec.

(** The successive calls of a stateful function on a sequence of arguments, up to the first which throws:
    state afterwards, results so far, and how it ended. *)
Fixpoint attempt {S X A : Type} (f : S -> X -> S * res A) (st : S) (xs : list X) : S * list A * res unit :=
  match xs with
  | [] => (st, [], Ok tt)
  | x :: xs' =>
      match f st x with
      | (st', Ok y) => let '(st'', ys, r) := attempt f st' xs' in (st'', y :: ys, r)
      | (st', Throw e) => (st', [], Throw e)
      | (st', UB) => (st', [], UB)
      end
  end.

(** The operator was called for the elements [done], which hold its results; the other elements did not change. *)
Definition Interrupted {A : Type} (op : list A -> res A) (reads : Z -> list Z) (order : list Z) (mem mem' : list A) (a : Z) (r : res unit) : Prop :=
  exists done rest, order = done ++ rest /\ length mem' = length mem /\
    (forall k, In k done -> exists xs y, readArgs mem (reads k) = Ok xs /\ op xs = Ok y /\ zget mem' (a + k) = Ok y) /\
    (forall j, (forall k, In k done -> j <> a + k) -> zget mem' j = zget mem j) /\
    match r with
    | Ok _ => rest = []
    | Throw e => exists k rest' xs, rest = k :: rest' /\ readArgs mem (reads k) = Ok xs /\ op xs = Throw e
    | UB => exists k rest', rest = k :: rest' /\ (readArgs mem (reads k) = UB \/ exists xs, readArgs mem (reads k) = Ok xs /\ op xs = UB)
    end.

(** A function which does not change its state when it throws. *)
Definition lift {S A : Type} (func : S -> list A -> res (S * A)) (st : S) (xs : list A) : S * res A :=
  match func st xs with
  | Ok (st', y) => (st', Ok y)
  | Throw e => (st, Throw e)
  | UB => (st, UB)
  end.
