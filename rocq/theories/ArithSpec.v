(** Specification vocabulary for containers in memory. *)
From Verif Require Import Res.

(** The [n] elements at address [a] exist. *)
Definition Allocated {A} (mem : list A) (a : Z) (n : nat) : Prop := 0 <= a /\ a + Z.of_nat n <= Z.of_nat (length mem).

(** Address [j] is not an element of the container of size [n] at address [a]. *)
Definition Outside (j a : Z) (n : nat) : Prop := j < a \/ a + Z.of_nat n <= j.

(** Two containers of sizes [n] and [m] share no element. *)
Definition Apart (a : Z) (n : nat) (b : Z) (m : nat) : Prop :=
  forall i j, 0 <= i < Z.of_nat n -> 0 <= j < Z.of_nat m -> a + i <> b + j.

(** Everything but the container of size [n] at address [a] is the same in [mem] and [mem']. *)
Definition Frame {A} (mem mem' : list A) (a : Z) (n : nat) : Prop :=
  length mem' = length mem /\ forall j, Outside j a n -> zget mem' j = zget mem j.

(** The results of the successive calls of a stateful function on a sequence of arguments, and the final state. *)
Fixpoint calls {S X A : Type} (f : S -> X -> res (S * A)) (st : S) (xs : list X) : res (S * list A) :=
  match xs with
  | [] => Ok (st, [])
  | x :: xs' => r <- f st x ;; t <- calls f (fst r) xs' ;; Ok (fst t, snd r :: snd t)
  end.

(** The addresses of the [i]-th elements of the containers at addresses [args]. *)
Definition shifted (args : list Z) (i : Z) : list Z := map (fun b => b + i) args.
