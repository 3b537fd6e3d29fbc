(** What is expected of the quantiles and median absolute deviation of doubles. *)
From Coq Require Import Reals.
From Verif Require Import Res DistSpec FloatModel FloatSpec.
Open Scope R_scope.

(** Comparison of real numbers. *)
Definition rltb (x y : R) : bool := if Rlt_dec x y then true else false.

(** [v] is the [k]-th smallest of [xs], from 0. *)
Definition OrderStat (xs : list R) (k : Z) (v : R) : Prop := exists s, Sorting rltb xs s /\ zget s k = Ok v.

(** The exact median: the middle value, or the mean of both middle values. *)
Definition MedianR (xs : list R) (m : R) : Prop :=
  exists x y, OrderStat xs ((Z.of_nat (length xs) - 1) / 2) x /\ OrderStat xs (Z.of_nat (length xs) / 2) y /\ m = (x + y) / 2.

(** The exact median absolute deviation. *)
Definition MadR (xs : list R) (v : R) : Prop := exists m, MedianR xs m /\ MedianR (map (fun x => Rabs (x - m)) xs) v.

(** The same real number: both zeros are the same. *)
Definition SameReal (x y : double) : Prop := Finite x /\ Finite y /\ real x = real y.
