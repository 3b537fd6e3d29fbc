(** Specification of order statistics, independent of the algorithms. *)
From Coq Require Import Permutation.
From Verif Require Import Res TypesModel.
Open Scope Z_scope.

(** [s] is a sorted arrangement of the data [l]. *)
Definition Sorting {A} (lt : A -> A -> bool) (l s : list A) : Prop :=
  Permutation l s /\ forall i j x y, 0 <= i -> i <= j -> zget s i = Ok x -> zget s j = Ok y -> lt y x = false.

(** Neither value is less than the other one. *)
Definition Equivalent {A} (lt : A -> A -> bool) (x y : A) : Prop := lt x y = false /\ lt y x = false.

(** The number of values which satisfy [p]. *)
Definition count {A} (p : A -> bool) (l : list A) : Z := Z.of_nat (length (filter p l)).

(** The value at the (possibly fractional) rank [r] of sorted data [s], by linear interpolation. *)
Definition ValueAtRank (s : list Q) (r v : Q) : Prop :=
  exists k x y, (inject_Z k <= r)%Q /\ (r <= inject_Z (k + 1))%Q /\ zget s k = Ok x /\
    (zget s (k + 1) = Ok y \/ (r == inject_Z k)%Q) /\ (v == x + (r - inject_Z k) * (y - x))%Q.

(** [v] is the middle value of the sorted data [s], or the mean of both middle values. *)
Definition Median (s : list Q) (v : Q) : Prop :=
  exists x y, zget s ((Z.of_nat (length s) - 1) / 2) = Ok x /\ zget s (Z.of_nat (length s) / 2) = Ok y /\ (v == (x + y) / 2)%Q.

(** The rank of quantile [q]: q * (size - 1). *)
Definition rankOf (l : list Q) (q : Q) : Q := (q * inject_Z (Z.of_nat (length l) - 1))%Q.
