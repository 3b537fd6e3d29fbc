(** Specification vocabulary for containers: orders, texts. *)
From Coq Require Import Ascii String.
From Verif Require Import Res.
Open Scope list_scope.

(** [lt] is a strict weak ordering, as required by the standard algorithms (and as < is on numbers but NaN). *)
Record StrictWeakOrder {A : Type} (lt : A -> A -> bool) : Prop := {
  swo_irrefl : forall x, lt x x = false;
  swo_trans : forall x y z, lt x y = true -> lt y z = true -> lt x z = true;
  swo_neg_trans : forall x y z, lt x y = false -> lt y z = false -> lt x z = false
}.

(** The texts separated by [sep]. *)
Fixpoint join (sep : list ascii) (texts : list (list ascii)) : list ascii :=
  match texts with
  | [] => []
  | [t] => t
  | t :: texts' => t ++ sep ++ join sep texts'
  end.
