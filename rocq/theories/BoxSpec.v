(** A box as a set of positions. *)
From Verif Require Import Res BoxModel Spec.

(** [p] is a position of the box: front <= p <= back on every axis. *)
Definition InBox (b : box) (p : list Z) : Prop := Between (bfront b) (bback b) p.

(** The box has at least one position. *)
Definition Nonempty (b : box) : Prop := exists p, InBox b p.

(** Two boxes without common position. *)
Definition Disjoint (a b : box) : Prop := forall p, InBox a p -> InBox b p -> False.
