(** Specification of the median filter. *)
From Verif Require Import Res TypesModel Spec DistSpec.

(** The neighbor at offset [q] of position [p]. *)
Definition neighbor (p q : list Z) : list Z := map (fun xy => fst xy + snd xy) (combine p q).

(** [v] is the median of the values of the image in the window from [f] to [b] moved to [p]. *)
Definition WindowMedian (f b : list Z) (X : list Z -> Q) (p : list Z) (v : Q) : Prop :=
  exists s, Sorting qltb (map (fun q => X (neighbor p q)) (positions f b)) s /\ Median s v.
