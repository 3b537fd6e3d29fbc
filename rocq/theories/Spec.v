(** Small specifications, independent of the model: sets of positions, row-major rank. *)
From Verif Require Import Res.

(** [p] lies between [f] and [b], bounds included, on every axis; the three have the same dimension. *)
Inductive Between : list Z -> list Z -> list Z -> Prop :=
| Between_nil : Between [] [] []
| Between_cons : forall x y z f b p,
    x <= z <= y -> Between f b p -> Between (x :: f) (y :: b) (z :: p).

(** [p] is a position of the domain of a raster of shape [s]: 0 <= p[i] < s[i] on every axis. *)
Inductive InDomain : list Z -> list Z -> Prop :=
| InDomain_nil : InDomain [] []
| InDomain_cons : forall s p shape pos,
    0 <= p < s -> InDomain shape pos -> InDomain (s :: shape) (p :: pos).

(** All lengths are positive. *)
Definition Positive (shape : list Z) : Prop := Forall (fun s => 0 < s) shape.

(** The product of a list of lengths. *)
Definition prod (l : list Z) : Z := fold_right Z.mul 1 l.

(** Row-major rank: the sum over the axes of the coordinate times the product of the previous lengths. *)
Fixpoint rankFrom (stride : Z) (shape pos : list Z) : Z :=
  match shape, pos with
  | s :: shape', p :: pos' => p * stride + rankFrom (stride * s) shape' pos'
  | _, _ => 0
  end.
Definition rank (shape pos : list Z) : Z := rankFrom 1 shape pos.

(** The positions of a box, in memory order: axis 0 is the innermost loop. *)
Fixpoint positions (f b : list Z) : list (list Z) :=
  match f, b with
  | [], [] => [[]]
  | x :: f', y :: b' => flat_map (fun q => map (fun z => z :: q) (zrange x y)) (positions f' b')
  | _, _ => []
  end.

(** Memory order on positions: compare the last axis first. *)
Fixpoint lexLt (p q : list Z) : Prop :=
  match p, q with
  | x :: p', y :: q' => lexLt p' q' \/ (p' = q' /\ x < y)
  | _, _ => False
  end.
