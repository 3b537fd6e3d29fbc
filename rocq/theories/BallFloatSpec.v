(** Balls of floating-point radius: what is required of std::pow, and positions inside. *)
From Coq Require Import Reals.
From Verif Require Import Res FloatModel FloatSpec SamplingSpec.
Open Scope R_scope.

(** [x] is one of the doubles next to [y], or [y] itself if it is a double: no double is strictly between them. *)
Definition Faithful (y : R) (x : double) : Prop :=
  Finite x /\ (forall z, Finite z -> real z <= y -> real z <= real x) /\ (forall z, Finite z -> y <= real z -> real x <= real z).

(** [pow] computes P-th powers to the last digit. *)
Definition PowerOf (P : Z) (pow : double -> double) : Prop :=
  forall x, Finite x -> 0 <= real x -> real x ^ Z.to_nat P <= maxDouble -> Faithful (real x ^ Z.to_nat P) (pow x).

(** [p] is at distance at most [r] from [c] for the P-norm. *)
Definition WithinRadius (P : Z) (r : R) (c p : list Z) : Prop :=
  length p = length c /\ IZR (distancePower P p c) <= r ^ Z.to_nat P.

(** Ranges where the integers are exact: coordinates, and distances inside the bounding box. *)
Definition Representable (P : Z) (r : R) (c : list Z) : Prop :=
  Forall (fun x => (Z.abs x <= 2 ^ 52)%Z) c /\ r <= IZR (2 ^ 52) /\ INR (length c) * r ^ Z.to_nat P <= IZR (2 ^ 53).
