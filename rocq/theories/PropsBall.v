(** Property C30 for balls of floating-point radius, and any std::pow which is right to the last digit. *)
From Coq Require Import Reals Sorted.
From Verif Require Import Res VecModel BoxModel BallModel FloatModel BallFloatModel Spec SamplingSpec FloatSpec BallFloatSpec BallFloatProofs.
Open Scope R_scope.

(** No position is missed, and those of the iteration are within the radius up to a relative error of 2^-52.
    Missing: coordinates and distances which are not exact doubles. *)
Theorem C30_double_partial : forall P pow r c, (0 < P)%Z -> PowerOf P pow -> c <> [] -> Finite r -> 0 <= real r ->
  Representable P (real r) c ->
  exists L, NoDup L /\ StronglySorted lexLt L /\
    (exists enough, forall fuel, (enough <= fuel)%nat -> dballForeach pow fuel (mkDball r c) = Some (Ok L)) /\
    (forall p, WithinRadius P (real r) c p -> In p L) /\
    (forall p, In p L -> length p = length c /\ IZR (distancePower P p c) * (1 - / IZR (2 ^ 52)) <= real r ^ Z.to_nat P).
Proof. exact dball_iteration. Qed.
Print Assumptions C30_double_partial.

(** The iteration is exact if the power of the radius is a double: for the norm L1, or integral radii. *)
Theorem C30_exact_power : forall P pow r c z, (0 < P)%Z -> PowerOf P pow -> c <> [] -> Finite r -> 0 <= real r ->
  Representable P (real r) c -> Finite z -> real z = real r ^ Z.to_nat P ->
  exists L, NoDup L /\ StronglySorted lexLt L /\ (forall p, In p L <-> WithinRadius P (real r) c p) /\
    exists enough, forall fuel, (enough <= fuel)%nat -> dballForeach pow fuel (mkDball r c) = Some (Ok L).
Proof. exact dball_exact. Qed.
Print Assumptions C30_exact_power.

Example C30_double_met : PowerOf 1 (fun x => x) /\ PowerOf 2 (fun x => dmul x x) /\
  dballForeach (fun x => x) 10 (mkDball (dlit 3 (-1)) [5; -1]%Z) = Some (Ok [[5; -2]; [4; -1]; [5; -1]; [6; -1]; [5; 0]]%Z) /\
  dballForeach (fun x => dmul x x) 10 (mkDball (dlit 5 (-2)) [5; -1]%Z) = Some (Ok [[5; -2]; [4; -1]; [5; -1]; [6; -1]; [5; 0]]%Z).
Proof. split; [exact PowerOf_1|]. split; [exact PowerOf_2|]. split; vm_compute; reflexivity. Qed.

(** Otherwise, a position may be visited although it is farther than the radius. *)
Theorem C30_double_refuted : exists pow r c L p, PowerOf 2 pow /\ Finite r /\ 0 <= real r /\ Representable 2 (real r) c /\
  dballForeach pow 200 (mkDball r c) = Some (Ok L) /\ In p L /\ ~ WithinRadius 2 (real r) c p.
Proof. exact dball_refuted. Qed.
Print Assumptions C30_double_refuted.
