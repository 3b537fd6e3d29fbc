(** What is expected of the noises of doubles. *)
From Coq Require Import Reals.
From Flocq Require Import Core IEEE754.BinarySingleNaN.
From Verif Require Import Res FloatModel FloatSpec.
Open Scope R_scope.

Fixpoint sumR (l : list R) : R := match l with [] => 0 | x :: l' => x + sumR l' end.

(** The probability of index [i] in a discrete distribution of given weights: its share of the sum of the weights. *)
Definition probability (weights : list double) (i : nat) : R :=
  match nth_error weights i with Some w => real w / sumR (map real weights) | None => 0 end.

(** The sum of the probabilities which are given to the noise. *)
Definition total {V} (m : list (V * double)) : R := sumR (map (fun vp => real (snd vp)) m).

(** A number which may be given as a probability, or more generally as a weight: finite, not negative, not huge. *)
Definition Weight (p : double) : Prop := Within 0 (bpow radix2 900) p.
Definition Weights {V} (m : list (V * double)) : Prop := Forall (fun vp => Weight (snd vp)) m.

(** The number of impulses, as a real number. *)
Definition count {V} (m : list (V * double)) : R := INR (length m).
Definition Few {V} (m : list (V * double)) : Prop := (Z.of_nat (length m) < 2 ^ 50)%Z.
