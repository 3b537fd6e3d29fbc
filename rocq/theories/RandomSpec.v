(** Specification of the noises. *)
From Coq Require Import QArith.
From Verif Require Import Res RandomModel.
Open Scope Z_scope.

(** The first state of std::minstd_rand for some seed: the seed modulo 2^31 - 1, and 1 instead of 0 (C++ standard, rand.eng.lcong). *)
Definition firstState (seed : Z) : Z := if seed mod 2147483647 =? 0 then 1 else seed mod 2147483647.

(** The seed for the noise of the value at index [i]: the (i + 1)-th number which std::minstd_rand gives (rand.predef). *)
Definition seedAt (seed : Z) (i : nat) : Z := firstState seed * 48271 ^ (Z.of_nat i + 1) mod 2147483647.

Fixpoint sumQ (l : list Q) : Q := match l with [] => 0 | x :: l' => x + sumQ l' end%Q.

(** The sum of the probabilities of the impulses. *)
Definition sumOfProbabilities (m : list (Z * Q)) : Q := sumQ (map snd m).

(** The tolerance under which the sum of the probabilities is considered to be one. *)
Definition tolerance (m : list (Z * Q)) : Q := (inject_Z (Z.of_nat (length m)) * (1 # (2 ^ 52)))%Q.
