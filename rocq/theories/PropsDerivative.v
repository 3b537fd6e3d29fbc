(** C83: derivation in Fourier domain. *)
From Coq Require Import Reals Lra.
From Verif Require Import Res Spec DftModel DftSpec FourierSpec FourierProofs DerivativeModel DerivativeSpec DerivativeProofs.
Open Scope Z_scope.

(** C83. The documented derivation with realDft and inverseRealDft: the derivative of trigonometric polynomials of degree less than n / 2. *)
Theorem C83_functions : forall fft, IsFftw fft -> forall n M a b values gi go g gi' go' g', IntShape [n] -> 2 * M < n -> Samples n (trig M a b) values ->
  Z.of_nat (length gi) = n -> Z.of_nat (length go) = n / 2 + 1 -> Z.of_nat (length gi') = n / 2 + 1 -> Z.of_nat (length go') = n ->
  exists out f', conciseDerivative fft n values gi go g gi' go' g' = Ok out /\ Samples n f' out /\ forall x, derivable_pt_lim (trig M a b) x (f' x).
Proof. exact concise_derivative. Qed.
Print Assumptions C83_functions.
Example C83_functions_met : IsFftw exactFft /\ IntShape [360] /\ 2 * 1 < 360 /\ Samples 360 (trig 1 (only 0 0) (only 1 1)) (sampled 360 (trig 1 (only 0 0) (only 1 1))) /\
  forall x, trig 1 (only 0 0) (only 1 1) x = sin x.
Proof.
  split; [exact exact_fftw|]. split; [split; [discriminate|repeat constructor]|]. split; [lia|]. split; [apply sampled_ok; lia|].
  intros x. rewrite trig_only by lia. cbn [Z.leb Z.compare Pos.compare Pos.compare_cont]. rewrite !Rmult_1_l. reflexivity.
Qed.

(** With plans: same result in the input of the direct plan, and nothing else changes in memory. *)
Theorem C83_plans : forall fft, IsFftw fft -> forall n M a b values gi go gi' go' g g' h, IntShape [n] -> 2 * M < n -> Samples n (trig M a b) values ->
  Z.of_nat (length gi) = n -> Z.of_nat (length go) = n / 2 + 1 -> Z.of_nat (length gi') = n / 2 + 1 -> Z.of_nat (length go') = n ->
  exists out h' f', verboseDerivative fft n values gi go gi' go' g g' h = Ok (out, h') /\ Samples n f' out /\ (forall x, derivable_pt_lim (trig M a b) x (f' x)) /\
    forall k, (k < length h)%nat -> content h' k = content h k.
Proof. exact verbose_derivative. Qed.
Print Assumptions C83_plans.
Example C83_plans_met : IsFftw exactFft /\ IntShape [5] /\ Samples 5 (trig 2 (only 0 0) (only 2 3)) (sampled 5 (trig 2 (only 0 0) (only 2 3))).
Proof. split; [exact exact_fftw|]. split; [split; [discriminate|repeat constructor]|]. apply sampled_ok. lia. Qed.

(** The bound on the degree is necessary for all lengths, even or odd. *)
Theorem C83_bound : forall fft n M gi go g gi' go' g', IsFftw fft -> IntShape [n] -> n <= 2 * M ->
  Z.of_nat (length gi) = n -> Z.of_nat (length go) = n / 2 + 1 -> Z.of_nat (length gi') = n / 2 + 1 -> Z.of_nat (length go') = n ->
  exists a b values out, Samples n (trig M a b) values /\ conciseDerivative fft n values gi go g gi' go' g' = Ok out /\
    forall f', Samples n f' out -> ~ (forall x, derivable_pt_lim (trig M a b) x (f' x)).
Proof. exact derivative_aliasing. Qed.
Print Assumptions C83_bound.
Example C83_bound_met : IsFftw exactFft /\ IntShape [7] /\ 7 <= 2 * 4.
Proof. split; [exact exact_fftw|]. split; [split; [discriminate|repeat constructor]|]. lia. Qed.
