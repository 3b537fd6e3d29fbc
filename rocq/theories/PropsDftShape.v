(** C121: transforms of any shape. *)
From Coq Require Import QArith.
From Verif Require Import Res Spec DftModel DftSpec DftShapeModel DftShapeSpec DftShapeProofs.
Open Scope Z_scope.

(** C121. The transform of all the values is performed if the lengths are of type int and FFTW has a plan of it. *)
Theorem C121_short_partial : forall V planner (fft : transform -> list Z -> list V -> list V) t shape inp out,
  IntShape shape -> planner t (rev shape) = true -> Buffers t shape inp out -> runTransform planner fft t shape inp out = Ok (fft t (rev shape) inp).
Proof. exact @dft_short. Qed.
Print Assumptions C121_short_partial.
Example C121_short_met : IntShape [3; 2] /\ plannerAll RealDft (rev [3; 2]) = true /\ Buffers RealDft [3; 2] [1; 2; 3; 4; 5; 6] [0; 0; 0; 0] /\
  runTransform plannerAll fftZero RealDft [3; 2] [1; 2; 3; 4; 5; 6] [0; 0; 0; 0] = Ok [1; 1; 1; 1].
Proof. split; [split; [discriminate|repeat constructor]|]. split; [reflexivity|]. split; [exists [3; 2], [2; 2]; repeat split|reflexivity]. Qed.

(** These are the only plans which FFTW makes of the requested shape. *)
Theorem C121_requested : forall planner t shape, shape <> [] -> Forall (fun s => 0 <= s) shape -> PositiveOnly planner ->
  (fftwPlan planner t shape = Ok (Some (rev shape)) <-> planner t (rev shape) = true /\ Forall (fun s => s < 2 ^ 31) shape).
Proof. exact dft_requested. Qed.
Print Assumptions C121_requested.
Example C121_requested_met : PositiveOnly plannerAll /\ Forall (fun s => 0 <= s) [3; 2] /\ fftwPlan plannerAll ComplexDft [3; 2] = Ok (Some [2; 3]) /\ fftwPlan plannerAll ComplexDft [2 ^ 31] = Ok None.
Proof. split; [exact plannerAll_positive|]. split; [repeat constructor; discriminate|split; vm_compute; reflexivity]. Qed.

(** In general: the lengths which FFTW gets are those of the shape modulo 2^32. If FFTW has a plan of these, they are not greater than those of the shape, and
    the transform is that of the first elements of the input, to the first elements of the output, without any access out of the buffers. It is otherwise
    undefined. *)
Theorem C121_any : forall V planner (fft : transform -> list Z -> list V -> list V) t shape inp out,
  PositiveOnly planner -> shape <> [] -> Forall (fun s => 0 <= s) shape -> Buffers t shape inp out ->
  exists ls, Forall2 Narrowed shape ls /\
    ((planner t (rev ls) = true /\ Forall2 (fun d s => 0 < d <= s) ls shape /\
      inSize t ls <= Z.of_nat (length inp) /\ outSize t ls <= Z.of_nat (length out) /\
      runTransform planner fft t shape inp out = Ok (fft t (rev ls) (firstn (Z.to_nat (inSize t ls)) inp) ++ skipn (Z.to_nat (outSize t ls)) out)) \/
     (planner t (rev ls) = false /\ runTransform planner fft t shape inp out = UB)).
Proof. exact @dft_any. Qed.
Print Assumptions C121_any.
Example C121_any_met : PositiveOnly plannerAll /\ Buffers InverseRealDft [3; 2] [1; 2; 3; 4] [0; 0; 0; 0; 0; 0] /\ Narrowed (2 ^ 32 + 2) 2 /\
  runTransform plannerAll fftZero InverseRealDft [3; 2] [1; 2; 3; 4] [0; 0; 0; 0; 0; 0] = Ok [1; 1; 1; 1; 1; 1].
Proof. split; [exact plannerAll_positive|]. split; [exists [2; 2], [3; 2]; repeat split|]. split; [split; [lia|exists 1; lia]|reflexivity]. Qed.

(** Whenever a transform with a length of at least 2^31 is defined, some values of the input are ignored and some values of the output are not set. *)
Theorem C121_long_refuted : forall V planner (fft : transform -> list Z -> list V -> list V) t shape inp out l,
  PositiveOnly planner -> Sized fft -> shape <> [] -> Forall (fun s => 0 <= s) shape -> Exists (fun s => 2 ^ 31 <= s) shape ->
  Buffers t shape inp out -> runTransform planner fft t shape inp out = Ok l ->
  exists i o, (i < length inp)%nat /\ (o < length out)%nat /\ length l = length out /\ skipn o l = skipn o out /\
    forall inp', length inp' = length inp -> firstn i inp' = firstn i inp -> runTransform planner fft t shape inp' out = Ok l.
Proof. exact @dft_long. Qed.
Print Assumptions C121_long_refuted.
Example C121_long_refuted_met : PositiveOnly plannerAll /\ Sized fftZero /\ Exists (fun s => 2 ^ 31 <= s) [2 ^ 32 + 2] /\
  exists inp out l, Buffers ComplexDft [2 ^ 32 + 2] inp out /\ runTransform plannerAll fftZero ComplexDft [2 ^ 32 + 2] inp out = Ok l.
Proof. split; [exact plannerAll_positive|]. split; [exact fftZero_sized|]. split; [constructor; lia|exact long_defined]. Qed.

(** There are such plans: nothing tells them from others. *)
Theorem C121_truncated_refuted : exists s, 0 < s /\ forall t, fftwPlan plannerAll t [s] = Ok (Some [2]).
Proof. exact dft_truncated. Qed.
Print Assumptions C121_truncated_refuted.

(** Null lengths, and lengths from 2^31 to 2^32: there is no FFTW plan, which is not tested, and the transform is undefined. *)
Theorem C121_null_refuted : forall V planner (fft : transform -> list Z -> list V -> list V) t s inp out,
  PositiveOnly planner -> s = 0 \/ 2 ^ 31 <= s <= 2 ^ 32 -> runTransform planner fft t [s] inp out = UB.
Proof. exact dft_null. Qed.
Print Assumptions C121_null_refuted.
Example C121_null_refuted_met : PositiveOnly plannerAll /\ Buffers ComplexDft [0] ([] : list Z) [].
Proof. split; [exact plannerAll_positive|]. exists [0], [0]. repeat split. Qed.
