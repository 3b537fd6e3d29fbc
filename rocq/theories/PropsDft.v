(** C49: transform plans. *)
From Coq Require Import QArith Qcanon.
From Verif Require Import Res Spec DftModel DftSpec DftProofs FourierSpec FourierProofs.
Open Scope Z_scope.

(** C49. The shapes of the buffers: along the first axis, the complex data of real transforms have length n / 2 + 1. *)
Theorem C49_shapes : forall t n rest, 0 <= n ->
  exists si so, dftInShape t (n :: rest) = Ok si /\ dftOutShape t (n :: rest) = Ok so /\ BufferShapes t n rest si so.
Proof. exact dft_shapes. Qed.
Print Assumptions C49_shapes.
Example C49_shapes_met : dftOutShape RealDft [5; 4] = Ok [3; 4] /\ dftOutShape RealDft [4; 4] = Ok [3; 4] /\ dftInShape InverseRealDft [5; 4] = Ok [3; 4].
Proof. repeat split. Qed.

(** As many elements as FFTW reads and writes, as long as the lengths are of type int. *)
Theorem C49_extents_partial : forall t shape, IntShape shape ->
  exists si so dims, dftInShape t shape = Ok si /\ dftOutShape t shape = Ok so /\ planDims t shape = Ok dims /\
    fftwIn t dims = prod si /\ fftwOut t dims = prod so /\ prod dims = prod shape /\ dims = rev shape.
Proof. exact fftw_extents. Qed.
Print Assumptions C49_extents_partial.
Example C49_extents_met : IntShape [5; 4] /\ planDims RealDft [5; 4] = Ok [4; 5] /\ fftwOut RealDft [4; 5] = 12.
Proof. split; [split; [discriminate|repeat constructor]|split; reflexivity]. Qed.

(** Longer axes are truncated silently. *)
Theorem C49_extents_refuted : exists shape, Forall (fun s => 0 < s) shape /\ planDims ComplexDft shape = Ok [2; -2147483648].
Proof. exact int_overflow. Qed.
Print Assumptions C49_extents_refuted.

(** Whatever the history of plans, each one has buffers of the expected sizes. *)
Theorem C49_allocated_partial : forall V (fft : transform -> list Z -> list V -> list V) scale ps h,
  Sized fft -> History fft scale ps h -> forall p, In p ps -> IntShape (pshape p) /\ Allocated p h.
Proof. exact @history_allocated. Qed.
Print Assumptions C49_allocated_partial.
Example C49_allocated_met : Sized fftFill /\ History fftFill scaleQc [exampleInverse; examplePlan] [[Q2Qc 3; Q2Qc 5]; [0%Qc; 0%Qc]] /\ In examplePlan [exampleInverse; examplePlan].
Proof. split; [exact sized_fill|]. split; [apply example_history|right; left; reflexivity]. Qed.

(** New plans have their own buffers. *)
Theorem C49_new_partial : forall V (fft : transform -> list Z -> list V -> list V) scale ps h t shape si so gi go,
  Sized fft -> History fft scale ps h -> IntShape shape -> dftInShape t shape = Ok si -> dftOutShape t shape = Ok so ->
  Z.of_nat (length gi) = prod si -> Z.of_nat (length go) = prod so ->
  exists q h', planNew t shape None None gi go h = Ok (q, h') /\ ptransform q = t /\ pshape q = shape /\ pin q <> pout q /\
    planInShape q = Ok si /\ planOutShape q = Ok so /\ 
    (forall r, In r ps -> pin q <> pin r /\ pin q <> pout r /\ pout q <> pin r /\ pout q <> pout r) /\
    (forall b, (b < length h)%nat -> content h' b = content h b).
Proof. exact @history_new. Qed.
Print Assumptions C49_new_partial.
Example C49_new_met : History fftFill scaleQc [exampleInverse; examplePlan] [[Q2Qc 3; Q2Qc 5]; [0%Qc; 0%Qc]] /\ IntShape [3; 1] /\ dftInShape RealDft [3; 1] = Ok [3; 1] /\ dftOutShape RealDft [3; 1] = Ok [2; 1].
Proof. split; [apply example_history|]. split; [split; [discriminate|repeat constructor]|split; reflexivity]. Qed.

(** The inverse plan has the same logical shape, swapped buffers and shapes; the inverse of the inverse is the plan. *)
Theorem C49_inverse_partial : forall V (fft : transform -> list Z -> list V -> list V) scale ps h p gi go,
  Sized fft -> History fft scale ps h -> In p ps -> SameLength gi (content h (pout p)) -> SameLength go (content h (pin p)) ->
  exists q h', planInverse p gi go h = Ok (q, h') /\ 
    ptransform q = inverseTransform (ptransform p) /\ pshape q = pshape p /\ pin q = pout p /\ pout q = pin p /\ pdims q = pdims p /\
    planInShape q = planOutShape p /\ planOutShape q = planInShape p /\ normalizationFactor q = normalizationFactor p /\
    (forall b, b <> pin p -> b <> pout p -> content h' b = content h b) /\
    forall gi' go', SameLength gi' (content h' (pout q)) -> SameLength go' (content h' (pin q)) -> exists h'', planInverse q gi' go' h' = Ok (p, h'').
Proof. exact @history_inverse. Qed.
Print Assumptions C49_inverse_partial.
Example C49_inverse_met : exists h, planInverse examplePlan [0%Qc; 0%Qc] [0%Qc; 0%Qc] [[Q2Qc 3; Q2Qc 5]; [0%Qc; 0%Qc]] = Ok (exampleInverse, h) /\ History fftFill scaleQc [exampleInverse; examplePlan] [[Q2Qc 3; Q2Qc 5]; [0%Qc; 0%Qc]].
Proof. eexists. split; [reflexivity|apply example_history]. Qed.

(** Composing: the output of the plan is the input of the next one, the output of which is new. *)
Theorem C49_compose_partial : forall V (fft : transform -> list Z -> list V -> list V) scale ps h p t shape si so gi go,
  Sized fft -> History fft scale ps h -> In p ps -> IntShape shape -> dftInShape t shape = Ok si -> dftOutShape t shape = Ok so ->
  prod si = Z.of_nat (length (content h (pout p))) -> SameLength gi (content h (pout p)) -> Z.of_nat (length go) = prod so ->
  exists q h', planCompose p t shape gi go h = Ok (q, h') /\ ptransform q = t /\ pshape q = shape /\ pin q = pout p /\
    (forall r, In r ps -> pout q <> pin r /\ pout q <> pout r) /\
    (forall b, (b < length h)%nat -> b <> pout p -> content h' b = content h b).
Proof. exact @history_compose. Qed.
Print Assumptions C49_compose_partial.
Example C49_compose_met : exists h, planCompose examplePlan ComplexDft [2] [0%Qc; 0%Qc] [0%Qc; 0%Qc] [[Q2Qc 3; Q2Qc 5]; [0%Qc; 0%Qc]] = Ok (mkPlan ComplexDft [2] 1 2 [2], h).
Proof. eexists. reflexivity. Qed.

(** Composing with larger shapes is undefined. *)
Theorem C49_compose_refuted : forall V p t shape si (gi go : list V) h, IntShape shape -> Allocated p h -> dftInShape t shape = Ok si ->
  Z.of_nat (length (content h (pout p))) < prod si -> planCompose p t shape gi go h = UB.
Proof. exact @plan_compose_small. Qed.
Print Assumptions C49_compose_refuted.
Example C49_compose_refuted_met : planCompose examplePlan ComplexDft [3] [0%Qc; 0%Qc] [0%Qc; 0%Qc; 0%Qc] [[Q2Qc 3; Q2Qc 5]; [0%Qc; 0%Qc]] = UB.
Proof. reflexivity. Qed.

(** A transform reads the input, writes the output, and changes nothing but its two buffers. *)
Theorem C49_transform_partial : forall V (fft : transform -> list Z -> list V -> list V) scale ps h p g,
  Sized fft -> History fft scale ps h -> In p ps ->
  content (planTransform fft p g h) (pout p) = fft (ptransform p) (pdims p) (content h (pin p)) /\
  forall b, b <> pin p -> b <> pout p -> content (planTransform fft p g h) b = content h b.
Proof. exact @history_transform. Qed.
Print Assumptions C49_transform_partial.
Example C49_transform_met : content (planTransform fftFill examplePlan [0%Qc; 0%Qc] [[Q2Qc 3; Q2Qc 5]; [0%Qc; 0%Qc]]) 1 = [Q2Qc 8; Q2Qc (-2)].
Proof. vm_compute. f_equal. Qed.

(** Normalizing after direct and inverse transforms gives the input back. *)
Theorem C49_round_trip_partial : forall V (fft : transform -> list Z -> list V -> list V) scale (accepted : V -> Prop) ps h p q x g g',
  Sized fft -> History fft scale ps h -> In p ps -> In q ps -> Direct (ptransform p) ->
  ptransform q = inverseTransform (ptransform p) -> pshape q = pshape p -> pin q = pout p -> pout q = pin p ->
  content h (pin p) = x ->
  Unnormalized fft scale accepted (ptransform p) (pdims p) -> Forall accepted x -> (forall n v, n <> 0 -> scale (1 / inject_Z n)%Q (scale (inject_Z n) v) = v) ->
  exists h', planNormalize scale q (planTransform fft q g' (planTransform fft p g h)) = Ok h' /\
    content h' (pin p) = x /\ forall b, b <> pin p -> b <> pout p -> content h' b = content h b.
Proof. exact @history_round_trip. Qed.
Print Assumptions C49_round_trip_partial.
Example C49_round_trip_met : Sized fftFill /\ Unnormalized fftFill scaleQc (fun _ => True) RealDft [2] /\ (forall n v, n <> 0 -> scaleQc (1 / inject_Z n)%Q (scaleQc (inject_Z n) v) = v) /\
  History fftFill scaleQc [exampleInverse; examplePlan] [[Q2Qc 3; Q2Qc 5]; [0%Qc; 0%Qc]].
Proof. split; [exact sized_fill|]. split; [apply fill_unnormalized; left; reflexivity|]. split; [exact scaleQc_inverse|apply example_history]. Qed.

(** The functions realDft and inverseRealDft, complexDft and inverseComplexDft are inverse of each other. *)
Theorem C49_functions_partial : forall V (fft : transform -> list Z -> list V -> list V) scale (accepted : V -> Prop) t shape si so values gi go g gi' go' g',
  IntShape shape -> Direct t -> dftInShape t shape = Ok si -> dftOutShape t shape = Ok so ->
  Z.of_nat (length gi) = prod si -> Z.of_nat (length go) = prod so -> Z.of_nat (length values) = prod si ->
  Z.of_nat (length gi') = prod so -> Z.of_nat (length go') = prod si ->
  Unnormalized fft scale accepted t (rev shape) -> Forall accepted values -> (forall n v, n <> 0 -> scale (1 / inject_Z n)%Q (scale (inject_Z n) v) = v) ->
  exists coefficients, dftFunction fft scale t false shape values gi go g = Ok coefficients /\
    Z.of_nat (length coefficients) = prod so /\
    dftFunction fft scale (inverseTransform t) true shape coefficients gi' go' g' = Ok values.
Proof. exact @functions_round_trip. Qed.
Print Assumptions C49_functions_partial.
Example C49_functions_met : IntShape [5; 6] /\ Direct RealDft /\ Unnormalized exactFft scaleC (Accepted RealDft) RealDft (rev [5; 6]).
Proof.
  split; [split; [discriminate|repeat constructor]|]. split; [left; reflexivity|]. apply (fftw_unnormalized exactFft exact_fftw); [left; reflexivity|discriminate|repeat constructor].
Qed.
