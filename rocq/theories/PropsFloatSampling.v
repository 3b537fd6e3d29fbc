(** C114: samplings of doubles. As in PropsFloat.v, these rely on the axioms of the real numbers of the standard library. *)
From Coq Require Import Reals Lra Sorted.
From Flocq Require Import Core IEEE754.BinarySingleNaN.
From Verif Require Import Res SamplingModel FloatModel FloatSpec FloatSumSpec FloatSamplingModel FloatSamplingSpec FloatProofs FloatSamplingProofs.
Open Scope R_scope.

(** The sampling gives as many values as its size; value i is front + i step up to i roundings, the first one is front, and they never decrease.
    Missing: more than 2^52 values, or values which overflow. *)
Theorem C114_elements_partial : forall s n, Finite (afront s) -> Finite (astep s) -> axisSize s = Ok n -> (n <= 2 ^ 52)%Z ->
  Rabs (real (afront s)) + IZR n * Rabs (real (astep s)) <= bpow radix2 1022 ->
  exists L, Sampled s L /\ Z.of_nat (length L) = n /\
    (forall i x, nth_error L i = Some x -> Finite x /\
      Rabs (real x - (real (afront s) + IZR (Z.of_nat i) * real (astep s))) <=
        roundings (Z.of_nat i) * (Rabs (real (afront s)) + IZR (Z.of_nat i) * Rabs (real (astep s)))) /\
    (0 <= real (astep s) -> Sorted (fun x y => real x <= real y) L).
Proof. exact elements. Qed.
Print Assumptions C114_elements_partial.
Example C114_elements_met : let s := mkAxis (dofZ 0) (dofZ 1) tenth in
  Finite (afront s) /\ Finite (astep s) /\ axisSize s = Ok 11%Z.
Proof. vm_compute. repeat split; reflexivity. Qed.

(** The size is the number of values from front to back, up to one. Missing: more than 2^50 values, or bounds which overflow. *)
Theorem C114_count_partial : forall s, Finite (afront s) -> Finite (aback s) -> Finite (astep s) -> 0 < real (astep s) ->
  real (afront s) <= real (aback s) ->
  Rabs (real (afront s)) <= bpow radix2 1021 -> Rabs (real (aback s)) <= bpow radix2 1021 -> real (astep s) <= bpow radix2 1021 ->
  (exactCount s <= 2 ^ 50)%Z -> exists n, axisSize s = Ok n /\ (Z.abs (n - exactCount s) <= 1)%Z.
Proof. exact count_error. Qed.
Print Assumptions C114_count_partial.
Example C114_count_met : let s := mkAxis (dofZ 0) (dofZ 1) tenth in exactCount s = 10%Z /\ axisSize s = Ok 11%Z.
Proof. exact count_witness. Qed.

(** There is no value where back is before front by one step or more. *)
Theorem C114_empty_partial : forall s, Finite (afront s) -> Finite (aback s) -> Finite (astep s) -> 0 < real (astep s) ->
  real (aback s) <= real (afront s) - real (astep s) ->
  Rabs (real (afront s)) <= bpow radix2 1021 -> Rabs (real (aback s)) <= bpow radix2 1021 -> axisSize s = Ok 0%Z.
Proof. exact empty. Qed.
Print Assumptions C114_empty_partial.
Example C114_empty_met : let s := mkAxis (dofZ 5) (dofZ 2) (dofZ 1) in real (aback s) <= real (afront s) - real (astep s) /\ axisSize s = Ok 0%Z.
Proof.
  cbv zeta. cbn [afront aback astep]. unfold real. rewrite (proj1 (dofZ_small 5 ltac:(lia))), (proj1 (dofZ_small 2 ltac:(lia))), (proj1 (dofZ_small 1 ltac:(lia))).
  split; [lra|vm_compute; reflexivity].
Qed.

(** Where front, back and step have integer values, of either sign, the sampling is that of the indices. *)
Theorem C114_integers_partial : forall s t, Integral (afront s) (sfront t) -> Integral (aback s) (sback t) -> Integral (astep s) (sstep t) ->
  (Z.abs (sfront t) <= 2 ^ 50)%Z -> (Z.abs (sback t) <= 2 ^ 50)%Z -> (Z.abs (sstep t) <= 2 ^ 50)%Z -> sstep t <> 0%Z ->
  axisSize s = ssize t /\ forall fuel, SameRun (axisForeach fuel s) (sforeach fuel t).
Proof. exact integer_run. Qed.
Print Assumptions C114_integers_partial.
Example C114_integers_met : sforeach 9 (mkSampling 9 (-3) (-4)) = Some (Ok [9%Z; 5%Z; 1%Z; (-3)%Z]) /\
  option_map (fun r => match r with Ok L => map B2SF L | _ => [] end) (axisForeach 9 (mkAxis (dofZ 9) (dofZ (-3)) (dofZ (-4)))) = Some (map (fun z => B2SF (dofZ z)) [9%Z; 5%Z; 1%Z; (-3)%Z]).
Proof. split; vm_compute; reflexivity. Qed.

(** A null step is undefined behaviour from front to a greater back; else there is no value. *)
Theorem C114_null_step_refuted : forall f b, Finite f -> Finite b -> Rabs (real f) <= bpow radix2 1021 -> Rabs (real b) <= bpow radix2 1021 ->
  axisSize (mkAxis f b (dofZ 0)) = if Rlt_dec (real f) (real b) then UB else Ok 0%Z.
Proof. exact null_axis. Qed.
Print Assumptions C114_null_step_refuted.
Example C114_null_step_met : axisSize (mkAxis (dofZ 1) (dofZ 2) (dofZ 0)) = UB /\ axisSize (mkAxis (dofZ 2) (dofZ 2) (dofZ 0)) = Ok 0%Z.
Proof. split; vm_compute; reflexivity. Qed.

(** Iterators are moved by [z] samples either way, as long as they do not go before the first one, which is undefined behaviour. *)
Theorem C114_moves_partial : forall s v i n z, Integral n z -> (0 <= i <= 2 ^ 53)%Z ->
  ((Z.abs (i + z) <= 2 ^ 53)%Z -> axisAdd s n (v, i) = if (0 <=? i + z)%Z then Ok (dadd v (dmul (astep s) n), (i + z)%Z) else UB) /\
  ((Z.abs (i - z) <= 2 ^ 53)%Z -> axisSub s n (v, i) = if (0 <=? i - z)%Z then Ok (dadd v (dmul (astep s) (dopp n)), (i - z)%Z) else UB).
Proof. exact moves. Qed.
Print Assumptions C114_moves_partial.
Example C114_moves_met : Integral (dofZ 3) 3 /\ axisSub (mkAxis (dofZ 0) (dofZ 9) (dofZ 2)) (dofZ 3) (dofZ 4, 2%Z) = UB.
Proof. split; [exact (int_ofZ 3 ltac:(lia))|vm_compute; reflexivity]. Qed.

(** Moved by half a sample, an iterator has another value but the same index: it is equal to the one which was not moved. *)
Theorem C114_half_refuted : let s := mkAxis (dofZ 0) (dofZ 9) (dofZ 2) in
  exists it, axisAdd s (dlit 1 (-1)) (dofZ 6, 3%Z) = Ok it /\ real (fst it) = 7 /\ snd it = 3%Z.
Proof. exact half_moves. Qed.
Print Assumptions C114_half_refuted.

(** From 0 to 0.3 by 0.1, the last value is greater than back. *)
Theorem C114_exceeds_refuted : exists L x, Sampled (mkAxis (dofZ 0) threeTenths tenth) L /\ In x L /\ Finite x /\ real threeTenths < real x.
Proof. exact exceeds. Qed.
Print Assumptions C114_exceeds_refuted.

(** From 0 to 0.7 by 0.1, one more value would not be greater than back. *)
Theorem C114_misses_refuted : exists L x, Sampled (mkAxis (dofZ 0) sevenTenths tenth) L /\ In x L /\
  Finite (dadd x tenth) /\ real (dadd x tenth) <= real sevenTenths /\ forall y, In y L -> real y < real (dadd x tenth).
Proof. exact misses. Qed.
Print Assumptions C114_misses_refuted.

(** From 2^53 to 2^53 + 4 by 1, there are five values, all of them 2^53. *)
Theorem C114_stuck_refuted : exists L, Sampled (mkAxis (dofZ (2 ^ 53)) (dofZ (2 ^ 53 + 4)) (dofZ 1)) L /\ length L = 5%nat /\
  forall x, In x L -> real x = IZR (2 ^ 53).
Proof. exact stuck. Qed.
Print Assumptions C114_stuck_refuted.

(** The iteration over more than 2^53 values never ends. *)
Theorem C114_endless_refuted : forall s n, axisSize s = Ok n -> (2 ^ 53 < n)%Z -> forall fuel, axisForeach fuel s = None.
Proof. exact endless. Qed.
Print Assumptions C114_endless_refuted.
Example C114_endless_met : axisSize (mkAxis (dofZ 0) (dofZ (2 ^ 54)) (dofZ 1)) = Ok (2 ^ 54)%Z.
Proof. vm_compute. reflexivity. Qed.

(** The default sampling has no size. *)
Theorem C114_default_refuted : axisSize axisDefault = UB.
Proof. exact default_axis. Qed.
Print Assumptions C114_default_refuted.
