(** C86: quantiles of doubles, with rounding.
    The values are given in increasing order, hence the n-th smallest one is that of index n (see C21 for the other orders).
    real x is the real number which the finite double x represents, and 2^53 bounds the number of values which indices of type double tell apart.
    These theorems rely on the axioms of the real numbers of the standard library, as printed below. *)
From Coq Require Import Reals Lra.
From Flocq Require Import Core IEEE754.BinarySingleNaN.
From Verif Require Import Res FloatModel FloatSpec FloatProofs QuantileModel QuantileSpec QuantileProofs.
Open Scope R_scope.

(** The quantile is defined and finite, even if the values are as large as doubles may be. *)
Theorem C86_defined : forall l q, l <> [] -> (Z.of_nat (length l) <= 2 ^ 53)%Z -> Forall Finite l -> Finite q -> 0 <= real q <= 1 ->
  exists v, dquantile l q = Ok v /\ Finite v.
Proof. exact quantile_defined. Qed.
Print Assumptions C86_defined.
Example C86_defined_met : let l := [dlit (2 ^ 53 - 1) 971; dlit (2 ^ 53 - 1) 971] in Forall Finite l /\ exists v, dquantile l (dlit 1 (-2)) = Ok v /\ Finite v.
Proof.
  cbv zeta. assert (F : Forall Finite [dlit (2 ^ 53 - 1) 971; dlit (2 ^ 53 - 1) 971]) by (repeat constructor). split; [exact F|].
  apply quantile_defined; [discriminate|cbn; lia|exact F|reflexivity|]. destruct (dofZ_small 0 ltac:(lia)) as [V0 _]. destruct (dofZ_small 1 ltac:(lia)) as [V1 _].
  unfold real. rewrite <- V0, <- V1. split; apply compare_le; try reflexivity; left; vm_compute; reflexivity.
Qed.

(** Quantiles 0 and 1 are the minimum and maximum, exactly. *)
Theorem C86_extremes : forall l q, l <> [] -> (Z.of_nat (length l) <= 2 ^ 53)%Z -> Forall Finite l -> Finite q ->
  (real q = 0 -> dquantile l q = zget l 0) /\ (real q = 1 -> dquantile l q = zget l (Z.of_nat (length l) - 1)).
Proof. exact quantile_extremes. Qed.
Print Assumptions C86_extremes.
Example C86_extremes_met : real (dofZ 0) = 0 /\ real (dofZ 1) = 1 /\ dquantile [dofZ 3; dofZ 5; dofZ 9] (dofZ 0) = Ok (dofZ 3) /\ dquantile [dofZ 3; dofZ 5; dofZ 9] (dofZ 1) = Ok (dofZ 9).
Proof. split; [apply (dofZ_small 0); lia|]. split; [apply (dofZ_small 1); lia|].
  destruct (quantile_extremes [dofZ 3; dofZ 5; dofZ 9] (dofZ 0)) as [A _]; [discriminate|cbn; lia|repeat constructor|reflexivity|].
  destruct (quantile_extremes [dofZ 3; dofZ 5; dofZ 9] (dofZ 1)) as [_ B]; [discriminate|cbn; lia|repeat constructor|reflexivity|].
  split; [apply A, (dofZ_small 0); lia|apply B, (dofZ_small 1); lia].
Qed.

(** The median of an odd number of values is the middle one, exactly. *)
Theorem C86_median_odd : forall l m, length l = (2 * m + 1)%nat -> (Z.of_nat (length l) <= 2 ^ 53)%Z -> Forall Finite l -> dmedian l = zget l (Z.of_nat m).
Proof. exact median_odd. Qed.
Print Assumptions C86_median_odd.
Example C86_median_odd_met : Forall Finite [dofZ 3; dofZ 5; dofZ 9] /\ dmedian [dofZ 3; dofZ 5; dofZ 9] = Ok (dofZ 5).
Proof. split; [repeat constructor|]. rewrite (median_odd _ 1); [reflexivity|reflexivity|cbn; lia|repeat constructor]. Qed.

(** The median of an even number of values is finite. It is the double which is the nearest to the middle of the two middle values, and is between them,
    if the halves of these are doubles. Missing: odd multiples of the smallest double (see below). *)
Theorem C86_median_even_partial : forall l m, length l = (2 * m + 2)%nat -> (Z.of_nat (length l) <= 2 ^ 53)%Z -> Forall Finite l ->
  exists x y v, zget l (Z.of_nat m) = Ok x /\ zget l (Z.of_nat m + 1) = Ok y /\ dmedian l = Ok v /\ Finite v /\
    (Halvable x -> Halvable y -> real v = nearestDouble ((real x + real y) / 2) /\
      Rmin (real x) (real y) <= real v <= Rmax (real x) (real y)).
Proof. exact median_even. Qed.
Print Assumptions C86_median_even_partial.
Example C86_median_even_met : let x := dlit (2 ^ 53 - 1) 971 in Forall Finite [x; x] /\ Halvable x /\ exists v, dmedian [x; x] = Ok v /\ Bcompare v x = Some Eq.
Proof.
  cbv zeta. split; [repeat constructor|]. split; [|eexists; split; [reflexivity|vm_compute; reflexivity]].
  exists (dlit (2 ^ 53 - 1) 970). split; [reflexivity|]. unfold real.
  rewrite (ofsf (dlit (2 ^ 53 - 1) 970) (SpecFloat.S754_finite false 9007199254740991 970) ltac:(vm_compute; reflexivity)).
  rewrite (ofsf (dlit (2 ^ 53 - 1) 971) (SpecFloat.S754_finite false 9007199254740991 971) ltac:(vm_compute; reflexivity)).
  cbn [SF2R SpecFloat.cond_Zopp]. unfold F2R. cbn [Fnum Fexp]. change 971%Z with (1 + 970)%Z. rewrite bpow_plus. change (bpow radix2 1) with 2. field.
Qed.

(** The smallest double: the median of two equal values is null. *)
Theorem C86_median_subnormal_refuted : exists x v, Finite x /\ 0 < real x /\ dmedian [x; x] = Ok v /\ Finite v /\ real v = 0.
Proof. exact median_subnormal. Qed.
Print Assumptions C86_median_subnormal_refuted.

(** What is computed otherwise, and a bound on the rounding error: the rank is rounded; the value at an integral rank is returned as is;
    otherwise the neighbours are weighted by the distance to the first one and its complement, in that order (see C22). *)
Theorem C86_error : forall l q M v, l <> [] -> (Z.of_nat (length l) <= 2 ^ 53)%Z -> Forall (fun x => Finite x /\ Rabs (real x) <= M) l -> Finite q -> 0 <= real q <= 1 ->
  dquantile l q = Ok v ->
  exists f, IZR f <= roundedRank l q < IZR f + 1 /\
  (roundedRank l q = IZR f /\ zget l f = Ok v \/
   IZR f < roundedRank l q /\ exists x y, zget l f = Ok x /\ zget l (f + 1) = Ok y /\
     let d := roundedRank l q - IZR f in Rabs (real v - (real x * d + real y * (1 - d))) <= 3 * bpow radix2 (-53) * M + bpow radix2 (-1073)).
Proof. exact quantile_error. Qed.
Print Assumptions C86_error.
Example C86_error_met : exists v, Forall (fun x => Finite x /\ Rabs (real x) <= 9) [dofZ 3; dofZ 5; dofZ 9] /\ dquantile [dofZ 3; dofZ 5; dofZ 9] (dlit 3 (-3)) = Ok v /\
  Bcompare v (dlit 7 (-1)) = Some Eq.
Proof.
  eexists. split; [|split; [reflexivity|vm_compute; reflexivity]].
  repeat (constructor; [split; [reflexivity|]; unfold real; match goal with |- context [dofZ ?z] => rewrite (proj1 (dofZ_small z ltac:(lia))) end; rewrite Rabs_pos_eq; lra|]). constructor.
Qed.

Theorem C86_rank : forall l q, l <> [] -> 0 <= real q -> Rabs (roundedRank l q - exactRank l q) <= bpow radix2 (-53) * exactRank l q + bpow radix2 (-1075).
Proof. exact rank_error. Qed.
Print Assumptions C86_rank.
Example C86_rank_met : exactRank [dofZ 3; dofZ 5; dofZ 9] (dofZ 1) = 2.
Proof. unfold exactRank, real. rewrite (proj1 (dofZ_small 1 ltac:(lia))). cbn [length Z.of_nat Z.sub]. cbn. lra. Qed.

(** Hence the quantile is between the bounds of the values, to within rounding errors. *)
Theorem C86_within : forall l q lo hi M v, l <> [] -> (Z.of_nat (length l) <= 2 ^ 53)%Z -> Forall (fun x => Within lo hi x /\ Rabs (real x) <= M) l -> Finite q -> 0 <= real q <= 1 ->
  dquantile l q = Ok v -> lo - (3 * bpow radix2 (-53) * M + bpow radix2 (-1073)) <= real v <= hi + (3 * bpow radix2 (-53) * M + bpow radix2 (-1073)).
Proof. exact quantile_within. Qed.
Print Assumptions C86_within.
Example C86_within_met : Forall (fun x => Within 3 9 x /\ Rabs (real x) <= 9) [dofZ 3; dofZ 5; dofZ 9].
Proof.
  repeat (constructor; [split; [split; [reflexivity|]|]; unfold real; match goal with |- context [dofZ ?z] => rewrite (proj1 (dofZ_small z ltac:(lia))) end; [lra|rewrite Rabs_pos_eq; lra]|]). constructor.
Qed.

(** Without that margin it is not: a quantile of two equal values exceeds them. *)
Theorem C86_within_refuted : exists x q v, Finite x /\ Finite q /\ 0 < real q < 1 /\ dquantile [x; x] q = Ok v /\ Finite v /\ real x < real v.
Proof. exact quantile_refuted. Qed.
Print Assumptions C86_within_refuted.

(** Outside of the domain the behaviour is undefined: no value, rank out of the values, argument which is infinite or not a number. *)
Theorem C86_empty : forall q, dquantile [] q = UB.
Proof. exact quantile_empty. Qed.
Print Assumptions C86_empty.

Theorem C86_outside : forall l q, l <> [] -> (Z.of_nat (length l) <= 2 ^ 53)%Z -> Finite q ->
  roundedRank l q <= -1 \/ IZR (Z.of_nat (length l) - 1) < roundedRank l q -> dquantile l q = UB.
Proof. exact quantile_outside. Qed.
Print Assumptions C86_outside.
Example C86_outside_met : Finite (dofZ 2) /\ IZR (Z.of_nat (length [dofZ 3; dofZ 5]) - 1) < roundedRank [dofZ 3; dofZ 5] (dofZ 2).
Proof.
  split; [reflexivity|]. unfold roundedRank, exactRank, real. rewrite (proj1 (dofZ_small 2 ltac:(lia))).
  change (Z.of_nat (length [dofZ 3; dofZ 5]) - 1)%Z with 1%Z. rewrite Rmult_1_r. change (1 < round radix2 (SpecFloat.fexp 53 1024) ZnearestE (IZR 2)). rewrite (rnd_int 2) by lia. lra.
Qed.

Theorem C86_not_finite : forall l q, l <> [] -> (Z.of_nat (length l) <= 2 ^ 53)%Z -> ~ Finite q -> dquantile l q = UB.
Proof. exact quantile_infinite. Qed.
Print Assumptions C86_not_finite.
Example C86_not_finite_met : ~ Finite (ddiv (dofZ 1) (dofZ 0)).
Proof. discriminate. Qed.

(** A negative argument which is rounded towards the first rank is not detected, and gives a value out of the bounds. *)
Theorem C86_negative_refuted : exists l q v, Forall Finite l /\ Finite q /\ real q < 0 /\ dquantile l q = Ok v /\ Finite v /\ Forall (fun x => real x < real v) l.
Proof. exact quantile_negative. Qed.
Print Assumptions C86_negative_refuted.
