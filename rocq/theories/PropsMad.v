(** C107: quantiles and median absolute deviation of doubles given in any order, after any sequence of queries, with rounding.
    real x is the real number which the finite double x represents; 2^53 bounds the number of values which indices of type double tell apart.
    ReadBefore: each of both references which quantile() adds is read before the other one is requested, which the language does not guarantee.
    These theorems rely on the axioms of the real numbers of the standard library, as printed below. *)
From Coq Require Import Reals Permutation.
From Flocq Require Import Core.
From Verif Require Import Res DistModel DistSpec FloatModel FloatSpec FloatProofs QuantileModel QuantileSpec DistFloatModel DistFloatSpec DistFloatProofs MadFloatProofs.
Open Scope R_scope.

(** A quantile is defined, is that of the sorted values (see C86), and the values are only reordered. *)
Theorem C107_quantile : forall o l s d q, l <> [] -> (Z.of_nat (length l) <= 2 ^ 53)%Z -> Forall Finite l -> Finite q -> 0 <= real q <= 1 ->
  reach dltb (distMake dltb l) d -> Sorting dltb l s -> ReadBefore o \/ dsorted d = true ->
  (exists d' r, dquantileCall o d q d' r) /\
  forall d' r, dquantileCall o d q d' r -> Permutation l (dvalues d') /\ exists v w, r = Ok v /\ dquantile s q = Ok w /\ SameReal v w.
Proof. exact quantile_any_order. Qed.
Print Assumptions C107_quantile.

(** The median absolute deviation is defined, finite and not negative, and close to the exact one. *)
Theorem C107_mad : forall o l d M, l <> [] -> (Z.of_nat (length l) <= 2 ^ 53)%Z -> Forall (fun x => Finite x /\ Rabs (real x) <= M) l -> M <= bpow radix2 1021 ->
  reach dltb (distMake dltb l) d -> ReadBefore o ->
  (exists d' r, dmadCall o d d' r) /\
  forall d' r, dmadCall o d d' r -> Permutation l (dvalues d') /\
    exists v x, r = Ok v /\ Finite v /\ 0 <= real v /\ MadR (map real l) x /\ Rabs (real v - x) <= 12 * bpow radix2 (-53) * M + bpow radix2 (-1071).
Proof. exact mad_any_order. Qed.
Print Assumptions C107_mad.

(** For an odd number of values, it is the double which is the nearest to the exact one. *)
Theorem C107_odd : forall o l d d' r M n, length l = (2 * n + 1)%nat -> (Z.of_nat (length l) <= 2 ^ 53)%Z ->
  Forall (fun x => Finite x /\ Rabs (real x) <= M) l -> M <= bpow radix2 1021 ->
  reach dltb (distMake dltb l) d -> ReadBefore o -> dmadCall o d d' r ->
  exists v x, r = Ok v /\ Finite v /\ MadR (map real l) x /\ real v = nearestDouble x.
Proof. exact mad_odd. Qed.
Print Assumptions C107_odd.

(** That of equal values is null. *)
Theorem C107_constant : forall o l d d' r c, l <> [] -> (Z.of_nat (length l) <= 2 ^ 53)%Z -> Finite c -> Rabs (real c) <= bpow radix2 1021 ->
  Forall (fun x => Finite x /\ real x = real c) l -> Nat.Odd (length l) \/ Halvable c ->
  reach dltb (distMake dltb l) d -> ReadBefore o -> dmadCall o d d' r -> exists v, r = Ok v /\ Finite v /\ real v = 0.
Proof. exact mad_constant. Qed.
Print Assumptions C107_constant.

Example C107_constant_met : let c := dlit 1 0 in Finite c /\ Rabs (real c) <= bpow radix2 1021 /\ Forall (fun x => Finite x /\ real x = real c) [c; c] /\ Halvable c /\
  exists d' r, dmadCall ReadRightFirst (distMake dltb [c; c]) d' r.
Proof. exact constant_met. Qed.

(** The exact deviation exists and is unique. *)
Theorem C107_exact : forall xs, xs <> [] -> exists x, MadR xs x /\ forall y, MadR xs y -> y = x.
Proof. exact mad_specified. Qed.
Print Assumptions C107_exact.

(** Unsorted values which meet the hypotheses. *)
Example C107_met : let l := [dlit 3 0; dlit 1 0; dlit 2 0] in
  l <> [] /\ (Z.of_nat (length l) <= 2 ^ 53)%Z /\ Forall (fun x => Finite x /\ Rabs (real x) <= bpow radix2 2) l /\ bpow radix2 2 <= bpow radix2 1021 /\
  reach dltb (distMake dltb l) (distMake dltb l) /\ dsorted (distMake dltb l) = false /\ ReadBefore ReadLeftFirst /\ Nat.Odd (length l).
Proof. exact mad_met. Qed.

(** The least positive double is lost for an even number of values, whatever the order of evaluation. *)
Theorem C107_refuted : forall o, exists l v x, Forall Finite l /\ dmadCall o (distMake dltb l) (distMake dltb l) (Ok v) /\ Finite v /\ real v = 0 /\
  MadR (map real l) x /\ 0 < x /\ nearestDouble x = x.
Proof. exact mad_refuted. Qed.
Print Assumptions C107_refuted.

(** The median of 3, 1, 2 and 0 may be 1, if the first reference is read after the second one is requested. *)
Theorem C107_order_refuted : exists l d' v, Forall Finite l /\ dmedianCall CallLeftFirst (distMake dltb l) d' (Ok v) /\ Finite v /\ real v = 1 /\ MedianR (map real l) (3 / 2).
Proof. exact median_order_refuted. Qed.
Print Assumptions C107_order_refuted.
