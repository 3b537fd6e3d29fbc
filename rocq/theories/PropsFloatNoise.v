(** Properties C88 and C89: impulse noise with probabilities of type double, noises of another type than the pixels.
    Each theorem is closed by a lemma of FloatNoiseProofs. *)
From Coq Require Import Reals Lra.
From Flocq Require Import Core IEEE754.BinarySingleNaN.
From Verif Require Import Res ArithModel ArithSpec RandomModel WidthModel WidthSpec FloatModel FloatSpec FloatNoiseModel FloatNoiseSpec FloatProofs FloatNoiseProofs.
Open Scope R_scope.

(** C88. If the probabilities sum to less than 1, by more than the rounding errors, then the noise may be built, each value is drawn with
    the given probability and the input is kept with the remaining one, up to the rounding errors. *)
Theorem C88_less : forall V (m : list (V * double)), Weights m -> Few m -> total m + count m * bpow radix2 (-51) <= 1 -> m <> [] ->
  exists null, impulseNewD m = Ok (map snd m ++ [null]) /\ Finite null /\ 0 < real null /\
    (forall i v p, nth_error m i = Some (v, p) -> Rabs (probability (map snd m ++ [null]) i - real p) <= count m * bpow radix2 (-53) * real p) /\
    Rabs (probability (map snd m ++ [null]) (length m) - (1 - total m)) <= count m * bpow radix2 (-53).
Proof. exact @impulse_less. Qed.
Print Assumptions C88_less.
Example C88_less_met : let m := [(255%Z, dlit 1 (-1))] in Weights m /\ Few m /\ total m + count m * bpow radix2 (-51) <= 1 /\ m <> [].
Proof.
  cbv zeta. split; [constructor; [exact half_weight|constructor]|]. split; [reflexivity|]. split; [|discriminate]. destruct half_val as [_ V].
  unfold total, count. cbn [map sumR snd length]. change (real (dlit 1 (-1))) with (B2R (dlit 1 (-1))). rewrite V.
  assert (bpow radix2 (-51) <= bpow radix2 (-1)) by (apply bpow_le; lia). change (bpow radix2 (-1)) with (/ 2) in H. change (INR 1) with 1. lra.
Qed.

(** If they sum to 1 or more, the input is never kept, and the probabilities are the given ones divided by their sum. *)
Theorem C88_more : forall V (m : list (V * double)), Weights m -> Few m -> 1 <= total m -> impulseNewD m = Ok (map snd m).
Proof. exact @impulse_more. Qed.
Print Assumptions C88_more.
Example C88_more_met : let m := [(0%Z, dlit 1 (-1)); (255%Z, dlit 1 (-1))] in Weights m /\ Few m /\ 1 <= total m.
Proof.
  cbv zeta. split; [repeat (constructor; [exact half_weight|]); constructor|]. split; [reflexivity|]. destruct half_val as [_ V].
  unfold total. cbn [map sumR snd]. change (real (dlit 1 (-1))) with (B2R (dlit 1 (-1))). rewrite V. lra.
Qed.

(** If they are real numbers which sum to exactly 1, whatever the errors which are made when they are rounded to doubles, and then
    subtracted one after the other, the input is never kept. *)
Theorem C88_one : forall V (m : list (V * double)) qs, Weights m -> Few m ->
  Forall2 (fun vp q => real (snd vp) = nearestDouble q /\ 0 <= q) m qs -> sumR qs = 1 ->
  impulseNewD m = Ok (map snd m) /\ forall i q, nth_error qs i = Some q -> Rabs (probability (map snd m) i - q) <= bpow radix2 (-51).
Proof. exact @impulse_one. Qed.
Print Assumptions C88_one.
(** 0.1 + 0.3 + 0.6: the difference is not zero, yet it is discarded. *)
Example C88_one_met : let tenth k := ddiv (dofZ k) (dofZ 10) in let m := [(0%Z, tenth 1%Z); (1%Z, tenth 3%Z); (2%Z, tenth 6%Z)] in
  Weights m /\ Few m /\ Forall2 (fun vp q => real (snd vp) = nearestDouble q /\ 0 <= q) m [1 / 10; 3 / 10; 6 / 10] /\ sumR [1 / 10; 3 / 10; 6 / 10] = 1 /\
  dltb (dofZ 0) (nullD m) = true /\ length (weightsD m) = 3%nat.
Proof.
  destruct (tenth_ok 1 ltac:(lia)) as [W1 V1]. destruct (tenth_ok 3 ltac:(lia)) as [W3 V3]. destruct (tenth_ok 6 ltac:(lia)) as [W6 V6]. cbv zeta in *.
  split; [constructor; [exact W1|constructor; [exact W3|constructor; [exact W6|constructor]]]|]. split; [unfold Few; cbn [length]; lia|].
  split; [constructor; [split; [exact V1|lra]|constructor; [split; [exact V3|lra]|constructor; [split; [exact V6|lra]|constructor]]]|].
  split; [cbn [sumR]; lra|]. split; vm_compute; reflexivity.
Qed.

(** Whatever is drawn, each element becomes one of the values or is kept; it is kept only if the last of one more weights than values is drawn. *)
Theorem C88_apply : forall V (m : list (V * double)) w draws n mem a, impulseNewD m = Ok w -> Allocated mem a n -> length draws = n -> Forall (fun d => (d < length w)%nat) draws ->
  exists mem', apply (impulseCallD m) n draws mem a [] = Ok ([], mem') /\ Frame mem mem' a n /\
    forall i d x, (0 <= i < Z.of_nat n)%Z -> nth_error draws (Z.to_nat i) = Some d -> zget mem (a + i) = Ok x ->
      ((d < length m)%nat /\ exists v p, nth_error m d = Some (v, p) /\ zget mem' (a + i) = Ok v) \/ (d = length m /\ length w = S (length m) /\ zget mem' (a + i) = Ok x).
Proof. exact @impulse_apply. Qed.
Print Assumptions C88_apply.
Example C88_apply_met : apply (impulseCallD [(255%Z, dlit 1 (-1))]) 3 [0; 1; 0]%nat [9; 1; 2; 3; 9]%Z 1 [] = Ok ([], [9; 255; 2; 255; 9]%Z) /\ Allocated [9; 1; 2; 3; 9]%Z 1 3.
Proof. split; [reflexivity|]. split; cbn; lia. Qed.

(** In between, the documentation does not hold: the sum is less than 1 but the input is never kept. *)
Theorem C88_refuted : exists p : double, Finite p /\ 0 <= real p /\ real p < 1 /\ impulseNewD [(7%Z, p)] = Ok [p].
Proof. exact impulse_tiny. Qed.
Print Assumptions C88_refuted.

(** Negative, NaN and infinite probabilities are not rejected: the requirements of the standard distribution are broken. *)
Theorem C88_invalid_refuted : forall V (v : V), impulseNewD [(v, dofZ (-1))] = UB /\ impulseNewD [(v, B754_nan : double)] = UB /\ impulseNewD [(v, B754_infinity false : double)] = UB.
Proof. exact @impulse_invalid. Qed.
Print Assumptions C88_invalid_refuted.

(** C89. Some noise of an integral type on pixels of type double: the result is the noise of the truncated pixels, and the generator ends in
    the same state. *)
Theorem C89_int_on_double : forall S t (noise : S -> list Z -> res (S * Z)) n st zs k mem a st' out, Allocated zs k n -> Allocated mem a n ->
  (forall i z x, (0 <= i < Z.of_nat n)%Z -> zget zs (k + i) = Ok z -> zget mem (a + i) = Ok x -> Finite x /\ z = Ztrunc (real x) /\ InType t z /\ (- 2 ^ 63 <= z < 2 ^ 63)%Z) ->
  apply noise n st zs k [] = Ok (st', out) -> (forall i z, (0 <= i < Z.of_nat n)%Z -> zget out (k + i) = Ok z -> (Z.abs z <= 2 ^ 53)%Z) ->
  exists mem', apply (intOnDouble t noise) n st mem a [] = Ok (st', mem') /\ Frame mem mem' a n /\
    forall i z, (0 <= i < Z.of_nat n)%Z -> zget out (k + i) = Ok z -> exists y, zget mem' (a + i) = Ok y /\ Finite y /\ real y = IZR z.
Proof. exact @int_on_double. Qed.
Print Assumptions C89_int_on_double.

(** It is defined only if the pixels fit in the type of the noise, although nothing but its results is to be converted according to the
    documentation. *)
Theorem C89_int_on_double_only : forall S t (noise : S -> list Z -> res (S * Z)) n st mem a st' mem', Allocated mem a n -> apply (intOnDouble t noise) n st mem a [] = Ok (st', mem') ->
  forall i x, (0 <= i < Z.of_nat n)%Z -> zget mem (a + i) = Ok x -> Finite x /\ InType t (Ztrunc (real x)).
Proof. exact @int_on_double_only. Qed.
Print Assumptions C89_int_on_double_only.
Theorem C89_range_refuted : forall S (noise : S -> list Z -> res (S * Z)) st, Finite (dofZ 3000000000) /\ apply (intOnDouble int32 noise) 1 st [dofZ 3000000000] 0 [] = UB.
Proof. exact @range_refuted. Qed.
Print Assumptions C89_range_refuted.

(** Impulse noise of integers on doubles (the documented example): each pixel becomes one of the values, or its own integral part. *)
Theorem C89_impulse : forall t (m : list (Z * double)) w draws n mem a, impulseNewD m = Ok w -> Allocated mem a n -> length draws = n -> Forall (fun d => (d < length w)%nat) draws ->
  (forall z, InType t z -> (Z.abs z <= 2 ^ 53)%Z) -> Forall (fun vp => InType t (fst vp)) m ->
  (forall i x, (0 <= i < Z.of_nat n)%Z -> zget mem (a + i) = Ok x -> Finite x /\ InType t (Ztrunc (real x))) ->
  exists mem', apply (intOnDouble t (impulseCallD m)) n draws mem a [] = Ok ([], mem') /\ Frame mem mem' a n /\
    forall i d x, (0 <= i < Z.of_nat n)%Z -> nth_error draws (Z.to_nat i) = Some d -> zget mem (a + i) = Ok x ->
      exists y, zget mem' (a + i) = Ok y /\ Finite y /\
        (((d < length m)%nat /\ exists v p, nth_error m d = Some (v, p) /\ real y = IZR v) \/ (d = length m /\ length w = S (length m) /\ real y = IZR (Ztrunc (real x)))).
Proof. exact impulse_int_on_double. Qed.
Print Assumptions C89_impulse.

(** Hence pixels which are kept are changed: 2.5 becomes 2. This also meets the hypotheses above. *)
Theorem C89_kept_refuted : exists (m : list (Z * double)) w draws x y, impulseNewD m = Ok w /\ length w = 2%nat /\ length m = 1%nat /\ draws = [1%nat] /\ Finite x /\ real x = 5 / 2 /\
  apply (intOnDouble int32 (impulseCallD m)) 1 draws [x] 0 [] = Ok ([], [y]) /\ real y = 2.
Proof. exact kept_refuted. Qed.
Print Assumptions C89_kept_refuted.

(** Poisson noise of integers on doubles: the positive pixels less than 1 become means 0, which the standard distribution forbids. *)
Theorem C89_poisson_refuted : forall E (engine : Z -> E) (poisson : Z -> E -> E * Z) now st,
  Finite (dlit 1 (-1)) /\ 0 < real (dlit 1 (-1)) /\ apply (intOnDouble int32 (stableApply engine poisson (fun m => (0 <? m)%Z) now)) 1 st [dlit 1 (-1)] 0 [] = UB.
Proof. exact @poisson_refuted. Qed.
Print Assumptions C89_poisson_refuted.

(** Some noise of doubles on integral pixels: the result is the noise of the same pixels, truncated. It is defined only if the results fit. *)
Theorem C89_double_on_int : forall S t (noise : S -> list double -> res (S * double)) n st zs a st' out, Allocated zs a n ->
  apply noise n st (map dofZ zs) a [] = Ok (st', out) ->
  (forall i y, (0 <= i < Z.of_nat n)%Z -> zget out (a + i) = Ok y -> Finite y /\ InType t (Ztrunc (real y)) /\ (- 2 ^ 63 <= Ztrunc (real y) < 2 ^ 63)%Z) ->
  exists zs', apply (doubleOnInt t noise) n st zs a [] = Ok (st', zs') /\ Frame zs zs' a n /\
    forall i y, (0 <= i < Z.of_nat n)%Z -> zget out (a + i) = Ok y -> zget zs' (a + i) = Ok (Ztrunc (real y)).
Proof. exact @double_on_int. Qed.
Print Assumptions C89_double_on_int.
Theorem C89_double_on_int_only : forall S t (noise : S -> list double -> res (S * double)) n st zs a st' zs', Allocated zs a n -> apply (doubleOnInt t noise) n st zs a [] = Ok (st', zs') ->
  forall i z, (0 <= i < Z.of_nat n)%Z -> zget zs (a + i) = Ok z -> exists s s' y, noise s [dofZ z] = Ok (s', y) /\ Finite y /\ InType t (Ztrunc (real y)) /\ zget zs' (a + i) = Ok (Ztrunc (real y)).
Proof. exact @double_on_int_only. Qed.
Print Assumptions C89_double_on_int_only.
Example C89_met :
  match apply (intOnDouble int32 (fun st xs => match xs with [z] => Ok (st + 1, z + st)%Z | _ => UB end)) 2 10%Z [dlit 5 (-1); dlit (-5) (-1)] 0 [] with
  | Ok (st, l) => st = 12%Z /\ map B2SF l = map B2SF [dofZ 12; dofZ 9]
  | _ => False
  end /\
  match apply (doubleOnInt int32 (fun (st : nat) xs => match xs with [z] => Ok (S st, dadd z (dlit 1 (-1))) | _ => UB end)) 2 O [3; -3]%Z 0 [] with
  | Ok (st, l) => st = 2%nat /\ l = [3; -2]%Z
  | _ => False
  end.
Proof. split; vm_compute; split; reflexivity. Qed.
