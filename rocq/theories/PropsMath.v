(** Property C99: mathematical functions of containers of integers.
    Each theorem is closed by a lemma of MathProofs. *)
From Coq Require Import Reals.
From Flocq Require Import Core IEEE754.BinarySingleNaN.
From Verif Require Import Res ArithModel ArithSpec WidthModel WidthSpec FloatModel FloatSpec MathModel MathSpec MathProofs.
Open Scope Z_scope.

(** C99. Whatever the function, the element is read as the nearest double, and becomes the result of the function
    truncated towards zero, provided the latter is a value of the type; otherwise the behaviour is undefined. *)
Theorem C99_element : forall t f x, Wf t -> ibits t <= 64 -> InType t x ->
  (Finite (dofZ x) /\ real (dofZ x) = nearestDouble (IZR x)) /\
  (forall z, mathUnary t f x = Ok z <-> Finite (f (dofZ x)) /\ z = Ztrunc (real (f (dofZ x))) /\ InType t z) /\
  (forall e, mathUnary t f x <> Throw e).
Proof. exact unary_element. Qed.
Print Assumptions C99_element.

Example C99_element_met : Wf (mkItype true 16) /\ InType (mkItype true 16) (-300) /\ mathUnary (mkItype true 16) (fun x => ddiv x (dofZ 7)) (-300) = Ok (-42).
Proof. split; [left; cbn; lia|]. split; [split; cbn; lia|]. vm_compute. reflexivity. Qed.

(** floor(), ceil(), trunc() and round() leave integers as they are, in place and as new instances, if the integers are
    exactly doubles, which includes all the values of types of at most 53 bits. *)
Theorem C99_rounding_partial : forall t f n mem a, Wf t -> IsRounding f -> Allocated mem a n -> Typed t mem a n ->
  (ibits t <= 53 \/ Every Precise mem a n) ->
  transform1 (mathUnary t f) n mem a = Ok mem /\ new1 (mathUnary t f) n mem a = copyNew n mem a.
Proof. exact rounding_same. Qed.
Print Assumptions C99_rounding_partial.

Example C99_rounding_partial_met : IsRounding (nearbyint mode_DN) /\ IsRounding (nearbyint mode_UP) /\ IsRounding (nearbyint mode_ZR) /\
  IsRounding (nearbyint mode_NA) /\ Typed (mkItype true 32) [7; - 2 ^ 31; 2 ^ 31 - 1; 9] 1 2.
Proof.
  split; [left; exact floor_met|]. split; [right; left; exact ceil_met|]. split; [right; right; left; exact trunc_met|].
  split; [right; right; right; exact round_met|]. intros i x Hi Hx. assert (C : i = 0 \/ i = 1) by lia. destruct C as [-> | ->]; vm_compute in Hx; injection Hx as <-; split; vm_compute; discriminate.
Qed.

(** In general they give the nearest doubles of the integers, which are integers, and are undefined if one is not of the type. *)
Theorem C99_rounding_wide : forall t f n mem a, Wf t -> ibits t <= 64 -> IsRounding f -> Allocated mem a n -> Typed t mem a n ->
  (Every (fun x => InType t (Ztrunc (nearestDouble (IZR x)))) mem a n ->
    Gives (mathUnary t f) n mem a (fun x => Ztrunc (nearestDouble (IZR x)))) /\
  (~ Every (fun x => InType t (Ztrunc (nearestDouble (IZR x)))) mem a n -> Undefined (mathUnary t f) n mem a).
Proof. exact rounding_nearest. Qed.
Print Assumptions C99_rounding_wide.

Theorem C99_nearest_whole : forall x, IZR (Ztrunc (nearestDouble (IZR x))) = nearestDouble (IZR x).
Proof. exact whole_nearest. Qed.
Print Assumptions C99_nearest_whole.

(** So, rounding integers of 64 bits may change them. *)
Theorem C99_rounding_refuted : forall f, IsRounding f -> transform1 (mathUnary (mkItype true 64) f) 1 [2 ^ 53 + 1] 0 = Ok [2 ^ 53].
Proof. exact rounding_changes. Qed.
Print Assumptions C99_rounding_refuted.

(** Or be undefined. *)
Theorem C99_rounding_undefined_refuted : forall f, IsRounding f -> Undefined (mathUnary (mkItype true 64) f) 1 [2 ^ 63 - 1] 0.
Proof. exact rounding_undefined. Qed.
Print Assumptions C99_rounding_undefined_refuted.

(** abs() gives the absolute values, except for the least value of a signed type. *)
Theorem C99_abs_partial : forall t n mem a, Wf t -> isigned t = true \/ Narrow t -> Allocated mem a n -> Typed t mem a n ->
  (isigned t = true -> Every (fun x => itmin t < x) mem a n) -> Gives (absElement t) n mem a Z.abs.
Proof. exact abs_gives. Qed.
Print Assumptions C99_abs_partial.

Example C99_abs_partial_met : Typed (mkItype true 8) [-127; 5] 0 2 /\ Every (fun x => itmin (mkItype true 8) < x) [-127; 5] 0 2 /\
  transform1 (absElement (mkItype true 8)) 2 [-127; 5] 0 = Ok [127; 5].
Proof.
  split; [|split; [|reflexivity]]; intros i x Hi Hx; assert (C : i = 0 \/ i = 1) by lia; destruct C as [-> | ->]; vm_compute in Hx; injection Hx as <-; vm_compute; try split; congruence.
Qed.

(** The least value is left negative in types narrower than int, and is undefined otherwise. *)
Theorem C99_abs_refuted : forall t, Wf t -> isigned t = true -> absElement t (itmin t) = if ibits t <? 32 then Ok (itmin t) else UB.
Proof. exact abs_least. Qed.
Print Assumptions C99_abs_refuted.

(** sqrt() gives the integer square roots up to 2^52 + 2^27 excluded. *)
Theorem C99_sqrt_partial : forall t f n mem a, Wf t -> IsSqrt f -> Allocated mem a n -> Typed t mem a n ->
  Every (fun x => 0 <= x < 2 ^ 52 + 2 ^ 27) mem a n -> Gives (mathUnary t f) n mem a Z.sqrt.
Proof. exact sqrt_gives. Qed.
Print Assumptions C99_sqrt_partial.

Example C99_sqrt_partial_met : IsSqrt dsqrt /\ transform1 (mathUnary (mkItype true 64) dsqrt) 3 [24; 2 ^ 52 + 2 ^ 27 - 1; 25] 0 = Ok [4; 2 ^ 26; 5].
Proof. split; [exact dsqrt_ok|]. vm_compute. reflexivity. Qed.

(** There, they exceed the root. *)
Theorem C99_sqrt_refuted : forall f, IsSqrt f ->
  transform1 (mathUnary (mkItype true 64) f) 1 [2 ^ 52 + 2 ^ 27] 0 = Ok [2 ^ 26 + 1] /\ Z.sqrt (2 ^ 52 + 2 ^ 27) = 2 ^ 26.
Proof. exact sqrt_wrong. Qed.
Print Assumptions C99_sqrt_refuted.

(** A negative value makes the whole operation undefined. *)
Theorem C99_sqrt_negative : forall t f n mem a, Wf t -> ibits t <= 64 -> IsSqrt f -> Allocated mem a n -> Typed t mem a n ->
  ~ Every (fun x => 0 <= x) mem a n -> Undefined (mathUnary t f) n mem a.
Proof. exact sqrt_negative. Qed.
Print Assumptions C99_sqrt_negative.

Example C99_sqrt_negative_met : ~ Every (fun x => 0 <= x) [4; -1] 0 2 /\ Undefined (mathUnary int32 dsqrt) 2 [4; -1] 0.
Proof. split; [intros H; specialize (H 1 (-1) ltac:(lia) eq_refl); cbv beta in H; lia|]. split; vm_compute; reflexivity. Qed.

(** fmod() gives the remainders of operator %. *)
Theorem C99_fmod_partial : forall t f n mem a b, Wf t -> IsFmod f -> Allocated mem a n -> Allocated mem b n -> Typed t mem a n ->
  Every Precise mem a n -> Every (fun y => Precise y /\ y <> 0) mem b n -> GivesBoth (mathBinary t f) n mem a b Z.rem.
Proof. exact fmod_gives. Qed.
Print Assumptions C99_fmod_partial.

Theorem C99_fmod_scalar_partial : forall t f n mem a s y, Wf t -> IsFmod f -> Allocated mem a n -> Typed t mem a n -> Every Precise mem a n ->
  zget mem s = Ok y -> Precise y -> y <> 0 -> GivesScalar (mathBinary t f) n mem a s Z.rem.
Proof. exact fmod_scalar. Qed.
Print Assumptions C99_fmod_scalar_partial.

Example C99_fmod_partial_met : IsFmod dfmod /\ transform2 (mathBinary int32 dfmod) 2 [-17; 17; 5; -5] 0 2 = Ok [-2; 2; 5; -5] /\
  transformVal (mathBinary int32 dfmod) 2 [-17; 17] 0 1 = Ok [0; 0].
Proof. split; [exact fmod_met|]. split; vm_compute; reflexivity. Qed.

(** A null divisor makes the whole operation undefined, as operator % does. *)
Theorem C99_fmod_zero : forall t f n mem a b i, Wf t -> ibits t <= 64 -> IsFmod f -> Allocated mem a n -> Allocated mem b n ->
  (a <= b \/ Apart a n b n) -> Typed t mem a n -> 0 <= i < Z.of_nat n -> zget mem (b + i) = Ok 0 ->
  transform2 (mathBinary t f) n mem a b = UB.
Proof. exact fmod_by_zero. Qed.
Print Assumptions C99_fmod_zero.

Example C99_fmod_zero_met : zget [1; 2; 3; 0] (2 + 1) = Ok 0 /\ transform2 (mathBinary int32 dfmod) 2 [1; 2; 3; 0] 0 2 = UB.
Proof. split; vm_compute; reflexivity. Qed.

(** fdim() gives the differences, or zero where they would be negative: it does not wrap around, as operator - does for unsigned integers. *)
Theorem C99_fdim_partial : forall t f n mem a b, Wf t -> IsFdim f -> Allocated mem a n -> Allocated mem b n ->
  Every Precise mem a n -> Every Precise mem b n ->
  (forall i x y, 0 <= i < Z.of_nat n -> zget mem (a + i) = Ok x -> zget mem (b + i) = Ok y -> Precise (x - y) /\ InType t (Z.max 0 (x - y))) ->
  GivesBoth (mathBinary t f) n mem a b (fun x y => Z.max 0 (x - y)).
Proof. exact fdim_gives. Qed.
Print Assumptions C99_fdim_partial.

Theorem C99_fdim_scalar_partial : forall t f n mem a s y, Wf t -> IsFdim f -> Allocated mem a n -> Every Precise mem a n ->
  zget mem s = Ok y -> Precise y -> Every (fun x => Precise (x - y) /\ InType t (Z.max 0 (x - y))) mem a n ->
  GivesScalar (mathBinary t f) n mem a s (fun x y => Z.max 0 (x - y)).
Proof. exact fdim_scalar. Qed.
Print Assumptions C99_fdim_scalar_partial.

Example C99_fdim_partial_met : IsFdim dfdim /\ transform2 (mathBinary (mkItype false 8) dfdim) 2 [3; 9; 5; 2] 0 2 = Ok [0; 7; 5; 2] /\
  newVal (mathBinary (mkItype false 8) dfdim) 2 [3; 9] 0 0 = Ok [3; 9; 0; 6].
Proof. split; [exact fdim_met|]. split; vm_compute; reflexivity. Qed.

(** It does not saturate at the greatest value: there it is undefined. *)
Theorem C99_fdim_refuted : forall f, IsFdim f -> mathBinary int32 f (2 ^ 31 - 1) (- 1) = UB.
Proof. exact fdim_overflow. Qed.
Print Assumptions C99_fdim_refuted.

(** logb() gives the position of the leading bit, and is undefined at zero. *)
Theorem C99_logb_partial : forall t f n mem a, Wf t -> IsLogb f -> Allocated mem a n -> Every (fun x => Precise x /\ x <> 0) mem a n ->
  Gives (mathUnary t f) n mem a (fun x => Z.log2 (Z.abs x)).
Proof. exact logb_gives. Qed.
Print Assumptions C99_logb_partial.

Theorem C99_logb_zero : forall t f n mem a i, Wf t -> IsLogb f -> Allocated mem a n -> 0 <= i < Z.of_nat n -> zget mem (a + i) = Ok 0 ->
  Undefined (mathUnary t f) n mem a.
Proof. exact logb_zero. Qed.
Print Assumptions C99_logb_zero.

Example C99_logb_partial_met : IsLogb dlogb /\ transform1 (mathUnary int32 dlogb) 3 [1; -1000; 64] 0 = Ok [0; 9; 6] /\ transform1 (mathUnary int32 dlogb) 2 [1; 0] 0 = UB.
Proof. split; [exact logb_met|]. split; vm_compute; reflexivity. Qed.
