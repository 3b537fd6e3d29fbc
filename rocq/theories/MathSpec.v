(** Specification of the functions of <cmath> used over integers, and of what they give over containers. *)
From Coq Require Import Reals.
From Flocq Require Import Core IEEE754.BinarySingleNaN.
From Verif Require Import Res ArithModel WidthModel WidthSpec ArithSpec FloatModel FloatSpec MathModel.
Open Scope Z_scope.

(** What ISO C and IEEE 754 say of the functions of <cmath> for finite doubles. *)
Definition IsFloor (f : double -> double) : Prop := forall x, Finite x -> Finite (f x) /\ real (f x) = IZR (Zfloor (real x)).
Definition IsCeil (f : double -> double) : Prop := forall x, Finite x -> Finite (f x) /\ real (f x) = IZR (Zceil (real x)).
Definition IsTrunc (f : double -> double) : Prop := forall x, Finite x -> Finite (f x) /\ real (f x) = IZR (Ztrunc (real x)).
(** A nearest integer, whichever of two. *)
Definition IsRound (f : double -> double) : Prop := forall x, Finite x ->
  Finite (f x) /\ exists k, real (f x) = IZR k /\ (Rabs (real x - IZR k) <= / 2)%R.
Definition IsRounding (f : double -> double) : Prop := IsFloor f \/ IsCeil f \/ IsTrunc f \/ IsRound f.
(** The square root, correctly rounded; not a number for negative values. *)
Definition IsSqrt (f : double -> double) : Prop := forall x, Finite x ->
  ((0 <= real x)%R -> Finite (f x) /\ real (f x) = nearestDouble (sqrt (real x))) /\ ((real x < 0)%R -> f x = B754_nan).
(** x - n y, where n is the quotient rounded towards zero: always exact; not a number if y is zero. *)
Definition IsFmod (f : double -> double -> double) : Prop := forall x y, Finite x -> Finite y ->
  (real y <> 0%R -> Finite (f x y) /\ (real (f x y) = real x - IZR (Ztrunc (real x / real y)) * real y)%R) /\
  (real y = 0%R -> f x y = B754_nan).
(** x - y if positive, zero otherwise. *)
Definition IsFdim (f : double -> double -> double) : Prop := forall x y, Finite x -> Finite y ->
  ((real y < real x)%R -> (Rabs (nearestDouble (real x - real y)) <= maxDouble)%R ->
    Finite (f x y) /\ real (f x y) = nearestDouble (real x - real y)) /\
  ((real x <= real y)%R -> Finite (f x y) /\ real (f x y) = 0%R).
(** The exponent e such that 2^e <= |x| < 2^(e+1); an infinity if x is zero. *)
Definition IsLogb (f : double -> double) : Prop := forall x, Finite x ->
  (forall e, (bpow radix2 e <= Rabs (real x) < bpow radix2 (e + 1))%R -> Finite (f x) /\ real (f x) = IZR e) /\
  (real x = 0%R -> ~ Finite (f x)).

(** All the elements of the container of size [n] at address [a] satisfy [P]. *)
Definition Every (P : Z -> Prop) (mem : list Z) (a : Z) (n : nat) : Prop :=
  forall i x, 0 <= i < Z.of_nat n -> zget mem (a + i) = Ok x -> P x.

(** Function [f] of each element of the container of size [n] at address [a], in place and as a new instance, gives [g] of the element,
    and nothing else changes. *)
Definition Gives (f : Z -> res Z) (n : nat) (mem : list Z) (a : Z) (g : Z -> Z) : Prop :=
  (exists mem', transform1 f n mem a = Ok mem' /\ Frame mem mem' a n /\
    forall i x, 0 <= i < Z.of_nat n -> zget mem (a + i) = Ok x -> zget mem' (a + i) = Ok (g x)) /\
  (exists l, new1 f n mem a = Ok (mem ++ l) /\ length l = n /\
    forall i x, 0 <= i < Z.of_nat n -> zget mem (a + i) = Ok x -> zget l i = Ok (g x)).

(** Function [f] of the elements with the same index of the containers at addresses [a] and [b], likewise:
    in place if the first one does not overlap the head of the second one. *)
Definition GivesBoth (f : Z -> Z -> res Z) (n : nat) (mem : list Z) (a b : Z) (g : Z -> Z -> Z) : Prop :=
  ((a <= b \/ Apart a n b n) -> exists mem', transform2 f n mem a b = Ok mem' /\ Frame mem mem' a n /\
    forall i x y, 0 <= i < Z.of_nat n -> zget mem (a + i) = Ok x -> zget mem (b + i) = Ok y -> zget mem' (a + i) = Ok (g x y)) /\
  (exists l, new2 f n mem a b = Ok (mem ++ l) /\ length l = n /\
    forall i x y, 0 <= i < Z.of_nat n -> zget mem (a + i) = Ok x -> zget mem (b + i) = Ok y -> zget l i = Ok (g x y)).

(** Function [f] of each element and of the scalar at address [s], which may be one of the elements. *)
Definition GivesScalar (f : Z -> Z -> res Z) (n : nat) (mem : list Z) (a s : Z) (g : Z -> Z -> Z) : Prop :=
  (exists mem', transformVal f n mem a s = Ok mem' /\ Frame mem mem' a n /\
    forall i x y, 0 <= i < Z.of_nat n -> zget mem (a + i) = Ok x -> zget mem s = Ok y -> zget mem' (a + i) = Ok (g x y)) /\
  (exists l, newVal f n mem a s = Ok (mem ++ l) /\ length l = n /\
    forall i x y, 0 <= i < Z.of_nat n -> zget mem (a + i) = Ok x -> zget mem s = Ok y -> zget l i = Ok (g x y)).

(** The function is undefined over the container, in place and as a new instance. *)
Definition Undefined (f : Z -> res Z) (n : nat) (mem : list Z) (a : Z) : Prop :=
  transform1 f n mem a = UB /\ new1 f n mem a = UB.

(** Integers which are exactly doubles. *)
Definition Precise (x : Z) : Prop := Z.abs x <= 2 ^ 53.

(** Implementations of the functions, to show that the specifications can be met. *)
Definition nearbyint (m : mode) (x : double) : double := Bnearbyint (prec_lt_emax_ := hmax) m x.
Definition dsqrt (x : double) : double := Bsqrt (prec_gt_0_ := hprec) (prec_lt_emax_ := hmax) mode_NE x.
Definition dfdim (x y : double) : double := if dltb y x then dsub x y else B754_zero false.
Definition dlogb (x : double) : double :=
  match x with
  | B754_finite _ m e _ => dofZ (Z.log2 (Zpos m) + e)
  | B754_zero _ => B754_infinity true
  | B754_infinity _ => B754_infinity false
  | B754_nan => B754_nan
  end.
Definition dfmod (x y : double) : double :=
  match x, y with
  | B754_finite s m e _, B754_finite _ m' e' _ =>
      let k := Z.min e e' in
      let r := Z.rem (Zpos m * 2 ^ (e - k)) (Zpos m' * 2 ^ (e' - k)) in
      dlit (if s then - r else r) k
  | B754_zero s, B754_finite _ _ _ _ => B754_zero s
  | B754_zero s, B754_infinity _ => B754_zero s
  | B754_finite _ _ _ _, B754_infinity _ => x
  | _, _ => B754_nan
  end.
