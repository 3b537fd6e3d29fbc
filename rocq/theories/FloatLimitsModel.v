(** Model of Limits<T> for floating-point types (LitlTypes/LitlTypes/TypeUtils.h: 176-258), and of the additive noises over them
    (LitlContainer/LitlContainer/Random.h: 124-135). The types are the binary formats of IEEE 754, of any precision and exponent range: float (24, 128),
    double (53, 1024), and the extended long double (64, 16384). Complex values are pairs, of which the components are those of the format. *)
From Flocq Require Import IEEE754.BinarySingleNaN.
From Verif Require Import Res.

Section Format.
Variables prec emax : Z.
Context (hp : FLX.Prec_gt_0 prec) (hm : Prec_lt_emax prec emax).
Notation float := (binary_float prec emax).

(** The conversion of an int to T, which 0, 1, 2 and the Boolean of halfMax undergo. *)
Definition ofInt (z : Z) : float := binary_normalize prec emax hp hm mode_NE z 0 false.

(** std::numeric_limits<T>::lowest, max, infinity, epsilon (C++ standard, numeric.limits.members). *)
Definition stdMax : float := Bmax_float.
Definition stdLowest : float := Bopp stdMax.
Definition stdInf : float := B754_infinity false.
Definition stdEps : float := binary_normalize prec emax hp hm mode_NE 1 (1 - prec) false.

(** zero, one, min, max, inf, epsilon (TypeUtils.h: 188-229); infinity is not zero, hence it is chosen in inf (line 221). *)
Definition flZero : float := ofInt 0.
Definition flOne : float := ofInt 1.
Definition flMin : float := stdLowest.
Definition flMax : float := stdMax.
Definition flInf : float := match Bcompare stdInf (ofInt 0) with Some Eq => flMax | _ => stdInf end.
Definition flEps : float := stdEps.

(** almostMin, almostMax, halfMin, halfMax (TypeUtils.h: 231-257). *)
Definition flAlmostMin : float := Bplus mode_NE flMin flEps.
Definition flAlmostMax : float := Bminus mode_NE flMax flEps.
Definition flHalfMin : float := Bdiv mode_NE flMin (ofInt 2).
Definition flHalfMax : float := Bplus mode_NE (Bdiv mode_NE flMax (ofInt 2)) (ofInt 0).

(** RandomGenerator::add (Random.h: 132-135) for a drawn value of the same type. *)
Definition flAdd (x drawn : float) : float := Bplus mode_NE x drawn.
End Format.
