(** Model of Limits<T> for integral types (LitlTypes/LitlTypes/TypeUtils.h: 176-258), and of the additive noises
    (LitlContainer/LitlContainer/Random.h: 34-214). The limits of floating-point types are in FloatLimitsModel.v. *)
From Verif Require Import Res.

(** The supported integral types (TypeUtils.h: 19-30), and bool: signed and unsigned types of [bits] bits. *)
Inductive itype := TBool | TUnsigned (bits : Z) | TSigned (bits : Z).

(** std::numeric_limits<T>::lowest, max, infinity and epsilon of integral types (C++ standard, numeric.limits.members). *)
Definition lowest (t : itype) : Z := match t with TBool | TUnsigned _ => 0 | TSigned n => - 2 ^ (n - 1) end.
Definition highest (t : itype) : Z := match t with TBool => 1 | TUnsigned n => 2 ^ n - 1 | TSigned n => 2 ^ (n - 1) - 1 end.
Definition stdInfinity (t : itype) : Z := 0.
Definition stdEpsilon (t : itype) : Z := 0.

(** The conversion of an integer to T: to false or true, or modulo the number of values (conv.integral). *)
Definition toType (t : itype) (x : Z) : Z :=
  match t with
  | TBool => if x =? 0 then 0 else 1
  | TUnsigned n => x mod 2 ^ n
  | TSigned n => (x + 2 ^ (n - 1)) mod 2 ^ n - 2 ^ (n - 1)
  end.

(** The type of arithmetic operations (conv.prom): int for the types narrower than 32 bits, else the type itself.
    Signed overflow is undefined (expr.pre). *)
Definition promoted (t : itype) : itype :=
  match t with
  | TBool => TSigned 32
  | TUnsigned n => if n <? 32 then TSigned 32 else t
  | TSigned n => if n <? 32 then TSigned 32 else t
  end.
Definition arith (t : itype) (x : Z) : res Z :=
  match promoted t with
  | TSigned n => if (lowest (TSigned n) <=? x) && (x <=? highest (TSigned n)) then Ok x else UB
  | p => Ok (toType p x)
  end.

(** zero, one, min, max, inf, epsilon (TypeUtils.h: 188-229): fromScalar is the identity (lines 120-122). *)
Definition lzero (t : itype) : Z := toType t 0.
Definition lone (t : itype) : Z := toType t 1.
Definition lmin (t : itype) : Z := lowest t.
Definition lmax (t : itype) : Z := highest t.
Definition linf (t : itype) : Z := if stdInfinity t =? 0 then lmax t else stdInfinity t.
Definition lepsilon (t : itype) : Z := stdEpsilon t.

(** almostMin, almostMax (TypeUtils.h: 231-243). *)
Definition almostMin (t : itype) : res Z := x <- arith t (lmin t + lepsilon t) ;; Ok (toType t x).
Definition almostMax (t : itype) : res Z := x <- arith t (lmax t - lepsilon t) ;; Ok (toType t x).

(** halfMin, halfMax (TypeUtils.h: 245-257). *)
Definition halfMin (t : itype) : res Z := x <- arith t (Z.quot (lmin t) 2) ;; Ok (toType t x).
Definition halfMax (t : itype) : res Z := h <- arith t (Z.quot (lmax t) 2) ;; x <- arith t (h + 1) ;; Ok (toType t x).

(** RandomGenerator::add (Random.h: 132-135) with integral T, for a drawn value: the sum, converted to T. *)
Definition addDrawn (t : itype) (x drawn : Z) : res Z := s <- arith t (x + drawn) ;; Ok (toType t s).

(** UniformNoise and GaussianNoise. The state is that of the distribution and of the engine (std::mt19937). *)
Section Noise.
Context {D E S T : Type}.
(** A standard distribution: [draw d e] gives the new states and the drawn value, of type S. *)
Variable draw : D -> E -> (D * E) * S.
(** The conversion of drawn values to T, which returning from generate<T> does (Random.h: 125-127). It may be undefined,
    e.g. for drawn floating-point values out of the range of an integral T. *)
Variable convert : S -> res T.
(** The sum of two T's, converted to T, which returning from add<T> does (Random.h: 132-135). *)
Variable plus : T -> T -> res T.

(** RandomGenerator::generate for real T (Random.h: 124-127) with ComplexDistribution::operator() (lines 58-61). *)
Definition noiseGenerate (st : D * E) : res ((D * E) * T) :=
  let r := draw (fst st) (snd st) in v <- convert (snd r) ;; Ok (fst r, v).

(** RandomGenerator::add (Random.h: 132-135). *)
Definition noiseAdd (st : D * E) (x : T) : res ((D * E) * T) := r <- noiseGenerate st ;; y <- plus x (snd r) ;; Ok (fst r, y).

(** UniformNoise::operator() and GaussianNoise::operator(), without and with a parameter (Random.h: 161-170, 200-209).
    The list is that of the parameters, as for the functions given to DataContainer::generate and apply. *)
Definition noiseCall (st : D * E) (xs : list T) : res ((D * E) * T) :=
  match xs with
  | [] => noiseGenerate st
  | [x] => noiseAdd st x
  | _ => UB
  end.
End Noise.

(** ComplexDistribution<std::complex<T>>::operator() (Random.h: 87-90): the real distribution, then the imaginary one
    (the elements of braced initializers are evaluated in order), with the same engine. *)
Definition drawComplex {D E S} (draw : D -> E -> (D * E) * S) (d : D * D) (e : E) : ((D * D) * E) * (S * S) :=
  let r := draw (fst d) e in
  let i := draw (snd d) (snd (fst r)) in
  ((fst (fst r), fst (fst i), snd (fst i)), (snd r, snd i)).
