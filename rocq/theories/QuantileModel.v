(** Model of the quantiles of values of type double, with rounding (LitlContainer/LitlContainer/DataDistribution.h).
    In DistModel.v values are exact rationals. *)
From Flocq Require Import IEEE754.BinarySingleNaN.
From Verif Require Import Res FloatModel.

(** Comparison x == y: false if any is NaN. *)
Definition deqb (x y : double) : bool := match Bcompare x y with Some Eq => true | _ => false end.

(** Conversion of a double to std::size_t: truncation, undefined if the result does not fit ([conv.fpint]). *)
Definition dtruncU (x : double) : res Z :=
  match x with
  | B754_zero _ => Ok 0
  | B754_finite s m e _ =>
      let a := if 0 <=? e then Zpos m * 2 ^ e else Zpos m / 2 ^ (- e) in
      let z := if s then - a else a in
      if (0 <=? z) && (z <? 2 ^ 64) then Ok z else UB
  | _ => UB
  end.

(** quantile(q) (lines 147-155) for sorted values [l], such that nth(i) is the i-th value (lines 95-98; see C21 for the other ones).
    The operands of each operation are converted to double. *)
Definition dquantile (l : list double) (q : double) : res double :=
  let n := dmul q (dofZ (u64 (Z.of_nat (length l) - 1))) in
  f <- dtruncU n ;;
  if deqb n (dofZ f) then zget l f
  else
    let d := dsub n (dofZ f) in
    x <- zget l f ;; y <- zget l (f + 1) ;; Ok (dadd (dmul x d) (dmul y (dsub (dofZ 1) d))).

(** median() (lines 116-118). *)
Definition dmedian (l : list double) : res double := dquantile l (dlit 1 (-1)).
