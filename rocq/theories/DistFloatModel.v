(** Model of the quantiles and median absolute deviation of a DataDistribution of doubles, sorted or not, with rounding
    (LitlContainer/LitlContainer/DataDistribution.h). In DistModel.v values are exact rationals, and in QuantileModel.v they are sorted.
    Simplification: std::is_sorted and std::nth_element are defined for any values, whereas the standard requires that none is NaN
    (or that no value is less than another one, see C96); the theorems are about finite values. *)
From Flocq Require Import IEEE754.BinarySingleNaN.
From Verif Require Import Res DistModel FloatModel QuantileModel.

(** The operands nth(f) and nth(f + 1) of + (line 154), in any order of evaluation (see [twoNth] in DistModel.v). *)
Inductive dtwoNth (o : evalOrder) (d : dist double) (f : Z) : dist double -> res double -> res double -> Prop :=
| dtwo_left d1 d2 x y : o = ReadLeftFirst -> nthCall dltb d f d1 x -> nthCall dltb d1 (f + 1) d2 y -> dtwoNth o d f d2 x y
| dtwo_right d1 d2 x y : o = ReadRightFirst -> nthCall dltb d (f + 1) d1 y -> nthCall dltb d1 f d2 x -> dtwoNth o d f d2 x y
| dtwo_call_left d1 d2 x y : o = CallLeftFirst -> nthCall dltb d f d1 x -> nthCall dltb d1 (f + 1) d2 y ->
    dtwoNth o d f d2 (zget (dvalues d2) f) y
| dtwo_call_right d1 d2 x y : o = CallRightFirst -> nthCall dltb d (f + 1) d1 y -> nthCall dltb d1 f d2 x ->
    dtwoNth o d f d2 x (zget (dvalues d2) (f + 1)).

(** n = q * (size() - 1) (line 148): the size is unsigned, and is converted to double. *)
Definition drank (d : dist double) (q : double) : double := dmul q (dofZ (u64 (Z.of_nat (length (dvalues d)) - 1))).

(** quantile(q) (lines 147-155). *)
Inductive dquantileCall (o : evalOrder) (d : dist double) (q : double) : dist double -> res double -> Prop :=
| dquantile_undefined : dtruncU (drank d q) = UB -> dquantileCall o d q d UB
| dquantile_exact f d' r : dtruncU (drank d q) = Ok f -> deqb (drank d q) (dofZ f) = true ->
    nthCall dltb d f d' r -> dquantileCall o d q d' r
| dquantile_between f d' x y : dtruncU (drank d q) = Ok f -> deqb (drank d q) (dofZ f) = false ->
    dtwoNth o d f d' x y ->
    dquantileCall o d q d'
      (let w := dsub (drank d q) (dofZ f) in x <- x ;; y <- y ;; Ok (dadd (dmul x w) (dmul y (dsub (dofZ 1) w)))).

(** median() (lines 116-118). *)
Definition dmedianCall (o : evalOrder) (d d' : dist double) (r : res double) : Prop := dquantileCall o d (dlit 1 (-1)) d' r.

(** The deviations from [m] (lines 133-135), std::abs of a double. *)
Definition ddeviations (l : list double) (m : double) : list double := map (fun e => Babs (dsub e m)) l.

(** mad() (lines 130-137): the deviations are the values of another distribution. *)
Inductive dmadCall (o : evalOrder) (d : dist double) : dist double -> res double -> Prop :=
| dmad_undefined d' : dmedianCall o d d' UB -> dmadCall o d d' UB
| dmad_call d' m d'' r : dmedianCall o d d' (Ok m) ->
    dmedianCall o (distMake dltb (ddeviations (dvalues d') m)) d'' r -> dmadCall o d d' r.
