(** Model of the functions which compare values of type double, when some of them may be NaN. *)
From Flocq Require Import IEEE754.BinarySingleNaN.
From Verif Require Import Res ContainerModel FloatModel QuantileModel.

(** The standard algorithms require that < is a strict weak ordering of the values ([alg.sorting.general]).
    That is the case if none is NaN, or if no value is less than another one (see C96_order). *)
Definition comparable (l : list double) : bool := forallb (fun x => negb (is_nan x)) l || forallb (fun x => forallb (fun y => negb (dltb x y)) l) l.

(** min(), max(), minmax() of doubles (LitlContainer/LitlContainer/DataContainer.h: 222-241):
    std::min_element, std::max_element and std::minmax_element are undefined for other values. *)
Definition dmin (l : list double) : res (Z * double) := if comparable l then cmin dltb l else UB.
Definition dmaxElement (l : list double) : res (Z * double) := if comparable l then cmax dltb l else UB.
Definition dminmax (l : list double) : res ((Z * double) * (Z * double)) := if comparable l then cminmax dltb l else UB.
