(** Model of MedianFilter (LitlTransforms/LitlTransforms/MedianFilter.h) for any types of input and output pixels: in MedianModel.v, pixels are
    exact rationals and are not converted. *)
From Flocq Require Import IEEE754.BinarySingleNaN.
From Verif Require Import Res VecModel TypesModel BoxModel RasterModel SamplingModel DistModel WidthModel FloatModel QuantileModel NanModel.

Section TypedMedian.
Context {A B : Type}.
(** operator< of the input pixels. *)
Variable lt : A -> A -> bool.
(** Whether it is a strict weak ordering of some values, as std::nth_element requires ([alg.sorting.general]). *)
Variable ordered : list A -> bool.
(** The conversion of *n to the type of the output pixels (line 88). *)
Variable conv : A -> res B.
(** The conversion of ( *n + *(n + 1)) * .5 (line 91). *)
Variable middle : A -> A -> res B.
(** The value of new elements. *)
Variable zero : A.

(** MedianFilter::median (lines 81-92): the modified values and the result.
    std::nth_element(b, e, e) has no effect; reading the past-the-end element is undefined, as is n + 1 for an empty range. *)
Inductive typedMedian (l : list A) : list A -> res B -> Prop :=
| typed_unordered : ordered l = false -> typedMedian l l UB
| typed_odd l' x : let n := Z.of_nat (length l) / 2 in
    ordered l = true -> Z.of_nat (length l) mod 2 = 1 -> NthElement lt l n l' -> zget l' n = Ok x -> typedMedian l l' (conv x)
| typed_even l1 l2 x y : let n := Z.of_nat (length l) / 2 in
    ordered l = true -> Z.of_nat (length l) mod 2 = 0 -> n + 1 < Z.of_nat (length l) -> NthElement lt l n l1 -> NthElement lt l1 (n + 1) l2 ->
    zget l2 n = Ok x -> zget l2 (n + 1) = Ok y -> typedMedian l l2 (middle x y)
| typed_short : ordered l = true -> Z.of_nat (length l) mod 2 = 0 -> Z.of_nat (length l) / 2 + 1 >= Z.of_nat (length l) -> typedMedian l l UB.

(** The loop over the region in applyTo (lines 66-72), where [ext] is in[q]. *)
Inductive typedLoop (fuel : nat) (n : Z) (window : box) (ext : list Z -> res A) : list (list Z) -> list A -> raster B -> res (raster B) -> Prop :=
| typed_done buffer out : typedLoop fuel n window ext [] buffer out (Ok out)
| typed_step p ps buffer out qs xs l' v out' r :
    boxForeach fuel (boxShift window p) = Some (Ok qs) -> mapRes ext qs = Ok xs -> (length xs <= length buffer)%nat ->
    typedMedian (xs ++ skipn (length xs) buffer) l' (Ok v) -> rset n out p v = Ok out' ->
    typedLoop fuel n window ext ps l' out' r -> typedLoop fuel n window ext (p :: ps) buffer out r
| typed_read p ps buffer out qs :
    boxForeach fuel (boxShift window p) = Some (Ok qs) -> mapRes ext qs = UB -> typedLoop fuel n window ext (p :: ps) buffer out UB
| typed_over p ps buffer out qs xs :
    boxForeach fuel (boxShift window p) = Some (Ok qs) -> mapRes ext qs = Ok xs -> (length buffer < length xs)%nat ->
    typedLoop fuel n window ext (p :: ps) buffer out UB
| typed_median p ps buffer out qs xs l' :
    boxForeach fuel (boxShift window p) = Some (Ok qs) -> mapRes ext qs = Ok xs -> (length xs <= length buffer)%nat ->
    typedMedian (xs ++ skipn (length xs) buffer) l' UB -> typedLoop fuel n window ext (p :: ps) buffer out UB
| typed_write p ps buffer out qs xs l' v :
    boxForeach fuel (boxShift window p) = Some (Ok qs) -> mapRes ext qs = Ok xs -> (length xs <= length buffer)%nat ->
    typedMedian (xs ++ skipn (length xs) buffer) l' (Ok v) -> rset n out p v = UB ->
    typedLoop fuel n window ext (p :: ps) buffer out UB.

(** applyTo (lines 62-73). *)
Inductive typedApplyTo (fuel : nat) (n : Z) (window region : box) (ext : list Z -> res A) (out : raster B) : res (raster B) -> Prop :=
| typed_apply ps r : boxForeach fuel region = Some (Ok ps) ->
    typedLoop fuel n window ext ps (repeat zero (Z.to_nat (boxSize window))) out r -> typedApplyTo fuel n window region ext out r.
End TypedMedian.

(** A double to an integer of type [u]: truncation, undefined if not representable ([conv.fpint]). *)
Definition dtruncTo (u : itype) (x : double) : res Z :=
  match x with
  | B754_zero _ => Ok 0
  | B754_finite s m e _ =>
      let a := if 0 <=? e then Zpos m * 2 ^ e else Zpos m / 2 ^ (- e) in
      let z := if s then - a else a in
      if fits u z then Ok z else UB
  | _ => UB
  end.

(** The half sum (MedianFilter.h: 80-92) of integers of type [t]: the sum is made in the promoted type, then converted to double; of doubles. *)
Definition halfInt (t : itype) (x y : Z) : res double := s <- computed t (x + y) ;; Ok (dmul (dofZ s) (dlit 1 (-1))).
Definition halfDouble (x y : double) : double := dmul (dadd x y) (dlit 1 (-1)).

(** applyTo (MedianFilter.h: 62-73) from integers of type [t] to integers of type [u], from integers to doubles, from doubles to doubles, from doubles to integers. *)
Definition intFilter (t u : itype) :=
  typedApplyTo Z.ltb (fun _ => true) (fun x => Ok (convert u x)) (fun x y => h <- halfInt t x y ;; dtruncTo u h) 0.
Definition intDoubleFilter (t : itype) := typedApplyTo Z.ltb (fun _ => true) (fun x => Ok (dofZ x)) (halfInt t) 0.
Definition doubleFilter := typedApplyTo dltb comparable (@Ok double) (fun x y => Ok (halfDouble x y)) (dofZ 0).
Definition doubleIntFilter (u : itype) := typedApplyTo dltb comparable (dtruncTo u) (fun x y => dtruncTo u (halfDouble x y)) (dofZ 0).
