(** Model of MedianFilter (LitlTransforms/LitlTransforms/MedianFilter.h). Values are exact rationals.
    StructuringElement.h holds the same computation but does not compile (undeclared names in loadNeighbors). *)
From Verif Require Import Res VecModel TypesModel BoxModel RasterModel SamplingModel DistModel.

(** MedianFilter::median (lines 81-92): the modified values and the result.
    std::nth_element(b, e, e) has no effect; [n + 1] past the end of an empty range is undefined.
    Simplification: the result is not converted to the output type. *)
Inductive filterMedian (l : list Q) : list Q -> res Q -> Prop :=
| median_odd l' : let n := Z.of_nat (length l) / 2 in
    Z.of_nat (length l) mod 2 = 1 -> NthElement qltb l n l' -> filterMedian l l' (zget l' n)
| median_even l1 l2 : let n := Z.of_nat (length l) / 2 in
    Z.of_nat (length l) mod 2 = 0 -> n + 1 < Z.of_nat (length l) -> NthElement qltb l n l1 -> NthElement qltb l1 (n + 1) l2 ->
    filterMedian l l2 (x <- zget l2 n ;; y <- zget l2 (n + 1) ;; Ok ((x + y) * (1 # 2))%Q)
| median_two l1 : let n := Z.of_nat (length l) / 2 in
    Z.of_nat (length l) mod 2 = 0 -> n + 1 = Z.of_nat (length l) -> NthElement qltb l n l1 ->
    filterMedian l l1 (x <- zget l1 n ;; y <- zget l1 (n + 1) ;; Ok ((x + y) * (1 # 2))%Q)
| median_none : l = [] -> filterMedian l l UB.

(** The loop over the region in applyTo (lines 66-72). [ext] is in[q], raster or extrapolator;
    the iterator is moved back to the first neighbor after each pixel.
    [fuel] bounds the iterations over the window; the positions [ps] are those of the region. *)
Inductive filterLoop (fuel : nat) (n : Z) (window : box) (ext : list Z -> res Q) :
  list (list Z) -> list Q -> raster Q -> res (raster Q) -> Prop :=
| filter_done buffer out : filterLoop fuel n window ext [] buffer out (Ok out)
| filter_step p ps buffer out qs xs l' v out' r :
    boxForeach fuel (boxShift window p) = Some (Ok qs) -> mapRes ext qs = Ok xs -> (length xs <= length buffer)%nat ->
    filterMedian (xs ++ skipn (length xs) buffer) l' (Ok v) -> rset n out p v = Ok out' ->
    filterLoop fuel n window ext ps l' out' r -> filterLoop fuel n window ext (p :: ps) buffer out r
| filter_read p ps buffer out qs :
    boxForeach fuel (boxShift window p) = Some (Ok qs) -> mapRes ext qs = UB -> filterLoop fuel n window ext (p :: ps) buffer out UB
| filter_over p ps buffer out qs xs :
    boxForeach fuel (boxShift window p) = Some (Ok qs) -> mapRes ext qs = Ok xs -> (length buffer < length xs)%nat ->
    filterLoop fuel n window ext (p :: ps) buffer out UB
| filter_median p ps buffer out qs xs l' :
    boxForeach fuel (boxShift window p) = Some (Ok qs) -> mapRes ext qs = Ok xs -> (length xs <= length buffer)%nat ->
    filterMedian (xs ++ skipn (length xs) buffer) l' UB -> filterLoop fuel n window ext (p :: ps) buffer out UB
| filter_write p ps buffer out qs xs l' v :
    boxForeach fuel (boxShift window p) = Some (Ok qs) -> mapRes ext qs = Ok xs -> (length xs <= length buffer)%nat ->
    filterMedian (xs ++ skipn (length xs) buffer) l' (Ok v) -> rset n out p v = UB ->
    filterLoop fuel n window ext (p :: ps) buffer out UB.

(** applyTo (lines 62-73). *)
Inductive filterApplyTo (fuel : nat) (n : Z) (window region : box) (ext : list Z -> res Q) (out : raster Q) : res (raster Q) -> Prop :=
| filter_apply ps r : boxForeach fuel region = Some (Ok ps) ->
    filterLoop fuel n window ext ps (repeat 0%Q (Z.to_nat (boxSize window))) out r -> filterApplyTo fuel n window region ext out r.

(** apply (lines 49-54): the region is the domain of the output. *)
Inductive filterApply (fuel : nat) (n : Z) (window : box) (shape : list Z) (ext : list Z -> res Q) : res (raster Q) -> Prop :=
| filter_all d r : rdomain n shape = Ok d ->
    filterApplyTo fuel n window d ext (mkRaster shape (repeat 0%Q (Z.to_nat (shapeSize shape)))) r -> filterApply fuel n window shape ext r.

(** MedianFilter(radius) (line 43). *)
Definition filterWindow (n radius : Z) : box := fromCenter radius (vzero n).
