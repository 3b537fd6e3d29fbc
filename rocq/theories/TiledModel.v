(** Model of calls to MedianFilter::applyTo (LitlTransforms/LitlTransforms/MedianFilter.h: 62-73) on several regions of the same output, by several threads or one after the other:
    the input and the filter are only read, and the neighbors are local to each call (line 64). *)
From Verif Require Import Res VecModel BoxModel RasterModel SamplingModel DistModel WidthModel TypedMedianModel.

Section Tiled.
Context {A B : Type}.
(** As in TypedMedianModel. *)
Variables (lt : A -> A -> bool) (ordered : list A -> bool) (conv : A -> res B) (middle : A -> A -> res B) (zero : A).

(** A call: the positions which are still to be filtered, and its vector of neighbors. *)
Record call := mkCall { ctodo : list (list Z); cneighbors : list A }.

(** One iteration of the loop over the region (lines 66-72): its only access to memory which another call may access is the write out[p].
    Simplification: iterations of different calls do not overlap in time; where the calls write different cells and the input is not written,
    any execution is equivalent to one of those. *)
Inductive callStep (fuel : nat) (n : Z) (window : box) (ext : list Z -> res A) : call -> raster B -> call -> raster B -> Prop :=
| call_step p ps buffer out qs xs l' v out' :
    boxForeach fuel (boxShift window p) = Some (Ok qs) -> mapRes ext qs = Ok xs -> (length xs <= length buffer)%nat ->
    typedMedian lt ordered conv middle (xs ++ skipn (length xs) buffer) l' (Ok v) -> rset n out p v = Ok out' ->
    callStep fuel n window ext (mkCall (p :: ps) buffer) out (mkCall ps l') out'.

(** An iteration whose behavior is undefined. *)
Inductive callFails (fuel : nat) (n : Z) (window : box) (ext : list Z -> res A) : call -> raster B -> Prop :=
| fails_read p ps buffer out qs :
    boxForeach fuel (boxShift window p) = Some (Ok qs) -> mapRes ext qs = UB -> callFails fuel n window ext (mkCall (p :: ps) buffer) out
| fails_over p ps buffer out qs xs :
    boxForeach fuel (boxShift window p) = Some (Ok qs) -> mapRes ext qs = Ok xs -> (length buffer < length xs)%nat ->
    callFails fuel n window ext (mkCall (p :: ps) buffer) out
| fails_median p ps buffer out qs xs l' :
    boxForeach fuel (boxShift window p) = Some (Ok qs) -> mapRes ext qs = Ok xs -> (length xs <= length buffer)%nat ->
    typedMedian lt ordered conv middle (xs ++ skipn (length xs) buffer) l' UB -> callFails fuel n window ext (mkCall (p :: ps) buffer) out
| fails_write p ps buffer out qs xs l' v :
    boxForeach fuel (boxShift window p) = Some (Ok qs) -> mapRes ext qs = Ok xs -> (length xs <= length buffer)%nat ->
    typedMedian lt ordered conv middle (xs ++ skipn (length xs) buffer) l' (Ok v) -> rset n out p v = UB ->
    callFails fuel n window ext (mkCall (p :: ps) buffer) out.

(** All the interleavings of calls. *)
Inductive interleaved (fuel : nat) (n : Z) (window : box) (ext : list Z -> res A) : list call -> raster B -> res (raster B) -> Prop :=
| all_done calls out : Forall (fun c => ctodo c = []) calls -> interleaved fuel n window ext calls out (Ok out)
| one_step calls i c c' out out' r : nth_error calls i = Some c -> callStep fuel n window ext c out c' out' ->
    interleaved fuel n window ext (replace calls i c') out' r -> interleaved fuel n window ext calls out r
| one_fails calls i c out : nth_error calls i = Some c -> callFails fuel n window ext c out -> interleaved fuel n window ext calls out UB.

(** applyTo on each region. *)
Inductive tiledApplyTo (fuel : nat) (n : Z) (window : box) (regions : list box) (ext : list Z -> res A) (out : raster B) : res (raster B) -> Prop :=
| tiled_apply pss r : Forall2 (fun region ps => boxForeach fuel region = Some (Ok ps)) regions pss ->
    interleaved fuel n window ext (map (fun ps => mkCall ps (repeat zero (Z.to_nat (boxSize window)))) pss) out r ->
    tiledApplyTo fuel n window regions ext out r.

(** What the calls may have done at some moment of an execution. *)
Inductive reaches (fuel : nat) (n : Z) (window : box) (ext : list Z -> res A) (calls : list call) (out : raster B) : list call -> raster B -> Prop :=
| reach_start : reaches fuel n window ext calls out calls out
| reach_step calls' i c c' out' out'' : reaches fuel n window ext calls out calls' out' -> nth_error calls' i = Some c -> callStep fuel n window ext c out' c' out'' ->
    reaches fuel n window ext calls out (replace calls' i c') out''.
Inductive tiledReaches (fuel : nat) (n : Z) (window : box) (regions : list box) (ext : list Z -> res A) (out : raster B) : list call -> raster B -> Prop :=
| tiled_reaches pss calls' out' : Forall2 (fun region ps => boxForeach fuel region = Some (Ok ps)) regions pss ->
    reaches fuel n window ext (map (fun ps => mkCall ps (repeat zero (Z.to_nat (boxSize window)))) pss) out calls' out' ->
    tiledReaches fuel n window regions ext out calls' out'.
End Tiled.
Arguments call : clear implicits.

(** From integers of type [t] to integers of type [u]. *)
Definition intTiled (t u : itype) :=
  tiledApplyTo Z.ltb (fun _ => true) (fun x => Ok (convert u x)) (fun x y => h <- halfInt t x y ;; dtruncTo u h) 0.

(** applyTo(raster, raster, region): the output is the input. Each iteration reads the raster as the previous ones left it. *)
Inductive inPlaceLoop (fuel : nat) (t : itype) (n : Z) (window : box) : list (list Z) -> list Z -> raster Z -> res (raster Z) -> Prop :=
| place_done buffer out : inPlaceLoop fuel t n window [] buffer out (Ok out)
| place_step p ps buffer out c' out' r :
    callStep Z.ltb (fun _ => true) (fun x => Ok (convert t x)) (fun x y => h <- halfInt t x y ;; dtruncTo t h) fuel n window (rget n out) (mkCall (p :: ps) buffer) out c' out' ->
    inPlaceLoop fuel t n window (ctodo c') (cneighbors c') out' r -> inPlaceLoop fuel t n window (p :: ps) buffer out r
| place_fails p ps buffer out :
    callFails Z.ltb (fun _ => true) (fun x => Ok (convert t x)) (fun x y => h <- halfInt t x y ;; dtruncTo t h) fuel n window (rget n out) (mkCall (p :: ps) buffer) out ->
    inPlaceLoop fuel t n window (p :: ps) buffer out UB.
Inductive inPlace (fuel : nat) (t : itype) (n : Z) (window region : box) (out : raster Z) : res (raster Z) -> Prop :=
| place_apply ps r : boxForeach fuel region = Some (Ok ps) ->
    inPlaceLoop fuel t n window ps (repeat 0 (Z.to_nat (boxSize window))) out r -> inPlace fuel t n window region out r.
