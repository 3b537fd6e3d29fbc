(** Property C115: ND kernels in place. *)
From Verif Require Import Res VecModel BoxModel RasterModel TypedKernelModel InterpModel InPlaceKernelModel
  Spec BoxSpec RasterSpec KernelSpec TypedKernelSpec InPlaceKernelSpec InPlaceOrderSpec InPlaceKernelProofs InPlaceOrderProofs TypedOriginProofs.

(** C115. A kernel whose window has no negative offset can be applied in place, whatever the dimension, the types, the values and the outcome (including undefined behaviour):
    the raster becomes what another one would get. The extrapolation must read pixels at or after the positions only.
    Partial: the window fits in the raster; with negative offsets see C115_order_partial. *)
Theorem C115_forward_partial : forall X V (zero : V) (inner : V -> V -> X -> res V) border store back view n shape f b values data,
  n = Z.of_nat (length shape) -> shape <> [] -> Positive shape -> Z.of_nat (length data) = prod shape -> length f = length shape ->
  Forall2 (fun x y => x = 0 /\ 0 <= y) f b -> (exists p, length p = length shape /\ Inner shape f b p) -> LooksAhead n shape view ->
  exists enough, forall fuel, (enough <= fuel)%nat ->
    correlateSelfG zero inner border store back view fuel n values (mkBox f b) (mkRaster shape data) =
    correlateToG zero inner border store back fuel n values (mkBox f b) (mkRaster shape data) (view (mkRaster shape data)) (mkRaster shape data).
Proof. exact @self_same. Qed.
Print Assumptions C115_forward_partial.

Example C115_forward_met :
  LooksAhead 2 [3; 3] (nearestAt (A := Z) 2) /\ Positive [3; 3] /\ Forall2 (fun x y => x = 0 /\ 0 <= y) [0; 0] [1; 1] /\ Inner [3; 3] [0; 0] [1; 1] [0; 0] /\
  selfCorrelate (nearestAt 2) 20 2 [1; 1; 1; 1] (mkBox [0; 0] [1; 1]) ninePixels = Some (Ok (mkRaster [3; 3] [12; 16; 18; 20; 28; 30; 30; 34; 36])).
Proof. exact nine_met. Qed.

(** If the extrapolation has a value everywhere and the computations throw no exception, this is the result in any other raster, whatever its initial pixels. *)
Theorem C115_other_partial : forall X V (zero : V) (inner : V -> V -> X -> res V) border store back view,
  (forall a k x, NoThrow (inner a k x)) -> (forall a k x, NoThrow (border a k x)) -> (forall x, NoThrow (store x)) -> (forall v, NoThrow (back v)) ->
  forall n shape f b values data image out, n = Z.of_nat (length shape) -> Applies shape f b values data (view (mkRaster shape data)) image ->
  Forall (fun x => x = 0) f -> LooksAhead n shape view -> WF out -> rshape out = shape ->
  exists enough, forall fuel, (enough <= fuel)%nat ->
    correlateSelfG zero inner border store back view fuel n values (mkBox f b) (mkRaster shape data) =
    correlateToG zero inner border store back fuel n values (mkBox f b) (mkRaster shape data) (view (mkRaster shape data)) out.
Proof. exact @self_other. Qed.
Print Assumptions C115_other_partial.

Example C115_other_met : Applies [3; 3] [0; 0] [1; 1] [1; 1; 1; 1] (rdata ninePixels) (nearestAt 2 ninePixels)
    (fun p => nth (Z.to_nat (rank [3; 3] (vclamp p [3; 3]))) (rdata ninePixels) 0) /\ Forall (fun x => x = 0) [0; 0].
Proof. exact nine_applies. Qed.

(** The extrapolations by the nearest pixel and by a constant are such. *)
Theorem C115_nearest_partial : forall X V (zero : V) (inner : V -> V -> X -> res V) border store back n shape f b values data,
  n = Z.of_nat (length shape) -> shape <> [] -> Positive shape -> Z.of_nat (length data) = prod shape -> length f = length shape ->
  Forall2 (fun x y => x = 0 /\ 0 <= y) f b -> (exists p, length p = length shape /\ Inner shape f b p) ->
  exists enough, forall fuel, (enough <= fuel)%nat ->
    correlateSelfG zero inner border store back (nearestAt n) fuel n values (mkBox f b) (mkRaster shape data) =
    correlateToG zero inner border store back fuel n values (mkBox f b) (mkRaster shape data) (nearestAt n (mkRaster shape data)) (mkRaster shape data).
Proof. exact @self_nearest_same. Qed.
Print Assumptions C115_nearest_partial.

Theorem C115_constant_partial : forall X V (zero : V) (inner : V -> V -> X -> res V) border store back n shape f b values data c,
  n = Z.of_nat (length shape) -> shape <> [] -> Positive shape -> Z.of_nat (length data) = prod shape -> length f = length shape ->
  Forall2 (fun x y => x = 0 /\ 0 <= y) f b -> (exists p, length p = length shape /\ Inner shape f b p) ->
  exists enough, forall fuel, (enough <= fuel)%nat ->
    correlateSelfG zero inner border store back (constantAt n c) fuel n values (mkBox f b) (mkRaster shape data) =
    correlateToG zero inner border store back fuel n values (mkBox f b) (mkRaster shape data) (constantAt n c (mkRaster shape data)) (mkRaster shape data).
Proof. exact @self_constant_same. Qed.
Print Assumptions C115_constant_partial.

(** Whatever the offsets and the types: the pixels are replaced one after the other, first those around which the window is in the domain, then axis by axis those
    before and after them. Each of them gets what a kernel would give for the raster as the former replacements left it: see C113 for [Gets].
    Partial: the window contains the origin and fits in the raster, the extrapolation has a value everywhere. *)
Theorem C115_order_partial : forall X V (zero : V) (inner : V -> V -> X -> res V) border store back view image n shape f b values data,
  n = Z.of_nat (length shape) -> AppliesInPlace shape f b values data view image ->
  exists order outcome enough, VisitOrder shape f b order /\ Replaced zero inner border store back shape f b values image order (mkRaster shape data) outcome /\
    forall fuel, (enough <= fuel)%nat -> correlateSelfG zero inner border store back view fuel n values (mkBox f b) (mkRaster shape data) = Some outcome.
Proof. exact @in_place_order. Qed.
Print Assumptions C115_order_partial.

Example C115_order_met :
  AppliesInPlace [3; 3] [-1; -1] [1; 1] (repeat 1 9) (rdata ninePixels) (nearestAt 2) (fun r q => nth (Z.to_nat (rank [3; 3] (vclamp q [3; 3]))) (rdata r) 0) /\
  VisitOrder [3; 3] [-1; -1] [1; 1] [[1; 1]; [0; 1]; [2; 1]; [0; 0]; [1; 0]; [2; 0]; [0; 2]; [1; 2]; [2; 2]].
Proof. exact nine_order. Qed.

(** There is only one such order and one such outcome. *)
Theorem C115_unique_partial : forall X V (zero : V) (inner : V -> V -> X -> res V) border store back (view : raster X -> list Z -> res X) image shape f b values data order order' outcome outcome',
  AppliesInPlace shape f b values data view image -> VisitOrder shape f b order -> VisitOrder shape f b order' ->
  Replaced zero inner border store back shape f b values image order (mkRaster shape data) outcome ->
  Replaced zero inner border store back shape f b values image order' (mkRaster shape data) outcome' -> order = order' /\ outcome = outcome'.
Proof. exact @in_place_unique. Qed.
Print Assumptions C115_unique_partial.

Example C115_unique_met :
  AppliesInPlace [3; 3] [-1; -1] [1; 1] (repeat 1 9) (rdata ninePixels) (nearestAt 2) (fun r q => nth (Z.to_nat (rank [3; 3] (vclamp q [3; 3]))) (rdata r) 0) /\
  VisitOrder [3; 3] [-1; -1] [1; 1] [[1; 1]; [0; 1]; [2; 1]; [0; 0]; [1; 0]; [2; 0]; [0; 2]; [1; 2]; [2; 2]].
Proof. exact nine_order. Qed.

(** With a negative offset, along the first axis or another one, pixels are read after they are modified... *)
Theorem C115_backward_refuted :
  selfCorrelate (nearestAt 1) 20 1 [1; 1; 1] (mkBox [-1] [1]) fourPixels = Some (Ok (mkRaster [4] [8; 6; 13; 21])) /\
  otherCorrelate 20 1 [1; 1; 1] (mkBox [-1] [1]) fourPixels (nearestAt 1 fourPixels) fourPixels = Some (Ok (mkRaster [4] [4; 6; 9; 11])).
Proof. exact backward_differs. Qed.
Print Assumptions C115_backward_refuted.

Theorem C115_rows_refuted :
  selfCorrelate (nearestAt 2) 20 2 [1; 1] (mkBox [0; -1] [0; 0]) ninePixels = Some (Ok (mkRaster [3; 3] [2; 4; 6; 5; 7; 9; 12; 15; 18])) /\
  otherCorrelate 20 2 [1; 1] (mkBox [0; -1] [0; 0]) ninePixels (nearestAt 2 ninePixels) ninePixels = Some (Ok (mkRaster [3; 3] [2; 4; 6; 5; 7; 9; 11; 13; 15])).
Proof. exact rows_differ. Qed.
Print Assumptions C115_rows_refuted.

(** ... and also without, if the extrapolation is periodic. *)
Theorem C115_periodic_refuted :
  selfCorrelate (periodicAt 1) 20 1 [1; 1] (mkBox [0] [1]) fourPixels = Some (Ok (mkRaster [4] [3; 5; 7; 7])) /\
  otherCorrelate 20 1 [1; 1] (mkBox [0] [1]) fourPixels (periodicAt 1 fourPixels) fourPixels = Some (Ok (mkRaster [4] [3; 5; 7; 5])).
Proof. exact periodic_differs. Qed.
Print Assumptions C115_periodic_refuted.

(** A window which fits in the raster but does not contain the origin: undefined behaviour, whatever the types, the values, the pixels and the extrapolation. *)
Theorem C115_origin_refuted : forall {X V : Type} (zero : V) (inner : V -> V -> X -> res V) (border : V -> V -> V -> res V) (store : X -> res V) (back : V -> res X),
  (forall a k x, NoThrow (inner a k x)) -> (forall a k x, NoThrow (border a k x)) -> (forall x, NoThrow (store x)) -> (forall v, NoThrow (back v)) ->
  forall view n shape f b values r, shape <> [] -> n = Z.of_nat (length shape) -> Positive shape ->
  length f = length shape -> Forall2 Z.le f b -> Forall2 (fun w s => w <= s) (map (fun xy => snd xy - fst xy + 1) (combine f b)) shape -> WF r -> rshape r = shape ->
  (forall s q, NoThrow (view s q)) -> (Exists (fun x => 0 < x) f \/ Exists (fun y => y < 0) b) ->
  exists enough, forall fuel, (enough <= fuel)%nat -> correlateSelfG zero inner border store back view fuel n values (mkBox f b) r = Some UB.
Proof. exact @kernel_originS. Qed.
Print Assumptions C115_origin_refuted.
Example C115_origin_met : selfCorrelate (nearestAt 2) 20 2 [1; 2] (mkBox [1; -1] [1; 0]) ninePixels = Some UB /\
  Forall2 (fun w s => w <= s) (map (fun xy => snd xy - fst xy + 1) (combine [1; -1] [1; 0])) [3; 3] /\
  forall (s : raster Z) q, NoThrow (nearestAt 2 s q).
Proof.
  split; [vm_compute; reflexivity|]. split; [repeat constructor; discriminate|]. now apply nearest_nothrow.
Qed.
