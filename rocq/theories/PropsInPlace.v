(** Property C109: filters in place. *)
From Verif Require Import Res VecModel TypesModel BoxModel RasterModel SamplingModel DistModel LineKernelModel MedianModel InterpModel
  InPlaceModel Spec BoxSpec RasterSpec KernelSpec DistSpec MedianSpec InPlaceSpec InPlaceProofs.

(** C109. A median filter in place, of a raster or of any decoration of it, is recursive: each pixel of the region becomes
    the median of its neighbors in the image whose former pixels are already filtered. The other pixels do not change. *)
Theorem C109_recursive : forall n f b view region r,
  f <> [] -> Forall2 Z.le f b -> windowSize f b mod 2 = 1 -> Nonempty region ->
  (forall p, InBox region p -> InDomain (rshape r) p) -> WF r -> length (rshape r) = length f ->
  (forall s p q, WF s -> rshape s = rshape r -> InBox region p -> InBox (mkBox f b) q -> exists v, view s (neighbor p q) = Ok v) ->
  exists enough, forall fuel, (enough <= fuel)%nat ->
  (exists o, selfApplyTo fuel n (mkBox f b) region view r o) /\
  forall o, selfApplyTo fuel n (mkBox f b) region view r o ->
    exists out, o = Ok out /\ WF out /\ rshape out = rshape r /\
      (forall p, InDomain (rshape r) p -> ~ InBox region p -> rget n out p = rget n r p) /\
      (forall p, InBox region p -> exists s v X, Halfway n region p r out s /\
        (forall q, InBox (mkBox f b) q -> view s (neighbor p q) = Ok (X (neighbor p q))) /\
        rget n out p = Ok v /\ WindowMedian f b X p v).
Proof. exact self_recursive. Qed.
Print Assumptions C109_recursive.

Example C109_recursive_met : WF noisy /\ windowSize [-1] [1] mod 2 = 1 /\
  forall (s : raster Q) p q, WF s -> rshape s = rshape noisy -> InBox (mkBox [1] [3]) p -> InBox (mkBox [-1] [1]) q -> exists v, rget 1 s (neighbor p q) = Ok v.
Proof. exact noisy_view. Qed.

(** It is the filter of the original image if the values which are read at any pixel do not depend on the already filtered
    ones. *)
Theorem C109_independent : forall n f b view region r X,
  f <> [] -> Forall2 Z.le f b -> windowSize f b mod 2 = 1 -> Nonempty region ->
  (forall p, InBox region p -> InDomain (rshape r) p) -> WF r -> length (rshape r) = length f ->
  (forall s p q, WF s -> rshape s = rshape r -> InBox region p -> InBox (mkBox f b) q -> exists v, view s (neighbor p q) = Ok v) ->
  (forall p q, InBox region p -> InBox (mkBox f b) q -> view r (neighbor p q) = Ok (X (neighbor p q))) ->
  (forall s p q, WF s -> rshape s = rshape r -> InBox region p -> InBox (mkBox f b) q ->
     (forall y, InDomain (rshape r) y -> ~ (InBox region y /\ lexLt y p) -> rget n s y = rget n r y) ->
     view s (neighbor p q) = view r (neighbor p q)) ->
  exists enough, forall fuel, (enough <= fuel)%nat ->
  (exists o, selfApplyTo fuel n (mkBox f b) region view r o) /\
  forall o, selfApplyTo fuel n (mkBox f b) region view r o ->
    exists out, o = Ok out /\ WF out /\ rshape out = rshape r /\
      (forall p, InBox region p -> exists v, rget n out p = Ok v /\ WindowMedian f b X p v) /\
      (forall p, InDomain (rshape r) p -> ~ InBox region p -> rget n out p = rget n r p).
Proof. exact self_right. Qed.
Print Assumptions C109_independent.

(** In particular if the window has no negative offset, for a raster... *)
Theorem C109_raster : forall n f b region r,
  f <> [] -> Forall2 Z.le f b -> windowSize f b mod 2 = 1 -> Nonempty region -> WF r -> length (rshape r) = length f ->
  (forall p q, InBox region p -> InBox (mkBox f b) q -> InDomain (rshape r) (neighbor p q)) ->
  (forall p, InBox region p -> InDomain (rshape r) p) -> Forall (fun x => 0 <= x) f ->
  exists X enough, (forall y, InDomain (rshape r) y -> rget n r y = Ok (X y)) /\ forall fuel, (enough <= fuel)%nat ->
  (exists o, selfApplyTo fuel n (mkBox f b) region (fun s => rget n s) r o) /\
  forall o, selfApplyTo fuel n (mkBox f b) region (fun s => rget n s) r o ->
    exists out, o = Ok out /\ WF out /\ rshape out = rshape r /\
      (forall p, InBox region p -> exists v, rget n out p = Ok v /\ WindowMedian f b X p v) /\
      (forall p, InDomain (rshape r) p -> ~ InBox region p -> rget n out p = rget n r p).
Proof. exact self_raster. Qed.
Print Assumptions C109_raster.

Example C109_raster_met : WF noisy /\ windowSize [0] [2] mod 2 = 1 /\
  forall p q, InBox (mkBox [0] [2]) p -> InBox (mkBox [0] [2]) q -> InDomain (rshape noisy) (neighbor p q).
Proof. exact noisy_met. Qed.

(** ... and for a raster extrapolated by its nearest pixels. *)
Theorem C109_nearest : forall n f b region r,
  f <> [] -> Forall2 Z.le f b -> windowSize f b mod 2 = 1 -> Nonempty region -> WF r -> length (rshape r) = length f -> Positive (rshape r) ->
  (forall p, InBox region p -> InDomain (rshape r) p) -> Forall (fun x => 0 <= x) f ->
  exists X enough, (forall y, length y = length f -> nearestAt n r y = Ok (X y)) /\ forall fuel, (enough <= fuel)%nat ->
  (exists o, selfApplyTo fuel n (mkBox f b) region (nearestAt n) r o) /\
  forall o, selfApplyTo fuel n (mkBox f b) region (nearestAt n) r o ->
    exists out, o = Ok out /\ WF out /\ rshape out = rshape r /\
      (forall p, InBox region p -> exists v, rget n out p = Ok v /\ WindowMedian f b X p v) /\
      (forall p, InDomain (rshape r) p -> ~ InBox region p -> rget n out p = rget n r p).
Proof. exact self_nearest. Qed.
Print Assumptions C109_nearest.

(** With a centered window, the result differs from that of the filter into another raster. *)
Theorem C109_refuted :
  (forall o, selfApplyTo 9 1 (mkBox [-1] [1]) (mkBox [1] [2]) (fun s => rget 1 s) noisy o ->
     o = Ok (mkRaster [5] [0; 1; 1; 6; 0]%Q)) /\
  (forall o, filterApplyTo 9 1 (mkBox [-1] [1]) (mkBox [1] [2]) (rget 1 noisy) noisy o ->
     o = Ok (mkRaster [5] [0; 1; 5; 6; 0]%Q)) /\
  (exists o, selfApplyTo 9 1 (mkBox [-1] [1]) (mkBox [1] [2]) (fun s => rget 1 s) noisy o).
Proof. exact in_place_differs. Qed.
Print Assumptions C109_refuted.

(** A line kernel without backward value can be applied in place, whatever the samples and the outcome... *)
Theorem C109_line : forall fuel k mem d,
  lorigin k = 0 -> 0 <= sfront (dSampling d) -> 0 < sstep (dSampling d) -> 0 < dStride d ->
  correlateSelf fuel k mem d = correlate fuel k mem d mem d.
Proof. exact line_self. Qed.
Print Assumptions C109_line.

Example C109_line_met :
  correlateSelf 10 (mkLkernel [1; 1; 1] 0) [1; 2; 3; 4] (mkDsamples 0 4 (mkSampling 0 3 1) 1) = Some (Ok [6; 9; 7; 4]).
Proof. reflexivity. Qed.

(** ... but others read values which are already modified. *)
Theorem C109_line_refuted :
  correlate 10 (mkLkernel [1; 1; 1] 1) [1; 2; 3; 4] (mkDsamples 0 4 (mkSampling 0 3 1) 1) [1; 2; 3; 4] (mkDsamples 0 4 (mkSampling 0 3 1) 1)
    = Some (Ok [3; 6; 9; 7]) /\
  correlateSelf 10 (mkLkernel [1; 1; 1] 1) [1; 2; 3; 4] (mkDsamples 0 4 (mkSampling 0 3 1) 1) = Some (Ok [3; 8; 15; 19]).
Proof. exact line_self_refuted. Qed.
Print Assumptions C109_line_refuted.
