(** C40: median filter. *)
From Coq Require Import Permutation.
From Verif Require Import Res VecModel TypesModel BoxModel RasterModel SamplingModel DistModel MedianModel
  Spec BoxSpec RasterSpec KernelSpec DistSpec MedianSpec BoxIterProofs MedianProofs.

(** C40. The median of an odd number of values. *)
Theorem C40_odd_partial : forall l s l' r, Sorting qltb l s -> Z.of_nat (length l) mod 2 = 1 -> filterMedian l l' r ->
  Permutation l l' /\ exists v, r = Ok v /\ Median s v.
Proof. exact filter_odd. Qed.
Print Assumptions C40_odd_partial.
Example C40_odd_met : exists l' r, filterMedian [3; 1; 2]%Q l' r.
Proof. apply filter_possible. discriminate. Qed.

(** The filter with an odd number of neighbors, on a region of the output: the other pixels do not change. *)
Theorem C40_region_partial : forall n f b X, f <> [] -> Forall2 Z.le f b -> windowSize f b mod 2 = 1 -> forall region out ext,
  (forall p q, InBox region p -> InBox (mkBox f b) q -> ext (neighbor p q) = Ok (X (neighbor p q))) -> Nonempty region -> (forall p, InBox region p -> InDomain (rshape out) p) ->
  WF out -> length (rshape out) = length f ->
  exists enough, forall fuel, (enough <= fuel)%nat ->
  (exists r, filterApplyTo fuel n (mkBox f b) region ext out r) /\
  forall r, filterApplyTo fuel n (mkBox f b) region ext out r ->
    exists out', r = Ok out' /\ WF out' /\ rshape out' = rshape out /\
      (forall p, InBox region p -> exists v, rget n out' p = Ok v /\ WindowMedian f b X p v) /\
      (forall p, InDomain (rshape out) p -> ~ InBox region p -> rget n out' p = rget n out p).
Proof. exact filter_to. Qed.
Print Assumptions C40_region_partial.
Example C40_region_met : windowSize [-1; 0] [1; 4] mod 2 = 1.
Proof. reflexivity. Qed.

(** In particular, without extrapolation, if the neighbors of the region are in the domain. *)
Theorem C40_raster_partial : forall n f b region (r out : raster Q), f <> [] -> Forall2 Z.le f b -> windowSize f b mod 2 = 1 -> Nonempty region -> WF r -> WF out ->
  length (rshape out) = length f -> (forall p, InBox region p -> InDomain (rshape out) p) ->
  (forall p q, InBox region p -> InBox (mkBox f b) q -> InDomain (rshape r) (neighbor p q)) ->
  exists X, (forall q, InDomain (rshape r) q -> rget n r q = Ok (X q)) /\
  exists enough, forall fuel, (enough <= fuel)%nat ->
  (exists r', filterApplyTo fuel n (mkBox f b) region (rget n r) out r') /\
  forall r', filterApplyTo fuel n (mkBox f b) region (rget n r) out r' ->
    exists out', r' = Ok out' /\ WF out' /\ rshape out' = rshape out /\
      (forall p, InBox region p -> exists v, rget n out' p = Ok v /\ WindowMedian f b X p v) /\
      (forall p, InDomain (rshape out) p -> ~ InBox region p -> rget n out' p = rget n out p).
Proof. exact filter_raster. Qed.
Print Assumptions C40_raster_partial.
Example C40_raster_met : windowSize [-1] [1] mod 2 = 1 /\ Nonempty (mkBox [1] [2]) /\
  forall p q, InBox (mkBox [1] [2]) p -> InBox (mkBox [-1] [1]) q -> InDomain [4] (neighbor p q).
Proof.
  split; [reflexivity|]. split; [exists [1]; constructor; [lia|constructor]|]. intros p q Hp Hq. inversion Hp as [|? ? ? ? ? ? P1 P2]; subst. inversion P2; subst.
  inversion Hq as [|? ? ? ? ? ? Q1 Q2]; subst. inversion Q2; subst. constructor; [cbn in *; lia|constructor].
Qed.

(** If some neighbor cannot be read, the behavior is undefined. *)
Theorem C40_outside : forall n f b X, f <> [] -> Forall2 Z.le f b -> windowSize f b mod 2 = 1 -> forall region out ext,
  (forall p q, InBox region p -> InBox (mkBox f b) q -> ext (neighbor p q) = Ok (X (neighbor p q)) \/ ext (neighbor p q) = UB) ->
  (exists p q, InBox region p /\ InBox (mkBox f b) q /\ ext (neighbor p q) = UB) -> (forall p, InBox region p -> InDomain (rshape out) p) ->
  WF out -> length (rshape out) = length f ->
  exists enough, forall fuel, (enough <= fuel)%nat ->
  (exists r, filterApplyTo fuel n (mkBox f b) region ext out r) /\ forall r, filterApplyTo fuel n (mkBox f b) region ext out r -> r = UB.
Proof. exact filter_outside. Qed.
Print Assumptions C40_outside.
Example C40_outside_met : rget 1 (mkRaster [3] [5; 6; 7]%Q) (neighbor [2] [1]) = UB /\ InBox (mkBox [0] [2]) [2] /\ InBox (mkBox [-1] [1]) [1].
Proof. split; [reflexivity|]. split; (constructor; [lia|constructor]). Qed.

(** The filter with an odd number of neighbors, on the whole raster. *)
Theorem C40_filter_partial : forall n shape f b X ext, n = Z.of_nat (length shape) -> shape <> [] -> Positive shape -> length f = length shape -> Forall2 Z.le f b ->
  windowSize f b mod 2 = 1 -> (forall q, length q = length shape -> ext q = Ok (X q)) ->
  exists enough, forall fuel, (enough <= fuel)%nat ->
  (exists r, filterApply fuel n (mkBox f b) shape ext r) /\
  forall r, filterApply fuel n (mkBox f b) shape ext r ->
    exists out, r = Ok out /\ WF out /\ rshape out = shape /\
      forall p, InDomain shape p -> exists v, rget n out p = Ok v /\ WindowMedian f b X p v.
Proof. exact filter_all_spec. Qed.
Print Assumptions C40_filter_partial.

(** The window of a filter of non-negative radius always has an odd number of neighbors. *)
Theorem C40_radius : forall n radius, 0 < n -> 0 <= radius ->
  filterWindow n radius = mkBox (repeat (- radius) (Z.to_nat n)) (repeat radius (Z.to_nat n)) /\
  Forall2 Z.le (repeat (- radius) (Z.to_nat n)) (repeat radius (Z.to_nat n)) /\
  windowSize (repeat (- radius) (Z.to_nat n)) (repeat radius (Z.to_nat n)) mod 2 = 1.
Proof. exact filterWindow_odd. Qed.
Print Assumptions C40_radius.
Example C40_radius_met : filterWindow 2 1 = mkBox [-1; -1] [1; 1].
Proof. reflexivity. Qed.

(** For an even number of values: undefined behaviour for two values, and otherwise the mean of
    the value of rank size / 2 + 1 (instead of size / 2 - 1 and size / 2) and of some value which is not greater. *)
Theorem C40_even_partial : forall l s l' r, Sorting qltb l s -> Z.of_nat (length l) mod 2 = 0 -> filterMedian l l' r ->
  (Z.of_nat (length l) <= 2 -> r = UB) /\
  (2 < Z.of_nat (length l) -> exists x y, In x l /\ (x <= y)%Q /\ zget s (Z.of_nat (length l) / 2 + 1) = Ok y /\ exists v, r = Ok v /\ (v == (x + y) / 2)%Q).
Proof. exact filter_even. Qed.
Print Assumptions C40_even_partial.
Example C40_even_met : exists l' r, filterMedian [3; 1; 2; 5]%Q l' r.
Proof. apply filter_possible. discriminate. Qed.

(** It is not the median. *)
Theorem C40_even_refuted : exists l s l' v, Sorting qltb l s /\ filterMedian l l' (Ok v) /\ ~ Median s v.
Proof. exact median_even_witness. Qed.
Print Assumptions C40_even_refuted.
