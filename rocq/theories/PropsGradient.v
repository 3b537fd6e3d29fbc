(** Property C78: differentiation filters. *)
From Verif Require Import Res VecModel BoxModel RasterModel SamplingModel LineKernelModel SeparableModel Spec KernelSpec SeparableSpec GradientSpec GradientProofs.

(** C78. Prewitt, Sobel and Scharr filters along distinct axes correlate with {sign, 0, -sign} along the first axis, and then
    average along each other axis with their own values. *)
Theorem C78_filters : forall shape data sign axis others,
  Positive shape -> Z.of_nat (length data) = prod shape -> NoDup (axis :: others) ->
  (forall a, In a (axis :: others) -> (a < length shape)%nat /\ 3 <= nth a shape 0 < 2 ^ 61) ->
  forall averaging F, In (averaging, F) [([1; 1; 1], prewitt sign); ([1; 2; 1], sobel sign); ([3; 10; 3], scharr sign)] ->
  exists out enough, Z.of_nat (length out) = prod shape /\
    (forall p, pixel shape out p = axesCorrelation shape (([sign; 0; - sign], 1, axis) :: map (fun a => (averaging, 1, a)) others) (pixel shape data) p) /\
    forall fuel, (enough <= fuel)%nat ->
      sapply fuel (Z.of_nat (length shape)) (F (Z.of_nat axis) (map Z.of_nat others)) (mkRaster shape data) = Some (Ok (mkRaster shape out)).
Proof. exact factories_apply. Qed.
Print Assumptions C78_filters.

(** Away from the borders, the response to an affine image is proportional to its slope along the first axis.
    The slope between the two neighbours is doubled, and multiplied by the sum of the averaging values for each other axis.
    Missing: the sign, which is the opposite of the documented one. *)
Theorem C78_affine_partial : forall shape data sign axis others c sl w F, In (w, F) (factories sign) ->
  Positive shape -> Z.of_nat (length data) = prod shape -> NoDup (axis :: others) ->
  (forall a, In a (axis :: others) -> (a < length shape)%nat /\ 3 <= nth a shape 0 < 2 ^ 61) ->
  length sl = length shape -> (forall p, InDomain shape p -> pixel shape data p = affine c sl p) ->
  exists out enough, Z.of_nat (length out) = prod shape /\
    (forall p, AwayFromBorders shape (axis :: others) p -> pixel shape out p = - sign * (2 * nth axis sl 0) * power w (length others)) /\
    forall fuel, (enough <= fuel)%nat ->
      sapply fuel (Z.of_nat (length shape)) (F (Z.of_nat axis) (map Z.of_nat others)) (mkRaster shape data) = Some (Ok (mkRaster shape out)).
Proof. exact factories_affine. Qed.
Print Assumptions C78_affine_partial.

(** For differentiation in the increasing-index direction, keep sign = 1, says the documentation.
    Yet the response to any image which increases along the axis is negative then. *)
Theorem C78_direction_refuted : forall shape data axis others c sl w F, In (w, F) (factories 1) ->
  Positive shape -> Z.of_nat (length data) = prod shape -> NoDup (axis :: others) ->
  (forall a, In a (axis :: others) -> (a < length shape)%nat /\ 3 <= nth a shape 0 < 2 ^ 61) ->
  length sl = length shape -> (forall p, InDomain shape p -> pixel shape data p = affine c sl p) -> 0 < nth axis sl 0 ->
  exists out enough, (forall p, AwayFromBorders shape (axis :: others) p -> pixel shape out p < 0) /\
    forall fuel, (enough <= fuel)%nat ->
      sapply fuel (Z.of_nat (length shape)) (F (Z.of_nat axis) (map Z.of_nat others)) (mkRaster shape data) = Some (Ok (mkRaster shape out)).
Proof. exact factories_direction. Qed.
Print Assumptions C78_direction_refuted.

(** A ramp of slope 2 along axis 0 and 1 along axis 1. *)
Example C78_met : let shape := [3; 3] in let data := [5; 7; 9; 6; 8; 10; 7; 9; 11] in
  (forall p, InDomain shape p -> pixel shape data p = affine 5 [2; 1] p) /\ AwayFromBorders shape [0%nat; 1%nat] [1; 1] /\
  sapply 20 2 (sobel 1 0 [1]) (mkRaster shape data) = Some (Ok (mkRaster shape [-22; -12; 22; -32; -16; 32; -26; -12; 26])) /\
  sapply 20 2 (scharr (-1) 1 [0]) (mkRaster shape data) = Some (Ok (mkRaster shape [84; 128; 124; 26; 32; 26; -84; -128; -124])).
Proof.
  cbv zeta. split.
  - intros p H. inversion H as [|? x ? p1 H1 H2]; subst. inversion H2 as [|? y ? p2 H3 H4]; subst. inversion H4; subst.
    assert (Hx : x = 0 \/ x = 1 \/ x = 2) by lia. assert (Hy : y = 0 \/ y = 1 \/ y = 2) by lia.
    destruct Hx as [->|[->| ->]]; destruct Hy as [->|[->| ->]]; reflexivity.
  - split; [split; [repeat constructor; lia|]|].
    + intros a [<-|[<-|[]]]; cbn; lia.
    + split; reflexivity.
Qed.
