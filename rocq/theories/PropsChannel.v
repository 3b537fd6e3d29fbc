(** Properties C76 and C77: images with several channels. *)
From Coq Require Import QArith.
From Verif Require Import Res VecModel BoxModel RasterModel ArithModel ChannelModel Spec RasterSpec ChannelSpec ChannelProofs.
Open Scope Z_scope.

(** C76. The loop by steps of [c] values, over an image whose first axis holds [c] channels, applies the function to the channels of each pixel,
    and writes the result to the [d] channels of the same pixel of the output, whatever the number of axes and their lengths. *)
Theorem C76_first_axis : forall A B (g : list A -> list B) c d shape (inp : raster A) (out : raster B) fuel,
  WF inp -> WF out -> rshape inp = c :: shape -> rshape out = d :: shape -> 1 <= c ->
  (forall xs, length xs = Z.to_nat c -> length (g xs) = Z.to_nat d) -> prod shape < Z.of_nat fuel ->
  exists out', mapChannels fuel c d g inp out = Some (Ok out') /\ WF out' /\ rshape out' = rshape out /\
    forall p, InDomain shape p -> exists xs, length xs = Z.to_nat c /\
      Channels (1 + Z.of_nat (length shape)) inp p xs /\ Channels (1 + Z.of_nat (length shape)) out' p (g xs).
Proof. exact @channels_first. Qed.
Print Assumptions C76_first_axis.

(** The memory of an image of structures is that of an image with one more axis, in first position. *)
Theorem C76_layout : forall A c (r : raster (list A)), WF r -> Structures c r -> 0 <= c ->
  WF (flattened c r) /\ forall p, InDomain (rshape r) p -> exists xs, rget (Z.of_nat (length (rshape r))) r p = Ok xs /\
    Z.of_nat (length xs) = c /\ Channels (1 + Z.of_nat (length (rshape r))) (flattened c r) p xs.
Proof. exact @flattened_spec. Qed.
Print Assumptions C76_layout.

(** And both strategies give the same memory. *)
Theorem C76_structures : forall A B c d (g : list A -> list B) (rgb : raster (list A)) (out : raster B) fuel,
  WF rgb -> WF out -> Structures c rgb -> rshape out = d :: rshape rgb -> 1 <= c ->
  (forall xs, length xs = Z.to_nat c -> length (g xs) = Z.to_nat d) -> prod (rshape rgb) < Z.of_nat fuel ->
  mapChannels fuel c d g (flattened c rgb) out = Some (Ok (flattened d (mkRaster (rshape rgb) (map g (rdata rgb))))).
Proof. exact @structures_or_axis. Qed.
Print Assumptions C76_structures.

(** The weighted sum of the channels, accumulated in increasing order from zero, whatever the arithmetic. *)
Theorem C76_weighted_sum : forall A (zero : A) add mul ws shape (cube image : raster A) fuel,
  WF cube -> WF image -> rshape cube = Z.of_nat (length ws) :: shape -> rshape image = shape -> prod shape < Z.of_nat fuel ->
  exists image', weightedSum zero add mul fuel (Z.of_nat (length ws)) ws cube image = Some (Ok image') /\ WF image' /\ rshape image' = shape /\
    forall p, InDomain shape p -> exists xs, length xs = length ws /\ Channels (1 + Z.of_nat (length shape)) cube p xs /\
      rget (Z.of_nat (length shape)) image' p = Ok (fold_left (fun acc wx => add acc (mul (fst wx) (snd wx))) (combine ws xs) zero).
Proof. exact @weighted_sum_fold. Qed.
Print Assumptions C76_weighted_sum.

(** Updating section [k] changes channel [k] of each pixel, and nothing else. *)
Theorem C76_last_axis : forall A (f : A -> A) n s1 l k (r : raster A),
  WF r -> rshape r = s1 ++ [l] -> n = Z.of_nat (length (rshape r)) -> s1 <> [] -> Positive s1 -> 0 <= k < l ->
  exists r', updateSection f n k r = Ok r' /\ WF r' /\ rshape r' = rshape r /\
    forall q z, InDomain (rshape r) (q ++ [z]) ->
      rget n r' (q ++ [z]) = (x <- rget n r (q ++ [z]) ;; Ok (if z =? k then f x else x)).
Proof. exact @channel_last. Qed.
Print Assumptions C76_last_axis.

(** A 2 x 1 image of two channels, and three from two. *)
Example C76_met :
  let inp := mkRaster [2; 2; 1] [1; 2; 3; 4] in let out := mkRaster [3; 2; 1] [0; 0; 0; 0; 0; 0] in
  let g := fun xs => match xs with [x; y] => [x + y; x - y; x * y] | _ => [0; 0; 0] end in
  WF inp /\ WF out /\ mapChannels 3 2 3 g inp out = Some (Ok (mkRaster [3; 2; 1] [3; -1; 2; 7; -1; 12])) /\
  WF (mkRaster [2; 1] [[1; 2]; [3; 4]]) /\ Structures 2 (mkRaster [2; 1] [[1; 2]; [3; 4]]) /\ flattened 2 (mkRaster [2; 1] [[1; 2]; [3; 4]]) = inp /\
  weightedSum 0 Z.add Z.mul 3 2 [10; 1] inp (mkRaster [2; 1] [0; 0]) = Some (Ok (mkRaster [2; 1] [12; 34])) /\
  updateSection (fun x => 10 * x) 2 1 (mkRaster [2; 3] [1; 2; 3; 4; 5; 6]) = Ok (mkRaster [2; 3] [1; 2; 30; 40; 5; 6]).
Proof.
  cbv zeta. repeat split; try (repeat constructor; cbn; lia); try discriminate.
Qed.

(** C77. Conversion of a color to hue, saturation and value, when its components are not all equal:
    the hue is in [0, 360), the saturation and the value are in [0, 1], and they are those of the textbooks. *)
Theorem C77_color_partial : forall r g b lo hi, 0 <= r <= 255 -> 0 <= g <= 255 -> 0 <= b <= 255 ->
  hi = Z.max r (Z.max g b) -> lo = Z.min r (Z.min g b) -> lo < hi ->
  exists h s v, rgbToHsv r g b = mkHsv (Some h) (Some s) (Some v) /\
    (0 <= h < 360)%Q /\ (0 < s <= 1)%Q /\ (0 < v <= 1)%Q /\
    (v == inject_Z hi / 255)%Q /\ (s == inject_Z (hi - lo) / inject_Z hi)%Q /\ HueOf r g b lo hi h.
Proof. exact hsv_spec. Qed.
Print Assumptions C77_color_partial.

(** Missing: greys, for which the hue and the saturation are not initialised, and black, for which the value is not either. *)
Theorem C77_grey_refuted : forall r g b, 0 <= r <= 255 -> 0 <= g <= 255 -> 0 <= b <= 255 ->
  (hsvH (rgbToHsv r g b) = None <-> r = g /\ g = b) /\ (hsvS (rgbToHsv r g b) = None <-> r = g /\ g = b) /\
  (hsvV (rgbToHsv r g b) = None <-> r = 0 /\ g = 0 /\ b = 0).
Proof. exact hsv_grey_iff. Qed.
Print Assumptions C77_grey_refuted.

(** Turquoise, pink and black. *)
Example C77_met :
  (exists h s v, rgbToHsv 64 224 208 = mkHsv (Some h) (Some s) (Some v) /\ h == 174 /\ s == 5 # 7 /\ v == 224 # 255)%Q /\
  (exists h s v, rgbToHsv 255 0 51 = mkHsv (Some h) (Some s) (Some v) /\ h == 348 /\ s == 1 /\ v == 1)%Q /\
  rgbToHsv 0 0 0 = mkHsv None None None.
Proof.
  repeat split; do 3 eexists; (split; [reflexivity|]); repeat split.
Qed.
