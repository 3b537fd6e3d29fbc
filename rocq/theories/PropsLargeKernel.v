(** C116: ND kernels whose window does not fit in the raster. *)
From Verif Require Import Res BoxModel RasterModel TypedMedianModel MixedModel WidthModel TypedKernelModel
  Spec RasterSpec KernelSpec WidthSpec TypedKernelSpec LargeKernelSpec TypedKernelProofs LargeKernelProofs LargeOutsideProofs.
Open Scope Z_scope.

(** For these windows, whatever the types: the correlation has undefined behaviour if and only if the weighted sum of some position has;
    otherwise each position gets the weighted sum of the extrapolated raster in its window. *)
Theorem C116_partial : forall {X V : Type} (zero : V) (inner : V -> V -> X -> res V) (border : V -> V -> V -> res V) (store : X -> res V) (back : V -> res X)
  n s0 s' f0 f' b0 b' values data ext image,
  n = Z.of_nat (length (s0 :: s')) -> Positive (s0 :: s') -> LargeWindow s0 s' f0 f' b0 b' -> Z.of_nat (length values) = windowSize (f0 :: f') (b0 :: b') ->
  (forall q, length q = length (s0 :: s') -> ext q = Ok (image q)) -> forall out,
  (forall a k x, NoThrow (inner a k x)) -> (forall a k x, NoThrow (border a k x)) -> (forall x, NoThrow (store x)) -> (forall v, NoThrow (back v)) ->
  WF out -> rshape out = s0 :: s' ->
  exists r enough,
    (forall fuel, (enough <= fuel)%nat ->
       correlateToG zero inner border store back fuel n values (mkBox (f0 :: f') (b0 :: b')) (mkRaster (s0 :: s') data) ext out = Some r) /\
    ((r = UB /\ exists p, InDomain (s0 :: s') p /\ borderResult zero border store back values (windowPixels (f0 :: f') (b0 :: b') image p) = UB) \/
     exists out', r = Ok out' /\ WF out' /\ rshape out' = s0 :: s' /\
       forall p, InDomain (s0 :: s') p -> exists v,
         borderResult zero border store back values (windowPixels (f0 :: f') (b0 :: b') image p) = Ok v /\ zget (rdata out') (rank (s0 :: s') p) = Ok v).
Proof. exact @large_exact. Qed.
Print Assumptions C116_partial.
Example C116_met : LargeWindow 2 [3] (-1) [-1] 2 [1] /\
  intCorrelateTo int32 50 2 (repeat 1 12) (mkBox [-1; -1] [2; 1]) (mkRaster [2; 3] [1; 2; 4; 8; 16; 32]) (fun q => Ok (nth 0 q 0)) (mkRaster [2; 3] [0; 0; 0; 0; 0; 0]) =
    Some (Ok (mkRaster [2; 3] [6; 18; 6; 18; 6; 18])).
Proof. split; [exact large_met|vm_compute; reflexivity]. Qed.

(** Along the only axis, a window which goes before or after the current position by more than the length of the raster writes out of the raster. *)
Theorem C116_outside_refuted : forall {X V : Type} (zero : V) (inner : V -> V -> X -> res V) (border : V -> V -> V -> res V) (store : X -> res V) (back : V -> res X)
  s f0 b0 values data ext image, 0 < s -> f0 <= 0 <= b0 -> Z.of_nat (length values) = b0 - f0 + 1 -> (forall z, ext [z] = Ok (image [z])) -> forall out,
  (forall a k x, NoThrow (inner a k x)) -> (forall a k x, NoThrow (border a k x)) -> (forall x, NoThrow (store x)) -> (forall v, NoThrow (back v)) ->
  s < - f0 \/ s < b0 -> WF out -> rshape out = [s] ->
  exists enough, forall fuel, (enough <= fuel)%nat ->
    correlateToG zero inner border store back fuel 1 values (mkBox [f0] [b0]) (mkRaster [s] data) ext out = Some UB.
Proof. exact @outside_undefined. Qed.
Print Assumptions C116_outside_refuted.
Example C116_outside_met :
  intCorrelateTo int32 50 1 (repeat 1 6) (mkBox [-5] [0]) (mkRaster [4] [1; 2; 4; 8]) (fun q => Ok (nth 0 q 0)) (mkRaster [4] [0; 0; 0; 0]) = Some UB.
Proof. vm_compute. reflexivity. Qed.

(** So it does in any dimension, if the window fits in the raster along the other axes, and does not go there after the position, or before it, respectively. *)
Theorem C116_beyond_refuted : forall {X V : Type} (zero : V) (inner : V -> V -> X -> res V) (border : V -> V -> V -> res V) (store : X -> res V) (back : V -> res X)
  n s0 s' f0 f' b0 b' values data ext out,
  (forall a k x, NoThrow (inner a k x)) -> (forall a k x, NoThrow (border a k x)) -> (forall x, NoThrow (store x)) -> (forall v, NoThrow (back v)) ->
  n = Z.of_nat (length (s0 :: s')) -> Positive (s0 :: s') -> f0 <= 0 <= b0 -> length f' = length s' -> Forall2 (fun x y => x <= 0 <= y) f' b' ->
  Forall2 (fun w s => w <= s) (map (fun xy => snd xy - fst xy + 1) (combine f' b')) s' -> (forall q, NoThrow (ext q)) -> WF out -> rshape out = s0 :: s' ->
  (s0 < - f0 /\ Forall (eq 0) b') \/ (s0 < b0 /\ Forall (eq 0) f') ->
  exists enough, forall fuel, (enough <= fuel)%nat ->
    correlateToG zero inner border store back fuel n values (mkBox (f0 :: f') (b0 :: b')) (mkRaster (s0 :: s') data) ext out = Some UB.
Proof. exact @beyond_undefined. Qed.
Print Assumptions C116_beyond_refuted.
Example C116_beyond_met : Forall (eq 0) [0] /\ Forall2 (fun w s => w <= s) (map (fun xy => snd xy - fst xy + 1) (combine [0] [1])) [4] /\
  intCorrelateTo int32 50 2 (repeat 1 8) (mkBox [0; 0] [3; 1]) (mkRaster [2; 4] (repeat 0 8)) (fun q => Ok (nth 0 q 0)) (mkRaster [2; 4] (repeat 0 8)) = Some UB.
Proof. split; [repeat constructor|]. split; [repeat constructor; discriminate|vm_compute; reflexivity]. Qed.

(** Otherwise the values which are computed before the start of a row overwrite those at the end of the former one:
    with a sum over the window of 4 x 3 pixels from the position on, (1, 1) gets the value of (-1, 2). *)
Theorem C116_overwritten_refuted : let image := fun q => 10 * nth 0 q 0 in
  exists out, intCorrelateTo int32 50 2 (repeat 1 12) (mkBox [0; -1] [3; 1]) (mkRaster [2; 4] [0; 10; 0; 10; 0; 10; 0; 10]) (fun q => Ok (image q)) (mkRaster [2; 4] (repeat 0 8)) = Some (Ok out) /\
    zget (rdata out) (rank [2; 4] [1; 1]) = Ok 60 /\
    borderResult 0 (innerStep int32 int32) (@Ok Z) (@Ok Z) (repeat 1 12) (windowPixels [0; -1] [3; 1] image [1; 1]) = Ok 300 /\
    borderResult 0 (innerStep int32 int32) (@Ok Z) (@Ok Z) (repeat 1 12) (windowPixels [0; -1] [3; 1] image [-1; 2]) = Ok 60.
Proof. exact beyond_overwritten. Qed.
Print Assumptions C116_overwritten_refuted.

(** Windows which are longer than the raster by two or more along another axis, and never by one: the correlation does not end. *)
Theorem C116_endless_refuted : forall {X V : Type} (zero : V) (inner : V -> V -> X -> res V) (border : V -> V -> V -> res V) (store : X -> res V) (back : V -> res X)
  n shape f b values data ext out fuel, shape <> [] -> n = Z.of_nat (length shape) -> Positive shape ->
  length f = length shape -> Forall2 (fun x y => x <= 0 <= y) f b -> rshape out = shape ->
  Forall2 (fun w s => w <> s + 1) (map (fun xy => snd xy - fst xy + 1) (combine f b)) shape ->
  (exists i, (0 < i)%nat /\ nth i shape 0 + 1 < nth i (map (fun xy => snd xy - fst xy + 1) (combine f b)) 0) ->
  correlateToG zero inner border store back fuel n values (mkBox f b) (mkRaster shape data) ext out = None.
Proof. exact @kernel_neverG. Qed.
Print Assumptions C116_endless_refuted.
Example C116_endless_met :
  intCorrelateTo int32 50 2 (repeat 1 9) (mkBox [-1; -1] [1; 1]) (mkRaster [3; 1] [1; 2; 4]) (fun q => Ok (nth 0 q 0)) (mkRaster [3; 1] [0; 0; 0]) = None /\ 1 + 1 < 3.
Proof. split; [vm_compute; reflexivity|lia]. Qed.
