(** C113: correlation with ND kernels of any types. *)
From Coq Require Import Reals.
From Flocq Require Import Core IEEE754.BinarySingleNaN.
From Verif Require Import Res BoxModel RasterModel WidthModel FloatModel TypedMedianModel MixedModel TypedKernelModel
  Spec RasterSpec KernelSpec WidthSpec MixedSpec FloatSpec FloatKernelSpec TypedKernelSpec TypedKernelProofs TypedKernelTypesProofs TypedOriginProofs IntOnDoubleProofs.
Open Scope Z_scope.

(** Whatever the types of the kernel and pixels: the correlation has undefined behaviour if and only if what some position gets has; otherwise each position has what it gets. *)
Theorem C113_partial : forall {X V : Type} (zero : V) (inner : V -> V -> X -> res V) (border : V -> V -> V -> res V) (store : X -> res V) (back : V -> res X),
  (forall a k x, NoThrow (inner a k x)) -> (forall a k x, NoThrow (border a k x)) -> (forall x, NoThrow (store x)) -> (forall v, NoThrow (back v)) ->
  forall n shape f b values data ext image out, n = Z.of_nat (length shape) -> Applies shape f b values data ext image -> WF out -> rshape out = shape ->
  exists r enough, (forall fuel, (enough <= fuel)%nat -> correlateToG zero inner border store back fuel n values (mkBox f b) (mkRaster shape data) ext out = Some r) /\
    ((r = UB /\ exists p, InDomain shape p /\ Gets zero inner border store back shape f b values data image p UB) \/
     exists out', r = Ok out' /\ WF out' /\ rshape out' = shape /\
       forall p, InDomain shape p -> exists v, Gets zero inner border store back shape f b values data image p (Ok v) /\ zget (rdata out') (rank shape p) = Ok v).
Proof. exact @typed_spec. Qed.
Print Assumptions C113_partial.
Example C113_met : Applies [3; 2] [-1; 0] [1; 0] [1; 2; 1] [1; 2; 4; 8; 16; 32] (fun q => Ok (nth 0 q 0)) (fun q => nth 0 q 0) /\ (forall a k x, NoThrow (innerStep int32 int32 a k x)).
Proof. split; [now apply (applies_met [1; 2; 1] [1; 2; 4; 8; 16; 32] (fun q => nth 0 q 0))|exact (innerStep_nothrow int32 int32)]. Qed.

(** Each position gets exactly one outcome. *)
Theorem C113_unique_partial : forall {X V : Type} (zero : V) (inner : V -> V -> X -> res V) (border : V -> V -> V -> res V) (store : X -> res V) (back : V -> res X)
  shape f b values data ext image p, Applies shape f b values data ext image ->
  (InDomain shape p -> exists v, Gets zero inner border store back shape f b values data image p v) /\
  (forall v w, Gets zero inner border store back shape f b values data image p v -> Gets zero inner border store back shape f b values data image p w -> v = w).
Proof. exact @typed_unique. Qed.
Print Assumptions C113_unique_partial.
Example C113_unique_met : Applies [3; 2] [-1; 0] [1; 0] [1; 2; 1] [1; 2; 4; 8; 16; 32] (fun q => Ok (nth 0 q 0)) (fun q => nth 0 q 0) /\ InDomain [3; 2] [2; 1].
Proof. split; [now apply (applies_met [1; 2; 1] [1; 2; 4; 8; 16; 32] (fun q => nth 0 q 0))|repeat constructor; discriminate]. Qed.

(** The pixels which are read are those of the window, except for the first inner position of each row, and if the window has several planes. *)
Theorem C113_window_partial : forall {X V : Type} shape f b (values : list V) (data : list X) ext image p, Applies shape f b values data ext image -> skipn 2 f = skipn 2 b ->
  (forall q, InDomain shape q -> zget data (rank shape q) = Ok (image q)) -> InDomain shape p ->
  (Inner shape f b p -> p = map Z.opp f \/ exists q, InDomain shape q /\ Inner shape f b q /\ rank shape q + 1 = rank shape p) ->
  PixelsRead shape f b data image p (windowPixels f b image p).
Proof. exact @read_window_free. Qed.
Print Assumptions C113_window_partial.
Example C113_window_met : let image := fun q => padded [1; 2; 4; 8; 16; 32] (rank [3; 2] q) in
  Applies [3; 2] [-1; 0] [1; 0] [1; 2; 1] [1; 2; 4; 8; 16; 32] (fun q => Ok (image q)) image /\ zget [1; 2; 4; 8; 16; 32] (rank [3; 2] [2; 1]) = Ok (image [2; 1]) /\
  windowPixels [-1; 0] [1; 0] image [1; 0] = [1; 2; 4].
Proof. split; [|split; reflexivity]. apply applies_met; reflexivity. Qed.

(** Integers: each pixel is the weighted sum of the pixels which are read, modulo 2 to the power of the number of bits; it is defined if no partial sum overflows. *)
Theorem C113_integers_partial : forall t n shape f b values data ext image out, Wf t -> n = Z.of_nat (length shape) -> Applies shape f b values data ext image -> WF out -> rshape out = shape ->
  exists r enough, (forall fuel, (enough <= fuel)%nat -> intCorrelateTo t fuel n values (mkBox f b) (mkRaster shape data) ext out = Some r) /\
    (r = UB \/ exists out', r = Ok out' /\ WF out' /\ rshape out' = shape /\
       forall p xs, InDomain shape p -> PixelsRead shape f b data image p xs -> exists v, zget (rdata out') (rank shape p) = Ok v /\ Wrapped t (intSum values xs) v) /\
    (forall K M, 0 <= K -> 0 <= M -> NoOverflow t t (windowSize f b) K M -> Forall (fun k => InType t k /\ Z.abs k <= K) values ->
       Forall (fun x => InType t x /\ Z.abs x <= M) data -> (forall q, length q = length shape -> InType t (image q) /\ Z.abs (image q) <= M) -> r <> UB).
Proof. exact int_kernel. Qed.
Print Assumptions C113_integers_partial.
Example C113_integers_met : Applies [3; 2] [-1; 0] [1; 0] [1; 2; 1] [1; 2; 4; 8; 16; 32] (fun q => Ok 3) (fun _ => 3) /\ NoOverflow int32 int32 (windowSize [-1; 0] [1; 0]) 2 32 /\
  Forall (fun k => InType int32 k /\ Z.abs k <= 2) [1; 2; 1] /\ Forall (fun x => InType int32 x /\ Z.abs x <= 32) [1; 2; 4; 8; 16; 32].
Proof.
  split; [now apply (applies_met [1; 2; 1] [1; 2; 4; 8; 16; 32] (fun _ => 3))|]. split; [right; left; split; [reflexivity|vm_compute; discriminate]|].
  split; repeat constructor; vm_compute; discriminate.
Qed.

(** Doubles: each pixel is close to the exact weighted sum of the pixels which are read, whatever the extrapolation. *)
Theorem C113_doubles_partial : forall n shape f b values data ext image out M, n = Z.of_nat (length shape) -> Applies shape f b values data ext image -> WF out -> rshape out = shape ->
  (0 <= M)%R -> Forall Finite values -> PixelsWithin M data -> (forall q, length q = length shape -> Finite (image q) /\ (Rabs (real (image q)) <= M)%R) ->
  windowSize f b < 2 ^ 26 -> (M * gain values <= bpow radix2 1022)%R ->
  exists out' enough, (forall fuel, (enough <= fuel)%nat -> doubleCorrelateTo fuel n values (mkBox f b) (mkRaster shape data) ext out = Some (Ok out')) /\
    WF out' /\ rshape out' = shape /\
    forall p xs, InDomain shape p -> PixelsRead shape f b data image p xs ->
      exists v, zget (rdata out') (rank shape p) = Ok v /\ Finite v /\ (Rabs (real v - realSum values xs) <= axisError values M)%R.
Proof. exact double_kernel. Qed.
Print Assumptions C113_doubles_partial.
Example C113_doubles_met : let values := map dofZ [1; 2; 1] in let data := map dofZ [1; 2; 4; 8; 16; 32] in
  Applies [3; 2] [-1; 0] [1; 0] values data (fun q => Ok (dofZ 3)) (fun _ => dofZ 3) /\ Forall Finite values /\ PixelsWithin 32 data /\
  (Finite (dofZ 3) /\ (Rabs (real (dofZ 3)) <= 32)%R) /\ windowSize [-1; 0] [1; 0] < 2 ^ 26 /\ (32 * gain values <= bpow radix2 1022)%R.
Proof. exact double_kernel_met. Qed.

(** A kernel of doubles on integers: the sum is that of doubles, it is truncated once, in the same way at all positions. *)
Theorem C113_truncated_partial : forall t n shape f b values data ext image out, n = Z.of_nat (length shape) -> Applies shape f b values data ext image -> WF out -> rshape out = shape ->
  exists r enough, (forall fuel, (enough <= fuel)%nat -> doubleIntCorrelateTo t fuel n values (mkBox f b) (mkRaster shape data) ext out = Some r) /\
    ((r = UB /\ exists p xs, InDomain shape p /\ PixelsRead shape f b data image p xs /\
        (s <- weighted doubleStep (dofZ 0) (combine values (map dofZ xs)) ;; dtruncTo t s) = UB) \/
     exists out', r = Ok out' /\ WF out' /\ rshape out' = shape /\
       forall p xs, InDomain shape p -> PixelsRead shape f b data image p xs ->
         exists s v, weighted doubleStep (dofZ 0) (combine values (map dofZ xs)) = Ok s /\ dtruncTo t s = Ok v /\ zget (rdata out') (rank shape p) = Ok v).
Proof. exact double_int_kernel. Qed.
Print Assumptions C113_truncated_partial.
Example C113_truncated_met : Applies [3; 2] [-1; 0] [1; 0] (map dofZ [1; 2; 1]) [1; 2; 4; 8; 16; 32] (fun q => Ok 3) (fun _ => 3).
Proof. now apply (applies_met (map dofZ [1; 2; 1]) [1; 2; 4; 8; 16; 32] (fun _ => 3)). Qed.

(** A kernel of signed integers on doubles which are whole numbers: each pixel is exactly the weighted sum of those which are read, if no sum may overflow. *)
Theorem C113_whole_partial : forall t n shape f b values data ext image out K M, Wf t -> isigned t = true -> n = Z.of_nat (length shape) ->
  Applies shape f b values data ext image -> WF out -> rshape out = shape ->
  0 <= K <= 2 ^ 53 -> 0 <= M <= itmax t -> windowSize f b * (K * M) <= itmax t -> windowSize f b * (K * M) <= 2 ^ 53 -> Forall (fun k => InType t k /\ Z.abs k <= K) values ->
  Forall (fun x => exists y, Finite x /\ real x = IZR y /\ Z.abs y <= M) data ->
  (forall q, length q = length shape -> exists y, Finite (image q) /\ real (image q) = IZR y /\ Z.abs y <= M) ->
  exists out' enough, (forall fuel, (enough <= fuel)%nat -> intDoubleCorrelateTo t fuel n values (mkBox f b) (mkRaster shape data) ext out = Some (Ok out')) /\
    WF out' /\ rshape out' = shape /\
    forall p xs, InDomain shape p -> PixelsRead shape f b data image p xs ->
      exists ys v, Integral xs ys /\ zget (rdata out') (rank shape p) = Ok v /\ Finite v /\ real v = IZR (intSum values ys).
Proof. exact int_double_kernel. Qed.
Print Assumptions C113_whole_partial.
Example C113_whole_met : let data := map dofZ [1; 2; 4; 8; 16; 32] in
  Applies [3; 2] [-1; 0] [1; 0] [1; 2; 1] data (fun q => Ok (dofZ 3)) (fun _ => dofZ 3) /\ windowSize [-1; 0] [1; 0] * (2 * 32) <= itmax int32 /\
  windowSize [-1; 0] [1; 0] * (2 * 32) <= 2 ^ 53 /\ Forall (fun k => InType int32 k /\ Z.abs k <= 2) [1; 2; 1] /\
  Forall (fun x => exists y, Finite x /\ real x = IZR y /\ Z.abs y <= 32) data /\ (exists y, Finite (dofZ 3) /\ real (dofZ 3) = IZR y /\ Z.abs y <= 32).
Proof. exact int_double_met. Qed.

(** A kernel of integers on any doubles does not treat all positions in the same way: the response to a constant image is not constant, because each partial sum is truncated in the inner region,
    and the pixels are truncated in the borders. *)
Theorem C113_mixed_refuted : ~ (forall t shape f b values c out' fuel p q v w,
  Applies shape f b values (repeat c (Z.to_nat (prod shape))) (fun _ => Ok c) (fun _ => c) -> Finite c ->
  intDoubleCorrelateTo t fuel (Z.of_nat (length shape)) values (mkBox f b) (mkRaster shape (repeat c (Z.to_nat (prod shape)))) (fun _ => Ok c)
    (mkRaster shape (repeat (dofZ 0) (Z.to_nat (prod shape)))) = Some (Ok out') ->
  InDomain shape p -> InDomain shape q -> zget (rdata out') (rank shape p) = Ok v -> zget (rdata out') (rank shape q) = Ok w -> real v = real w).
Proof. exact mixed_refuted. Qed.
Print Assumptions C113_mixed_refuted.

(** A window which fits in the raster but does not contain the origin: undefined behaviour, whatever the types, the values and the pixels. *)
Theorem C113_origin_refuted : forall {X V : Type} (zero : V) (inner : V -> V -> X -> res V) (border : V -> V -> V -> res V) (store : X -> res V) (back : V -> res X),
  (forall a k x, NoThrow (inner a k x)) -> (forall a k x, NoThrow (border a k x)) -> (forall x, NoThrow (store x)) -> (forall v, NoThrow (back v)) ->
  forall n shape f b values data ext out, shape <> [] -> n = Z.of_nat (length shape) -> Positive shape ->
  length f = length shape -> Forall2 Z.le f b -> Forall2 (fun w s => w <= s) (map (fun xy => snd xy - fst xy + 1) (combine f b)) shape -> WF out -> rshape out = shape ->
  (forall q, NoThrow (ext q)) -> (Exists (fun x => 0 < x) f \/ Exists (fun y => y < 0) b) ->
  exists enough, forall fuel, (enough <= fuel)%nat ->
    correlateToG zero inner border store back fuel n values (mkBox f b) (mkRaster shape data) ext out = Some UB.
Proof. exact @kernel_originG. Qed.
Print Assumptions C113_origin_refuted.
Example C113_origin_met : let values := map dofZ [1; 2] in let data := map dofZ [1; 2; 3; 4; 5; 6] in
  (forall a k x, NoThrow (doubleStep a k x)) /\
  doubleCorrelateTo 20 2 values (mkBox [1; -1] [1; 0]) (mkRaster [2; 3] data) (fun _ => Ok (dofZ 0)) (mkRaster [2; 3] data) = Some UB.
Proof. split; [discriminate|]. vm_compute. reflexivity. Qed.
