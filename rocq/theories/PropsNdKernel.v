(** C39: correlation with ND kernels. *)
From Verif Require Import Res VecModel BoxModel RasterModel SamplingModel LineKernelModel SeparableModel KernelModel
  Spec RasterSpec KernelSpec KernelProofs OriginKernelProofs.

(** C39. For each window containing the origin which fits in the raster, without undefined behaviour:
    every position whose window goes out of the domain gets the correlation of the extrapolated raster;
    the first inner position gets the sum of the elements read from the first one,
    and each other inner position gets the sum of the elements read from an address which depends on
    the previous inner position: this is the address of its own window only if both are adjacent in memory. *)
Theorem C39_partial : forall n shape f b values data ext X out,
  shape <> [] -> n = Z.of_nat (length shape) -> Positive shape -> Z.of_nat (length data) = prod shape ->
  length f = length shape -> Forall2 (fun x y => x <= 0 <= y) f b -> Z.of_nat (length values) = windowSize f b ->
  (exists p, length p = length shape /\ Inner shape f b p) ->
  (forall q, length q = length shape -> ext q = Ok (X q)) -> WF out -> rshape out = shape ->
  exists out', (exists enough, forall fuel, (enough <= fuel)%nat -> correlateTo fuel n (mkNkernel values (mkBox f b)) (mkRaster shape data) ext out = Some (Ok out')) /\
    WF out' /\ rshape out' = shape /\
    (forall p, InDomain shape p -> ~ Inner shape f b p -> pixel shape (rdata out') p = windowCorrelation (windowValue f b values) f b X p) /\
    pixel shape (rdata out') (map Z.opp f) = linearSum values data 0 (nth 0 b 0 - nth 0 f 0 + 1) (nth 0 shape 0) /\
    (forall p q, InDomain shape p -> InDomain shape q -> Inner shape f b p -> PreviousInner shape f b q p ->
       pixel shape (rdata out') p = linearSum values data (rank shape q + 1 + rank shape f) (nth 0 b 0 - nth 0 f 0 + 1) (nth 0 shape 0)) /\
    ((forall p, InDomain shape p -> X p = pixel shape data p) -> skipn 2 f = skipn 2 b ->
     forall p, InDomain shape p ->
      (Inner shape f b p -> p = map Z.opp f \/ exists q, InDomain shape q /\ Inner shape f b q /\ rank shape q + 1 = rank shape p) ->
      pixel shape (rdata out') p = windowCorrelation (windowValue f b values) f b X p).
Proof. exact kernel_spec. Qed.
Print Assumptions C39_partial.
Example C39_met : Inner [4; 4] [-1; -1] [1; 1] [1; 2] /\ Inner [4; 4] [-1; -1] [1; 1] [2; 2] /\ ~ Inner [4; 4] [-1; -1] [1; 1] [0; 2] /\
  rank [4; 4] [1; 2] + 1 = rank [4; 4] [2; 2] /\ skipn 2 [-1; -1] = skipn 2 [1; 1].
Proof.
  repeat split; try (cbn; repeat constructor; reflexivity); try (cbn; repeat constructor; discriminate).
  intros (H & _). cbn in H. inversion H as [|? ? ? ? H1]. destruct H1. apply H1. reflexivity.
Qed.

(** In dimension 1 each pixel is the correlation. *)
Theorem C39_line_partial : forall l f b values data ext X out,
  0 < l -> Z.of_nat (length data) = l -> f <= 0 <= b -> Z.of_nat (length values) = b - f + 1 -> b - f + 1 <= l ->
  (forall q, length q = 1%nat -> ext q = Ok (X q)) -> (forall p, InDomain [l] p -> X p = pixel [l] data p) -> WF out -> rshape out = [l] ->
  exists out', (exists enough, forall fuel, (enough <= fuel)%nat -> correlateTo fuel 1 (mkNkernel values (mkBox [f] [b])) (mkRaster [l] data) ext out = Some (Ok out')) /\
    WF out' /\ rshape out' = [l] /\
    forall p, InDomain [l] p -> pixel [l] (rdata out') p = windowCorrelation (windowValue [f] [b] values) [f] [b] X p.
Proof. exact kernel_line. Qed.
Print Assumptions C39_line_partial.
Example C39_line_met :
  correlateTo 20 1 (mkNkernel [1; 10; 100] (mkBox [-1] [1])) (mkRaster [4] [1; 2; 3; 4]) (fun q => Ok (pixel [4] [1; 2; 3; 4] q)) (mkRaster [4] [0; 0; 0; 0])
    = Some (Ok (mkRaster [4] [210; 321; 432; 43])).
Proof. vm_compute. reflexivity. Qed.

(** So is it for column kernels in dimension 2. *)
Theorem C39_column_partial : forall w h f b values data ext X out,
  0 < w -> 0 < h -> Z.of_nat (length data) = w * h -> f <= 0 <= b -> Z.of_nat (length values) = b - f + 1 -> b - f + 1 <= h ->
  (forall q, length q = 2%nat -> ext q = Ok (X q)) -> (forall p, InDomain [w; h] p -> X p = pixel [w; h] data p) -> WF out -> rshape out = [w; h] ->
  exists out', (exists enough, forall fuel, (enough <= fuel)%nat ->
      correlateTo fuel 2 (mkNkernel values (mkBox [0; f] [0; b])) (mkRaster [w; h] data) ext out = Some (Ok out')) /\
    WF out' /\ rshape out' = [w; h] /\
    forall p, InDomain [w; h] p -> pixel [w; h] (rdata out') p = windowCorrelation (windowValue [0; f] [0; b] values) [0; f] [0; b] X p.
Proof. exact kernel_column. Qed.
Print Assumptions C39_column_partial.
Example C39_column_met :
  correlateTo 20 2 (mkNkernel [1; 10] (mkBox [0; 0] [0; 1])) (mkRaster [2; 3] [1; 2; 3; 4; 5; 6]) (fun q => Ok (pixel [2; 3] [1; 2; 3; 4; 5; 6] q)) (mkRaster [2; 3] [0; 0; 0; 0; 0; 0])
    = Some (Ok (mkRaster [2; 3] [31; 42; 53; 64; 5; 6])).
Proof. vm_compute. reflexivity. Qed.

(** In dimension 2, the first pixel of inner rows is not the correlation. *)
Theorem C39_row_refuted : exists values data out p,
  let X := pixel [4; 4] data in
  correlateTo 40 2 (mkNkernel values (mkBox [-1; -1] [1; 1])) (mkRaster [4; 4] data) (fun q => Ok (X q)) (mkRaster [4; 4] (repeat 0 16)) = Some (Ok out) /\
  InDomain [4; 4] p /\ pixel [4; 4] (rdata out) p = 1236 /\ windowCorrelation (windowValue [-1; -1] [1; 1] values) [-1; -1] [1; 1] X p = 749.
Proof. exact kernel_witness2. Qed.
Print Assumptions C39_row_refuted.

(** In dimension 3, even the first inner pixel is not the correlation if the window has several planes. *)
Theorem C39_plane_refuted : exists values data out p,
  let X := pixel [1; 4; 2] data in
  correlateTo 40 3 (mkNkernel values (mkBox [0; -1; 0] [0; 1; 1])) (mkRaster [1; 4; 2] data) (fun q => Ok (X q)) (mkRaster [1; 4; 2] (repeat 0 8)) = Some (Ok out) /\
  InDomain [1; 4; 2] p /\ p = map Z.opp [0; -1; 0] /\ Inner [1; 4; 2] [0; -1; 0] [0; 1; 1] p /\
  pixel [1; 4; 2] (rdata out) p <> windowCorrelation (windowValue [0; -1; 0] [0; 1; 1] values) [0; -1; 0] [0; 1; 1] X p.
Proof. exact kernel_witness3. Qed.
Print Assumptions C39_plane_refuted.

(** If the window is longer than the raster by at least two along some axis but the first one, and not by one along any axis,
    then the correlation never ends. *)
Theorem C39_large_refuted : forall n shape f b values data ext out fuel, shape <> [] -> n = Z.of_nat (length shape) -> Positive shape ->
  length f = length shape -> Forall2 (fun x y => x <= 0 <= y) f b -> rshape out = shape ->
  Forall2 (fun w s => w <> s + 1) (map (fun xy => snd xy - fst xy + 1) (combine f b)) shape ->
  (exists i, (0 < i)%nat /\ nth i shape 0 + 1 < nth i (map (fun xy => snd xy - fst xy + 1) (combine f b)) 0) ->
  correlateTo fuel n (mkNkernel values (mkBox f b)) (mkRaster shape data) ext out = None.
Proof. exact kernel_never. Qed.
Print Assumptions C39_large_refuted.
Example C39_large_met : map (fun xy => snd xy - fst xy + 1) (combine [-1; -1] [1; 1]) = [3; 3] /\ 3 <> 1 + 1 /\ 1 + 1 < 3.
Proof. repeat split; discriminate. Qed.

(** The window of kernels made from rasters: the origin is the given position, or half of the shape. *)
Theorem C39_kernelize : forall n s data origin, n = Z.of_nat (length s) -> length origin = length s -> Positive s ->
  kernelizeAt n (mkRaster s data) origin =
    Ok (mkNkernel data (mkBox (map Z.opp origin) (map (fun xy => fst xy - 1 - snd xy) (combine s origin)))) /\
  kernelize n (mkRaster s data) = Ok (mkNkernel data (mkBox (map (fun l => - (l / 2)) s) (map (fun l => l - 1 - l / 2) s))).
Proof. exact kernelize_spec. Qed.
Print Assumptions C39_kernelize.
Example C39_kernelize_met : kernelize 2 (mkRaster [3; 2] [1; 2; 3; 4; 5; 6]) = Ok (mkNkernel [1; 2; 3; 4; 5; 6] (mkBox [-1; -1] [1; 0])).
Proof. reflexivity. Qed.

(** If the window fits in the raster but does not contain the origin, then memory is accessed out of the rasters, whatever the extrapolation, unless it throws. *)
Theorem C39_origin_refuted : forall n shape f b values data ext out, shape <> [] -> n = Z.of_nat (length shape) -> Positive shape ->
  length f = length shape -> Forall2 Z.le f b -> Forall2 (fun w s => w <= s) (map (fun xy => snd xy - fst xy + 1) (combine f b)) shape -> WF out -> rshape out = shape ->
  (forall q e, ext q <> Throw e) -> (Exists (fun x => 0 < x) f \/ Exists (fun y => y < 0) b) ->
  exists enough, forall fuel, (enough <= fuel)%nat ->
    correlateTo fuel n (mkNkernel values (mkBox f b)) (mkRaster shape data) ext out = Some UB.
Proof. exact kernel_origin. Qed.
Print Assumptions C39_origin_refuted.
Example C39_origin_met : correlateTo 20 2 (mkNkernel [1; 2] (mkBox [1; -1] [1; 0])) (mkRaster [2; 3] [1; 2; 3; 4; 5; 6]) (fun _ => Ok 0) (mkRaster [2; 3] (repeat 0 6)) = Some UB.
Proof. vm_compute. reflexivity. Qed.

(** So it is for kernels made from rasters with an origin out of them. *)
Theorem C39_kernelize_refuted : forall n ks kdata origin shape data ext out k, shape <> [] -> n = Z.of_nat (length shape) -> Positive shape -> Positive ks ->
  length ks = length shape -> length origin = length shape -> Forall2 (fun w s => w <= s) ks shape -> WF out -> rshape out = shape ->
  (forall q e, ext q <> Throw e) -> kernelizeAt n (mkRaster ks kdata) origin = Ok k -> ~ InDomain ks origin ->
  exists enough, forall fuel, (enough <= fuel)%nat -> correlateTo fuel n k (mkRaster shape data) ext out = Some UB.
Proof. exact kernelize_origin. Qed.
Print Assumptions C39_kernelize_refuted.
Example C39_kernelize_out_met : exists k, kernelizeAt 1 (mkRaster [2] [1; 2]) [2] = Ok k /\
  correlateTo 20 1 k (mkRaster [3] [1; 2; 3]) (fun _ => Ok 0) (mkRaster [3] (repeat 0 3)) = Some UB.
Proof. eexists. split; [reflexivity|]. vm_compute. reflexivity. Qed.

(** kernel * raster in dimension 1: a new raster of the same shape, with the correlations. *)
Theorem C39_operator_partial : forall l f b values data ext X,
  0 < l -> Z.of_nat (length data) = l -> f <= 0 <= b -> Z.of_nat (length values) = b - f + 1 -> b - f + 1 <= l ->
  (forall q, length q = 1%nat -> ext q = Ok (X q)) -> (forall p, InDomain [l] p -> X p = pixel [l] data p) ->
  exists out', (exists enough, forall fuel, (enough <= fuel)%nat -> kernelApply fuel 1 (mkNkernel values (mkBox [f] [b])) (mkRaster [l] data) ext = Some (Ok out')) /\
    WF out' /\ rshape out' = [l] /\
    forall p, InDomain [l] p -> pixel [l] (rdata out') p = windowCorrelation (windowValue [f] [b] values) [f] [b] X p.
Proof. exact operator_line. Qed.
Print Assumptions C39_operator_partial.
Example C39_operator_met : kernelApply 20 1 (mkNkernel [1; 10] (mkBox [-1] [0])) (mkRaster [3] [1; 2; 3]) (fun q => Ok (pixel [3] [1; 2; 3] q)) = Some (Ok (mkRaster [3] [10; 21; 32])).
Proof. vm_compute. reflexivity. Qed.
