(** C63: two-dimensional correlation with Kernel1d. *)
From Verif Require Import Res SamplingModel RasterModel LineKernelModel Conv2dModel Spec KernelSpec ConvSpec Conv2dProofs.

(** The kernel is applied to the rows then to the columns, with zeros around the raster, whatever the output contained.
    Missing: pixel types which cannot represent the width (see below). *)
Theorem C63_correlate2d_partial : forall convI convO k o w h data old fuel, 0 < w < 2 ^ 61 -> 0 < h < 2 ^ 61 -> Z.of_nat (length data) = w * h -> Z.of_nat (length old) = w * h ->
  0 <= o < Z.of_nat (length k) -> Z.of_nat (length k) <= w -> Z.of_nat (length k) <= h -> convI w = w -> convO w = w -> convO 1 = 1 -> (Z.to_nat (Z.max w h) < fuel)%nat ->
  exists out, correlate2d convI convO fuel (mkLkernel k o) (mkRaster [w; h] data) (mkRaster [w; h] old) = Some (Ok out) /\ Z.of_nat (length out) = w * h /\
    forall p, pixel [w; h] out p = axesCorrelation [w; h] [(k, o, 0%nat); (k, o, 1%nat)] (pixel [w; h] data) p.
Proof. exact correlate2d_ok. Qed.
Print Assumptions C63_correlate2d_partial.
Example C63_correlate2d_met :
  correlate2d (fun z => z) (fun z => z) 10 (mkLkernel [1; 1; 1] 1) (mkRaster [4; 3] (repeat 2 12)) (mkRaster [4; 3] (repeat 7 12)) =
  Some (Ok [8; 12; 12; 8; 12; 18; 18; 12; 8; 12; 12; 8]).
Proof. reflexivity. Qed.

(** The sampled correlation: the values of the correlation of the whole raster at the samples, when both samplings suit the kernel
    (along the second axis, in the rows which the kernel needs). The output raster may be larger than needed: its other pixels do not change. *)
Theorem C63_sparse_partial : forall convI convO k o w h ow oh data old sx sy fuel, let l := Z.of_nat (length k) in
  let from := Z.max 0 (sfront sy - o) in let to := Z.min (h - 1) (sback sy + (l - 1 - o)) in
  0 < h < 2 ^ 61 -> Z.of_nat (length data) = w * h -> count sx <= ow -> count sy <= oh < 2 ^ 61 -> Z.of_nat (length old) = ow * oh ->
  Suits l o w sx -> 0 <= sfront sy <= sback sy -> sback sy < h -> Suits l o (to - from + 1) (mkSampling (sfront sy - from) (sback sy - from) (sstep sy)) ->
  convI w = w -> convO (count sx) = count sx -> convO 1 = 1 -> (Z.to_nat (Z.max w h) < fuel)%nat ->
  exists out, sparseCorrelate2d convI convO fuel (mkLkernel k o) (mkRaster [w; h] data) sx sy (mkRaster [ow; oh] old) = Some (Ok out) /\
    Z.of_nat (length out) = ow * oh /\
    forall n m, 0 <= n < ow -> 0 <= m < oh ->
      pixel [ow; oh] out [n; m] =
      if (n <? count sx) && (m <? count sy)
      then axesCorrelation [w; h] [(k, o, 0%nat); (k, o, 1%nat)] (pixel [w; h] data) [sfront sx + n * sstep sx; sfront sy + m * sstep sy]
      else pixel [ow; oh] old [n; m].
Proof. exact sparse2d_ok. Qed.
Print Assumptions C63_sparse_partial.
Example C63_sparse_met : let sx := mkSampling 1 4 2 in let sy := mkSampling 2 3 1 in
  Suits 3 1 6 sx /\ Suits 3 1 4 (mkSampling 1 2 1) /\ count sx = 2 /\ count sy = 2 /\
  sparseCorrelate2d (fun z => z) (fun z => z) 10 (mkLkernel [1; 10; 100] 1) (mkRaster [6; 5] (zrange 1 30)) sx sy (mkRaster [2; 2] [0; 0; 0; 0]) =
  Some (Ok [249417; 274059; 323343; 347985]).
Proof.
  cbv zeta. split; [|split; [|repeat split; reflexivity]]; unfold Suits; cbn [sfront sback sstep];
    (split; [lia|]); (split; [lia|]); (split; [lia|]); (split; [lia|]); (split; [lia|]); intros n Hn; lia.
Qed.

(** Rows of 256 bytes: the offset from a row to the next is converted to the pixel type, and only the first row is processed. *)
Theorem C63_bytes_refuted : let byte := fun z => z mod 256 in let data := repeat 0 256 ++ repeat 1 256 in exists out,
  correlate2d byte byte 300 (mkLkernel [1] 0) (mkRaster [256; 2] data) (mkRaster [256; 2] (repeat 0 512)) = Some (Ok out) /\
  zget data 256 = Ok 1 /\ zget out 256 = Ok 0.
Proof. exact bytes_witness. Qed.
Print Assumptions C63_bytes_refuted.

(** A region which does not reach the right border of the raster: the intermediate raster is overrun. *)
Theorem C63_region_refuted : sparseCorrelate2d (fun z => z) (fun z => z) 20 (mkLkernel [1] 0) (mkRaster [6; 1] (zrange 1 6)) (mkSampling 0 1 1) (mkSampling 0 0 1) (mkRaster [2; 1] [0; 0]) = Some UB.
Proof. exact region_witness. Qed.
Print Assumptions C63_region_refuted.
