(** C84: correlations print nothing and are defined for every type of pixels: refuted, and what is printed. *)
From Verif Require Import Res Spec VecModel BoxModel RasterModel SamplingModel LineKernelModel SeparableModel Conv2dModel WidthModel WidthSpec
  KernelSpec SeparableSpec PrintModel PrintSpec.
From Verif Require Import PrintProofs.

(** When it is defined, a separable kernel has the result of C37, and prints one line per axis. *)
Theorem C84_separable_result : forall fuel n t s r out cs, sapplyP fuel n t s r = Some (Ok (out, cs)) ->
  sapply fuel n s r = Some (Ok out) /\ length cs = length (saxes s).
Proof. exact sapplyP_result. Qed.
Print Assumptions C84_separable_result.
Example C84_separable_result_met : sapplyP 20 2 (VInt int32) (sobel 1 0 [1]) (mkRaster [3; 3] [1; 2; 4; 1; 3; 4; 1; 2; 5]) =
  Some (Ok (mkRaster [3; 3] [-7; -9; 7; -10; -13; 10; -7; -11; 7], [mkCall "%li: %i -> %i" [1; -7; -7]; mkCall "%li: %i -> %i" [0; -2; -7]])).
Proof. reflexivity. Qed.

(** It is defined if and only if the first pixels after each axis are integers of at most 32 bits which int can represent.
    The lines which are printed are then those of the specification. *)
Theorem C84_separable : forall shape t s ks data, Positive shape -> Forall2 (Found (smap s)) (saxes s) ks -> Forall (Fits shape) ks -> Z.of_nat (length data) = prod shape ->
  exists out enough, forall fuel, (enough <= fuel)%nat ->
    sapply fuel (Z.of_nat (length shape)) s (mkRaster shape data) = Some (Ok (mkRaster shape out)) /\
    ((forall j, (0 < j <= length ks)%nat -> Printable t (stage shape ks (pixel shape data) j)) ->
     sapplyP fuel (Z.of_nat (length shape)) t s (mkRaster shape data) = Some (Ok (mkRaster shape out, separableCalls shape ks (pixel shape data)))) /\
    ((exists j, (0 < j <= length ks)%nat /\ ~ Printable t (stage shape ks (pixel shape data) j)) ->
     sapplyP fuel (Z.of_nat (length shape)) t s (mkRaster shape data) = Some UB).
Proof. exact sapplyP_ok. Qed.
Print Assumptions C84_separable.
Example C84_separable_met : let s := sobel 1 0 [1] in let ks := [([1; 0; -1], 1, 0%nat); ([1; 2; 1], 1, 1%nat)] in let X := pixel [3; 3] [1; 2; 4; 1; 3; 4; 1; 2; 5] in
  Positive [3; 3] /\ Forall2 (Found (smap s)) (saxes s) ks /\ Forall (Fits [3; 3]) ks /\ stage [3; 3] ks X 1 = -2 /\ stage [3; 3] ks X 2 = -7 /\
  Printable (VInt (mkItype true 16)) (-2) /\ ~ Printable VFloat (-2) /\
  separableCalls [3; 3] ks X = [mkCall "%li: %i -> %i" [1; -7; -7]; mkCall "%li: %i -> %i" [0; -2; -7]].
Proof.
  cbv zeta. split; [repeat constructor|]. split; [repeat constructor|].
  split; [constructor; [cbn; lia|constructor; [cbn; lia|constructor]]|]. split; [reflexivity|]. split; [reflexivity|]. split; [|split; [|reflexivity]].
  - unfold Printable. cbn. lia.
  - unfold Printable. cbn. tauto.
Qed.

(** For pixels which are floating-point numbers or integers of 64 bits, it is undefined, whatever the raster. *)
Theorem C84_type_refuted : forall fuel n t s r out cs, ~ PassedAsInt t -> sapplyP fuel n t s r = Some (Ok (out, cs)) -> saxes s = [].
Proof. exact sapplyP_not_int. Qed.
Print Assumptions C84_type_refuted.
Example C84_type_met : ~ PassedAsInt VFloat /\ ~ PassedAsInt (VInt int64) /\ PassedAsInt (VInt (mkItype false 8)) /\
  sapplyP 20 2 VFloat (sobel 1 0 [1]) (mkRaster [3; 3] [1; 2; 4; 1; 3; 4; 1; 2; 5]) = Some UB.
Proof. cbn. split; [tauto|]. split; [lia|]. split; [lia|]. reflexivity. Qed.

(** A whole line and Kernel1d: one line per pixel is printed, and it is undefined for floating-point pixels or integers of 64 bits. *)
Theorem C84_line : forall t k o min data size istride x m0 odata osize oback ostride fuel,
  0 <= o < Z.of_nat (length k) -> Z.of_nat (length k) <= size -> size < 2 ^ 61 -> Line min data size istride x ->
  ostride <> 0 -> (forall i, 0 <= i < size -> 0 <= odata + i * ostride < Z.of_nat (length m0)) -> (Z.to_nat size < fuel)%nat ->
  let din := mkDsamples data size (mkSampling 0 (size - 1) 1) istride in
  let dout := mkDsamples odata osize (mkSampling 0 oback 1) ostride in
  exists m, correlate fuel (mkLkernel k o) min din m0 dout = Some (Ok m) /\
    ((forall i, 0 <= i < size -> Printable t (correlation k o x i)) ->
     correlateP fuel t (mkLkernel k o) min din m0 dout =
       Some (Ok (m, mkCall "in = [%li:%li:%li:%li]" [0; size - 1; 1; istride] :: map (lineCall (Z.of_nat (length k)) o size (correlation k o x)) (zrange 0 (size - 1))))) /\
    (~ PassedAsInt t -> correlateP fuel t (mkLkernel k o) min din m0 dout = Some UB).
Proof. exact correlateP_all. Qed.
Print Assumptions C84_line.
Example C84_line_met : let x := padded [1; 2; 3; 4] in Line [1; 2; 3; 4] 0 4 1 x /\
  correlateP 10 (VInt int32) (mkLkernel [1; 1; 1] 1) [1; 2; 3; 4] (mkDsamples 0 4 (mkSampling 0 3 1) 1) [0; 0; 0; 0] (mkDsamples 0 4 (mkSampling 0 3 1) 1) =
  Some (Ok ([3; 6; 9; 7], [mkCall "in = [%li:%li:%li:%li]" [0; 3; 1; 1]; mkCall "Begin (<%li): out[%li] = %i" [1; 0; 3];
    mkCall "Center (<=%li): out[%li] = %i" [2; 1; 6]; mkCall "Center (<=%li): out[%li] = %i" [2; 2; 9]; mkCall "End (<=%li): out[%li] = %i" [3; 3; 7]])).
Proof.
  cbv zeta. split; [|reflexivity]. split; intros t Ht.
  - assert (D : t = 0 \/ t = 1 \/ t = 2 \/ t = 3) by lia. destruct D as [->|[->|[->| ->]]]; reflexivity.
  - unfold padded, zget. destruct (Z.ltb_spec t 0); [reflexivity|]. destruct (nth_error [1; 2; 3; 4] (Z.to_nat t)) eqn:E; [|reflexivity].
    assert (N : nth_error [1; 2; 3; 4] (Z.to_nat t) <> None) by congruence. apply nth_error_Some in N. cbn in N. lia.
Qed.

(** Any correlation with Kernel1d which is defined has the result of C35, C36 and C63, and has computed no pixel
    if the pixels are not integers of at most 32 bits. *)
Theorem C84_samples_result : forall fuel t k min din mout dout m cs, correlateP fuel t k min din mout dout = Some (Ok (m, cs)) ->
  correlate fuel k min din mout dout = Some (Ok m) /\ (exists c l, cs = c :: l) /\ (~ PassedAsInt t -> m = mout).
Proof. exact correlateP_result. Qed.
Print Assumptions C84_samples_result.
Theorem C84_along_result : forall fuel n t k axis r out cs, alongP fuel n t k axis r = Some (Ok (out, cs)) ->
  correlateAlong fuel n k axis r = Some (Ok out) /\ (~ PassedAsInt t -> rdata out = repeat 0 (Z.to_nat (shapeSize (rshape r)))).
Proof. exact alongP_result. Qed.
Print Assumptions C84_along_result.
Theorem C84_sparse_2d_result : forall t convI convO fuel k rin sx sy rout out cs, sparseCorrelate2dP t convI convO fuel k rin sx sy rout = Some (Ok (out, cs)) ->
  sparseCorrelate2d convI convO fuel k rin sx sy rout = Some (Ok out) /\ cs <> [] /\ (~ PassedAsInt t -> out = rdata rout).
Proof. exact sparse2dP_result. Qed.
Print Assumptions C84_sparse_2d_result.
(** In dimension 2, the raster filtered along the first axis, and finally the whole output, are printed. *)
Theorem C84_sparse_2d_rasters : forall t convI convO fuel k rin sx sy rout out cs ow oh, rshape rout = [ow; oh] ->
  sparseCorrelate2dP t convI convO fuel k rin sx sy rout = Some (Ok (out, cs)) ->
  exists xw xh tmp first middle, cs = first ++ rasterCalls "xConvolved:" xw xh tmp ++ middle ++ rasterCalls "out:" ow oh out.
Proof. exact sparse2dP_rasters. Qed.
Print Assumptions C84_sparse_2d_rasters.
Example C84_rasters_met : rasterCalls "out:" 2 2 [10; 6; 7; 4] =
  [mkCall "out:" [2; 2]; mkCall "%i " [10]; mkCall "%i " [6]; mkCall "" []; mkCall "%i " [7]; mkCall "%i " [4]; mkCall "" []].
Proof. reflexivity. Qed.
Example C84_results_met :
  option_map (fun r => match r with Ok (out, cs) => Some (rdata out, length cs) | _ => None end) (alongP 10 2 (VInt int32) (mkLkernel [1; 1] 0) 1 (mkRaster [2; 2] [1; 2; 3; 4])) = Some (Some ([4; 6; 3; 4], 6%nat)) /\
  option_map (fun r => match r with Ok (out, cs) => Some (out, length cs) | _ => None end)
    (sparseCorrelate2dP (VInt int32) (fun z => z) (fun z => z) 10 (mkLkernel [1; 1] 0) (mkRaster [2; 2] [1; 2; 3; 4]) (mkSampling 0 1 1) (mkSampling 0 1 1) (mkRaster [2; 2] [0; 0; 0; 0])) =
  Some (Some ([10; 6; 7; 4], 35%nat)).
Proof. split; reflexivity. Qed.
