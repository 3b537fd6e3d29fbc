(** Properties C34 to C38 and C57: line kernels and separable kernels. *)
From Coq Require Import Permutation.
From Verif Require Import Res VecModel BoxModel RasterModel SamplingModel LineKernelModel SeparableModel Spec KernelSpec SeparableSpec
  LineKernelProofs SeparableProofs ComposeProofs.

(** C34. Line correlation: every sample has its value, the rest of the memory does not change, no error. *)
Theorem C34_correlate : forall k o min data size istride x m0 odata osize oback ostride fuel,
  0 <= o < Z.of_nat (length k) -> Z.of_nat (length k) <= size -> size < 2 ^ 61 -> Line min data size istride x ->
  ostride <> 0 -> (forall i, 0 <= i < size -> 0 <= odata + i * ostride < Z.of_nat (length m0)) -> (Z.to_nat size < fuel)%nat ->
  exists m, correlate fuel (mkLkernel k o) min (mkDsamples data size (mkSampling 0 (size - 1) 1) istride) m0
                (mkDsamples odata osize (mkSampling 0 oback 1) ostride) = Some (Ok m) /\
    length m = length m0 /\
    (forall i, 0 <= i < size -> zget m (odata + i * ostride) = Ok (correlation k o x i)) /\
    (forall a, (forall i, 0 <= i < size -> a <> odata + i * ostride) -> zget m a = zget m0 a).
Proof. exact correlate_all. Qed.
Print Assumptions C34_correlate.

Example C34_met :
  Line [9; 1; 9; 2; 9; 3; 9; 4] 1 4 2 (fun t => if (0 <=? t) && (t <? 4) then t + 1 else 0) /\
  correlate 10 (mkLkernel [1; 10; 100] 1) [9; 1; 9; 2; 9; 3; 9; 4] (mkDsamples 1 4 (mkSampling 0 3 1) 2) [0; 0; 0; 0; 7]
    (mkDsamples 0 4 (mkSampling 0 3 1) 1) = Some (Ok [210; 321; 432; 43; 7]) /\
  correlation [1; 10; 100] 1 (fun t => if (0 <=? t) && (t <? 4) then t + 1 else 0) 3 = 43.
Proof.
  split; [split|split; reflexivity].
  - intros t Ht. assert (t = 0 \/ t = 1 \/ t = 2 \/ t = 3) as [->|[->|[->| ->]]] by lia; reflexivity.
  - intros t Ht. destruct (Z.leb_spec 0 t), (Z.ltb_spec t 4); cbn; lia.
Qed.

(** Kernels longer than the line: undefined behaviour for a line alone in its block. *)
Theorem C34_long_kernel : forall k o min m0 dout fuel,
  0 <= o < Z.of_nat (length k) -> Z.of_nat (length k) < 2 ^ 61 -> 1 <= Z.of_nat (length min) ->
  Z.of_nat (length min) + 2 <= Z.of_nat (length k) \/ (o = 0 /\ Z.of_nat (length min) < Z.of_nat (length k)) -> (length k < fuel)%nat ->
  correlate fuel (mkLkernel k o) min (mkDsamples 0 (Z.of_nat (length min)) (mkSampling 0 (Z.of_nat (length min) - 1) 1) 1) m0 dout = Some UB.
Proof. exact correlate_long. Qed.
Print Assumptions C34_long_kernel.
Example C34_long_met : correlate 10 (mkLkernel [1; 1; 1; 1; 1] 2) [1; 2; 3] (mkDsamples 0 3 (mkSampling 0 2 1) 1) [0; 0; 0]
  (mkDsamples 0 3 (mkSampling 0 2 1) 1) = Some UB.
Proof. reflexivity. Qed.

(** C35. Sparse correlation: correct if no sample falls in the gap between the second and third loops, undefined otherwise. *)
Theorem C35_sparse_partial : forall k o min data size istride x front step m0 odata osize ofront oback ostep ostride fuel,
  0 <= o < Z.of_nat (length k) -> Z.of_nat (length k) <= size -> size < 2 ^ 61 -> Line min data size istride x ->
  0 <= front < 2 ^ 61 -> 1 <= step <= size - (Z.of_nat (length k) - o - 1) -> 1 <= ostep -> ostride <> 0 ->
  (forall n, 0 <= n -> front + n * step < size -> 0 <= odata + (ofront + n * ostep) * ostride < Z.of_nat (length m0)) -> (Z.to_nat size < fuel)%nat ->
  let f := Z.of_nat (length k) - o - 1 in
  let gap i := o <= i /\ size - f - step < i < size - f - 1 in
  let run := correlate fuel (mkLkernel k o) min (mkDsamples data size (mkSampling front (size - 1) step) istride) m0
                (mkDsamples odata osize (mkSampling ofront oback ostep) ostride) in
  ((forall n, 0 <= n -> ~ gap (front + n * step)) ->
   exists m, run = Some (Ok m) /\ length m = length m0 /\
    (forall n, 0 <= n -> front + n * step < size -> zget m (odata + (ofront + n * ostep) * ostride) = Ok (correlation k o x (front + n * step))) /\
    (forall a, (forall n, 0 <= n -> front + n * step < size -> a <> odata + (ofront + n * ostep) * ostride) -> zget m a = zget m0 a)) /\
  ((exists n, 0 <= n /\ gap (front + n * step)) -> run = Some UB).
Proof. exact correlate_samples. Qed.
Print Assumptions C35_sparse_partial.
Example C35_sparse_met :
  correlate 20 (mkLkernel [1; 10; 100] 1) [1; 2; 3; 4; 5; 6; 7] (mkDsamples 0 7 (mkSampling 0 6 2) 1) [0; 0; 0; 0; 8]
    (mkDsamples 0 4 (mkSampling 0 3 1) 1) = Some (Ok [210; 432; 654; 76; 8]) /\
  correlate 20 (mkLkernel [1; 1; 1] 1) (zrange 0 13) (mkDsamples 0 14 (mkSampling 2 13 3) 1) (zrange 0 13)
    (mkDsamples 0 14 (mkSampling 0 13 1) 1) = Some UB.
Proof. split; reflexivity. Qed.

(** For every back of the sampling: the samples which the three loops reach are written and no other element is.
    The result is the expected one exactly when the samples reached are those up to back. *)
Theorem C35_back_partial : forall k o min data size istride x front back step m0 odata osize ofront oback ostep ostride fuel,
  0 <= o < Z.of_nat (length k) -> Z.of_nat (length k) <= size -> size < 2 ^ 61 -> Line min data size istride x ->
  0 <= front < 2 ^ 61 -> back < size -> 1 <= step <= size - (Z.of_nat (length k) - o - 1) -> 1 <= ostep -> ostride <> 0 ->
  let f := Z.of_nat (length k) - o - 1 in
  let reached i := i < o \/ i <= size - f - step \/ i <= back in
  let gap i := o <= i <= back /\ size - f - step < i < size - f - 1 in
  (forall n, 0 <= n -> reached (front + n * step) -> 0 <= odata + (ofront + n * ostep) * ostride < Z.of_nat (length m0)) -> (Z.to_nat size < fuel)%nat ->
  let run := correlate fuel (mkLkernel k o) min (mkDsamples data size (mkSampling front back step) istride) m0
                (mkDsamples odata osize (mkSampling ofront oback ostep) ostride) in
  ((forall n, 0 <= n -> ~ gap (front + n * step)) ->
   exists m, run = Some (Ok m) /\ length m = length m0 /\
    (forall n, 0 <= n -> reached (front + n * step) -> zget m (odata + (ofront + n * ostep) * ostride) = Ok (correlation k o x (front + n * step))) /\
    (forall a, (forall n, 0 <= n -> reached (front + n * step) -> a <> odata + (ofront + n * ostep) * ostride) -> zget m a = zget m0 a)) /\
  ((exists n, 0 <= n /\ gap (front + n * step)) -> run = Some UB).
Proof. exact correlate_back. Qed.
Print Assumptions C35_back_partial.
Example C35_back_met :
  correlate 20 (mkLkernel [1; 1; 1] 1) (repeat 1 14) (mkDsamples 0 14 (mkSampling 1 12 3) 1) (repeat 0 5)
    (mkDsamples 0 5 (mkSampling 0 4 1) 1) = Some (Ok [3; 3; 3; 3; 0]).
Proof. reflexivity. Qed.

(** The back of the sampling is ignored by the second loop, which writes further samples. *)
Theorem C35_back_refuted : exists k min din mout dout m,
  sback (dSampling din) = 1 /\ dSize din = 4 /\
  correlate 10 k min din mout dout = Some (Ok m) /\ zget m 3 <> zget mout 3 /\ zget mout 3 = Ok (-1).
Proof. exact correlate_back_witness. Qed.
Print Assumptions C35_back_refuted.

(** A long step wraps the unsigned bound of the second loop, which then reads past the line. *)
Theorem C35_step_refuted : exists k min din mout dout,
  lsize k <= dSize din /\ dSize din = Z.of_nat (length min) /\ sstep (dSampling din) = 3 /\
  correlate 10 k min din mout dout = Some UB.
Proof. exact correlate_step_witness. Qed.
Print Assumptions C35_step_refuted.

(** C36. Correlation along an axis. *)
Theorem C36_along : forall shape data k o a, (a < length shape)%nat -> Positive shape -> Z.of_nat (length data) = prod shape ->
  0 <= o < Z.of_nat (length k) -> Z.of_nat (length k) <= nth a shape 0 -> nth a shape 0 < 2 ^ 61 ->
  exists out, Z.of_nat (length out) = prod shape /\
    (forall p, pixel shape out p = axisCorrelation shape k o a (pixel shape data) p) /\
    exists enough, forall fuel, (enough <= fuel)%nat ->
      correlateAlong fuel (Z.of_nat (length shape)) (mkLkernel k o) (Z.of_nat a) (mkRaster shape data) = Some (Ok (mkRaster shape out)).
Proof. exact along_spec. Qed.
Print Assumptions C36_along.
Example C36_met :
  correlateAlong 10 2 (mkLkernel [1; 10] 0) 1 (mkRaster [3; 2] [1; 2; 3; 4; 5; 6]) = Some (Ok (mkRaster [3; 2] [41; 52; 63; 4; 5; 6])) /\
  axisCorrelation [3; 2] [1; 10] 0 1 (pixel [3; 2] [1; 2; 3; 4; 5; 6]) [2; 0] = 63.
Proof. split; reflexivity. Qed.

(** C37. Separable kernels apply their line kernels one after the other. *)
Theorem C37_apply : forall shape s ks data, Positive shape -> Forall2 (Found (smap s)) (saxes s) ks -> Forall (Fits shape) ks ->
  Z.of_nat (length data) = prod shape ->
  exists out enough, Z.of_nat (length out) = prod shape /\
    (forall p, pixel shape out p = axesCorrelation shape ks (pixel shape data) p) /\
    forall fuel, (enough <= fuel)%nat ->
      sapply fuel (Z.of_nat (length shape)) s (mkRaster shape data) = Some (Ok (mkRaster shape out)).
Proof. exact apply_spec. Qed.
Print Assumptions C37_apply.
Example C37_met :
  Forall2 (Found (smap (sobel 1 0 [1]))) (saxes (sobel 1 0 [1])) [([1; 0; -1], 1, 0%nat); ([1; 2; 1], 1, 1%nat)] /\
  Forall (Fits [3; 3]) [([1; 0; -1], 1, 0%nat); ([1; 2; 1], 1, 1%nat)] /\
  sapply 20 2 (sobel 1 0 [1]) (mkRaster [3; 3] [1; 2; 4; 1; 2; 4; 1; 2; 4]) =
    Some (Ok (mkRaster [3; 3] [-6; -9; 6; -8; -12; 8; -6; -9; 6])).
Proof.
  split; [repeat constructor|]. split; [|reflexivity].
  repeat constructor; cbn; lia.
Qed.

Theorem C37_order : forall shape m axes axes' ks data, Positive shape -> Forall2 (Found m) axes ks -> Forall (Fits shape) ks -> NoDup axes ->
  Permutation axes axes' -> Z.of_nat (length data) = prod shape ->
  exists out, exists enough, forall fuel, (enough <= fuel)%nat ->
    sapply fuel (Z.of_nat (length shape)) (mkSkernel axes m) (mkRaster shape data) = Some (Ok (mkRaster shape out)) /\
    sapply fuel (Z.of_nat (length shape)) (mkSkernel axes' m) (mkRaster shape data) = Some (Ok (mkRaster shape out)).
Proof. exact apply_order. Qed.
Print Assumptions C37_order.
Example C37_order_met : let m := smap (sobel 1 0 [1]) in let r := mkRaster [3; 3] [1; 2; 4; 1; 3; 4; 1; 2; 5] in
  sapply 20 2 (mkSkernel [1; 0] m) r = sapply 20 2 (mkSkernel [0; 1] m) r /\
  sapply 20 2 (mkSkernel [1; 0] m) r = Some (Ok (mkRaster [3; 3] [-7; -9; 7; -10; -13; 10; -7; -11; 7])).
Proof. split; reflexivity. Qed.

Theorem C37_linear : forall shape s ks x y z c d, Positive shape -> Forall2 (Found (smap s)) (saxes s) ks -> Forall (Fits shape) ks ->
  Z.of_nat (length x) = prod shape -> Z.of_nat (length y) = prod shape -> Z.of_nat (length z) = prod shape ->
  (forall i, 0 <= i < prod shape -> padded z i = c * padded x i + d * padded y i) ->
  exists x' y' z' enough, (forall fuel, (enough <= fuel)%nat ->
    sapply fuel (Z.of_nat (length shape)) s (mkRaster shape x) = Some (Ok (mkRaster shape x')) /\
    sapply fuel (Z.of_nat (length shape)) s (mkRaster shape y) = Some (Ok (mkRaster shape y')) /\
    sapply fuel (Z.of_nat (length shape)) s (mkRaster shape z) = Some (Ok (mkRaster shape z'))) /\
    Z.of_nat (length z') = prod shape /\
    forall i, 0 <= i < prod shape -> padded z' i = c * padded x' i + d * padded y' i.
Proof. exact apply_linear. Qed.
Print Assumptions C37_linear.
Example C37_linear_met : forall i, 0 <= i < prod [2; 2] -> padded [5; 8; 11; 14] i = 2 * padded [1; 2; 3; 4] i + 1 * padded [3; 4; 5; 6] i.
Proof. cbn. intros i Hi. assert (i = 0 \/ i = 1 \/ i = 2 \/ i = 3) as [->|[->|[->| ->]]] by lia; reflexivity. Qed.

Theorem C37_combine : forall shape a b ksa ksb data, Positive shape ->
  Forall2 (Found (smap a)) (saxes a) ksa -> Forall2 (Found (smap b)) (saxes b) ksb ->
  Forall (Fits shape) ksa -> Forall (Fits shape) ksb ->
  (forall axis, In axis (saxes b) -> ~ In axis (map fst (smap a))) -> Z.of_nat (length data) = prod shape ->
  exists tmp out enough, forall fuel, (enough <= fuel)%nat ->
    sapply fuel (Z.of_nat (length shape)) a (mkRaster shape data) = Some (Ok tmp) /\
    sapply fuel (Z.of_nat (length shape)) b tmp = Some (Ok out) /\
    sapply fuel (Z.of_nat (length shape)) (scombine a b) (mkRaster shape data) = Some (Ok out).
Proof. exact combine_spec. Qed.
Print Assumptions C37_combine.
Example C37_combine_met : let a := salong (mkLkernel [1; 0; -1] 1) [0] in let b := salong (mkLkernel [1; 2; 1] 1) [1; 2] in
  saxes (scombine a b) = [0; 1; 2] /\ (forall axis, In axis (saxes b) -> ~ In axis (map fst (smap a))).
Proof. split; [reflexivity|]. cbn. intros axis H [E|[]]. subst. destruct H as [H|[H|[]]]; discriminate. Qed.

(** With an axis in common, the combination applies the left kernel twice. *)
Theorem C37_shared_axis : exists a b r ra rba rab,
  saxes a = [0] /\ saxes b = [0] /\
  sapply 10 1 a r = Some (Ok ra) /\ sapply 10 1 b ra = Some (Ok rba) /\ sapply 10 1 (scombine a b) r = Some (Ok rab) /\ rab <> rba.
Proof. exact combine_witness. Qed.
Print Assumptions C37_shared_axis.

(** A separable kernel with distinct axes is the ND kernel whose values are the products. *)
Theorem C37_product : forall shape ks, NoDup (map snd ks) -> Forall (fun koa => (snd koa < length shape)%nat) ks ->
  forall X, Supported shape X -> forall p, InDomain shape p ->
  axesCorrelation shape ks X p =
  windowCorrelation (productKernel ks) (fst (productWindow (length shape) ks)) (snd (productWindow (length shape) ks)) X p.
Proof. exact axes_product. Qed.
Print Assumptions C37_product.
Example C37_product_met : let ks := [([1; 0; -1], 1, 0%nat); ([1; 2; 1], 1, 1%nat)] in
  productWindow 2 ks = ([-1; -1], [1; 1]) /\ productKernel ks [-1; 0] = 2 /\ productKernel ks [1; 1] = -1 /\
  windowCorrelation (productKernel ks) [-1; -1] [1; 1] (pixel [3; 3] [1; 2; 4; 1; 2; 4; 1; 2; 4]) [1; 1] = -12.
Proof. repeat split. Qed.

(** C38. compose() yields the mirrored kernel: the value at [w] is the product of the line kernels at [-w]. *)
Theorem C38_compose_partial : forall ks, NoDup (map snd ks) ->
  Forall (fun koa => 0 <= snd (fst koa) < Z.of_nat (length (fst (fst koa)))) ks ->
  Forall (fun koa => Z.of_nat (length (fst (fst koa))) < 2 ^ 61) ks ->
  let n := Z.to_nat (fold_right Z.max 0 (saxes (separable ks)) + 1) in
  let f := fst (productWindow n ks) in
  let b := snd (productWindow n ks) in
  exists values enough,
  Z.of_nat (length values) = prod (map (fun xy => snd xy - fst xy + 1) (combine f b)) /\
  (forall w, Between f b w -> windowValue f b values w = productKernel ks (map Z.opp w)) /\
  forall fuel, (enough <= fuel)%nat -> compose fuel (separable ks) = Some (Ok (mkBox f b, values)).
Proof. exact compose_spec. Qed.
Print Assumptions C38_compose_partial.
Example C38_met : compose 20 (separable [([1; 2; 4], 1, 0%nat); ([1; 10; 1], 1, 1%nat)]) =
  Some (Ok (mkBox [-1; -1] [1; 1], [4; 2; 1; 40; 20; 10; 4; 2; 1])).
Proof. reflexivity. Qed.

(** It is the kernel of same correlation if the line kernels are symmetric about their origin. *)
Theorem C38_symmetric_partial : forall ks shape X p values, NoDup (map snd ks) -> Forall Symmetric ks ->
  Forall (fun koa => (snd koa < length shape)%nat) ks -> Supported shape X -> InDomain shape p ->
  let f := fst (productWindow (length shape) ks) in
  let b := snd (productWindow (length shape) ks) in
  (forall w, Between f b w -> windowValue f b values w = productKernel ks (map Z.opp w)) ->
  windowCorrelation (windowValue f b values) f b X p = axesCorrelation shape ks X p.
Proof. exact compose_symmetric. Qed.
Print Assumptions C38_symmetric_partial.
Example C38_symmetric_met : Symmetric ([1; 10; 1], 1, 1%nat).
Proof. exact symmetric_witness. Qed.

(** In general it is not. *)
Theorem C38_refuted : exists ks f b values X p, NoDup (map snd ks) /\ compose 20 (separable ks) = Some (Ok (mkBox f b, values)) /\
  Supported [3] X /\ InDomain [3] p /\ windowCorrelation (windowValue f b values) f b X p <> axesCorrelation [3] ks X p.
Proof. exact compose_witness. Qed.
Print Assumptions C38_refuted.

(** C57. The default origin of line kernels is the center or the first value, depending on the evaluation order. *)
Theorem C57_origin_refuted : forall values,
  lmake values (mkLkernel values (Z.of_nat (length values) / 2)) /\ lmake values (mkLkernel values 0) /\
  (forall k, lmake values k -> lvalues k = values /\ (lorigin k = Z.of_nat (length values) / 2 \/ lorigin k = 0)).
Proof. exact lmake_origin. Qed.
Print Assumptions C57_origin_refuted.
Example C57_met : mkLkernel [1; 2; 1] 1 <> mkLkernel [1; 2; 1] 0.
Proof. congruence. Qed.
