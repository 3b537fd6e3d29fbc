(** C85: correlations give the weighted sums of the pixels, whatever the types of the kernel and pixels: refuted, and what they give. *)
From Coq Require Import QArith.
From Verif Require Import Res VecModel BoxModel RasterModel SamplingModel LineKernelModel SeparableModel WidthModel WidthSpec TypesModel MixedModel MixedSpec.
From Verif Require Import MixedProofs.
Open Scope Z_scope.

(** For integral types, whenever it is defined, the result is the exact one modulo the number of values of the type of the kernel,
    whatever the type of the pixels. *)
Theorem C85_separable : forall t tin fuel n s r out, Wf t -> sapplyT (innerStep t tin) t fuel n s r = Some (Ok out) ->
  exists exact, sapply fuel n s r = Some (Ok (mkRaster (rshape out) exact)) /\ Forall2 (Wrapped t) exact (rdata out).
Proof. exact separable_wraps. Qed.
Print Assumptions C85_separable.
Example C85_separable_met : Wf (mkItype true 8) /\ Wf (mkItype false 32) /\
  sapplyT (innerStep (mkItype true 8) (mkItype false 32)) (mkItype true 8) 20 2 (sobel 1 0 [1]) (mkRaster [3; 3] [1; 2; 4; 1; 3; 4; 1; 2; 4000000005]) =
    Some (Ok (mkRaster [3; 3] [-7; -9; 7; -10; -13; 10; -7; -11; 7])) /\
  sapply 20 2 (sobel 1 0 [1]) (mkRaster [3; 3] [1; 2; 4; 1; 3; 4; 1; 2; 4000000005]) = Some (Ok (mkRaster [3; 3] [-7; -9; 7; -10; -4000000013; 10; -7; -8000000011; 7])) /\
  Wrapped (mkItype true 8) (-4000000013) (-13).
Proof.
  split; [left; cbn; lia|]. split; [right; cbn; lia|]. split; [reflexivity|]. split; [reflexivity|]. split; [unfold InType; cbn; lia|]. exists 15625000. reflexivity.
Qed.

(** Hence it is exact if the exact result has the type of the kernel, even if intermediate values have not. *)
Theorem C85_exact : forall t tin fuel n s r out shape exact, Wf t -> sapplyT (innerStep t tin) t fuel n s r = Some (Ok out) ->
  sapply fuel n s r = Some (Ok (mkRaster shape exact)) -> Forall (InType t) exact -> out = mkRaster shape exact.
Proof. exact separable_exact. Qed.
Print Assumptions C85_exact.
Example C85_exact_met : sapplyT (innerStep int32 (mkItype false 32)) int32 20 1 (salong (mkLkernel [1; -1] 0) [0]) (mkRaster [2] [4000000000; 4000000005]) =
    Some (Ok (mkRaster [2] [-5; -294967291])) /\
  sapplyT (innerStep (mkItype true 8) (mkItype true 8)) (mkItype true 8) 20 1 (salong (mkLkernel [1; 1; -1] 0) [0]) (mkRaster [3] [100; 100; 90]) =
    Some (Ok (mkRaster [3] [110; -66; 90])) /\
  sapply 20 1 (salong (mkLkernel [1; 1; -1] 0) [0]) (mkRaster [3] [100; 100; 90]) = Some (Ok (mkRaster [3] [110; 190; 90])).
Proof. split; [reflexivity|]. split; reflexivity. Qed.

(** Along one axis, it is defined if no sum can overflow, and the exact correlation is defined. *)
Theorem C85_defined : forall t tin K M fuel n k axis r out, Wf t -> Wf tin -> 0 <= K -> 0 <= M -> KernelValues t K k -> PixelValues tin M (rdata r) ->
  NoOverflow t tin (lsize k) K M -> correlateAlong fuel n k axis r = Some (Ok out) ->
  exists data, correlateAlongT (innerStep t tin) fuel n k axis r = Some (Ok (mkRaster (rshape out) data)) /\ Forall2 (Wrapped t) (rdata out) data.
Proof. exact along_defined. Qed.
Print Assumptions C85_defined.
Example C85_defined_met :
  (* Signed sums which fit *) NoOverflow int32 int32 3 1000 700000 /\
  (* 8 bits: always *) NoOverflow (mkItype false 8) (mkItype false 8) 1000000 255 255 /\
  (* Signed 16 bits: always *) NoOverflow (mkItype true 16) (mkItype true 16) 1000000 32768 32768 /\
  (* Unsigned 32 bits: always *) NoOverflow int32 (mkItype false 32) 1000000 (2 ^ 31) (2 ^ 32) /\
  (* Unsigned 16 bits: not always *) ~ NoOverflow (mkItype false 16) (mkItype false 16) 1 65535 65535 /\
  KernelValues int32 1000 (mkLkernel [1; -1000; 3] 1) /\ PixelValues int32 700000 [1; -700000].
Proof.
  split; [right; left; cbn; lia|]. split; [right; right; cbn; lia|]. split; [right; right; cbn; lia|]. split; [left; reflexivity|]. split.
  - intros [H|[[H _]|H]]; cbn in H; try discriminate; lia.
  - split; repeat constructor; cbn; lia.
Qed.

(** Sums of narrow integers wrap: they are not exact although the arithmetic is made in a type which can represent them. *)
Theorem C85_wrap_refuted : ~ (forall t tin fuel n s r out exact, Wf t -> Wf tin ->
  Forall (fun ik => Forall (InType t) (lvalues (snd ik))) (smap s) -> Forall (InType tin) (rdata r) ->
  sapplyT (innerStep t tin) t fuel n s r = Some (Ok out) -> sapply fuel n s r = Some (Ok exact) -> out = exact).
Proof. exact wrap_refuted. Qed.
Print Assumptions C85_wrap_refuted.
(** Correlations of unsigned integers may be undefined, because those of 16 bits are promoted to int. *)
Theorem C85_overflow_refuted : ~ (forall t tin fuel n s r exact, Wf t -> Wf tin ->
  Forall (fun ik => Forall (InType t) (lvalues (snd ik))) (smap s) -> Forall (InType tin) (rdata r) ->
  isigned t = false -> isigned tin = false -> sapply fuel n s r = Some (Ok exact) -> exists out, sapplyT (innerStep t tin) t fuel n s r = Some (Ok out)).
Proof. exact overflow_refuted. Qed.
Print Assumptions C85_overflow_refuted.

(** An integral kernel and floating-point pixels: each partial sum is truncated, such that the result is not the truncated sum... *)
Theorem C85_floating_refuted : ~ (forall t d fuel n k axis shape data ys out exact, Wf t -> Forall (InType t) (lvalues k) -> Multiples d data ys ->
  correlateAlongT (innerStepQ t) fuel n k axis (mkRaster shape data) = Some (Ok out) -> correlateAlong fuel n k axis (mkRaster shape ys) = Some (Ok exact) ->
  Forall2 (fun e v => v = Z.quot e (Zpos d)) (rdata exact) (rdata out)).
Proof. exact floating_refuted. Qed.
Print Assumptions C85_floating_refuted.
(** ...but one value [v] is at most (d - 1) / d per kernel value away from the exact sum [e / d], if pixels are multiples of 1 / d. *)
Theorem C85_floating_bound : forall t d fuel n k axis shape data ys out, Multiples d data ys ->
  correlateAlongT (innerStepQ t) fuel n k axis (mkRaster shape data) = Some (Ok out) ->
  exists exact, correlateAlong fuel n k axis (mkRaster shape ys) = Some (Ok (mkRaster (rshape out) exact)) /\
    Forall2 (fun e v => Z.abs (Zpos d * v - e) <= lsize k * (Zpos d - 1)) exact (rdata out).
Proof. exact along_floating. Qed.
Print Assumptions C85_floating_bound.
(** It is defined if no sum can overflow. *)
Theorem C85_floating_defined : forall t d K M fuel n k axis shape data ys out, Wf t -> isigned t = true -> 0 <= K -> 0 <= M -> KernelValues t K k ->
  Multiples d data ys -> Forall (fun y => Z.abs y <= M * Zpos d) ys -> lsize k * (K * M) <= itmax t ->
  correlateAlong fuel n k axis (mkRaster shape ys) = Some (Ok out) ->
  exists data', correlateAlongT (innerStepQ t) fuel n k axis (mkRaster shape data) = Some (Ok (mkRaster (rshape out) data')).
Proof. exact along_floating_defined. Qed.
Print Assumptions C85_floating_defined.
Example C85_floating_met : Multiples 4 [3 # 4; -7 # 4; 1 # 2]%Q [3; -7; 2] /\ lsize (mkLkernel [1; -1; 2] 1) * (2 * 2) <= itmax (mkItype true 8) /\
  correlateAlongT (innerStepQ (mkItype true 8)) 10 1 (mkLkernel [1; -1; 2] 1) 0 (mkRaster [3] [3 # 4; -7 # 4; 1 # 2]%Q) = Some (Ok (mkRaster [3] [-3; 2; -1])) /\
  correlateAlong 10 1 (mkLkernel [1; -1; 2] 1) 0 (mkRaster [3] [3; -7; 2]) = Some (Ok (mkRaster [3] [-17; 14; -9])).
Proof. split; [repeat constructor|]. split; [cbn; lia|]. split; reflexivity. Qed.

(** Whole pixels are exact, modulo the number of values of the type of the kernel, whatever the number of axes. *)
Theorem C85_floating_integral : forall t fuel n s shape data ys out, Wf t -> Multiples 1 data ys ->
  sapplyT (innerStepQ t) t fuel n s (mkRaster shape data) = Some (Ok out) ->
  exists exact, sapply fuel n s (mkRaster shape ys) = Some (Ok (mkRaster (rshape out) exact)) /\ Forall2 (Wrapped t) exact (rdata out).
Proof. exact separable_floating_integral. Qed.
Print Assumptions C85_floating_integral.
Example C85_floating_integral_met : Multiples 1 [6 # 2; -14 # 2; 2]%Q [3; -7; 2] /\
  sapplyT (innerStepQ int32) int32 10 1 (salong (mkLkernel [1; -1; 2] 1) [0]) (mkRaster [3] [6 # 2; -14 # 2; 2]%Q) = Some (Ok (mkRaster [3] [-17; 14; -9])).
Proof. split; [repeat constructor|]. reflexivity. Qed.
