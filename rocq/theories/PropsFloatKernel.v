(** C87: correlations of doubles. *)
From Coq Require Import Reals Lra.
From Flocq Require Import Core IEEE754.BinarySingleNaN.
From Verif Require Import Res Spec KernelSpec SeparableSpec RasterModel FloatModel FloatSpec FloatKernelModel FloatKernelSpec.
From Verif Require Import FloatProofs MixedProofs FloatKernelProofs.
Open Scope R_scope.

(** Successive correlations along axes are close to the exact ones, in the limit of a bound which is known in advance. Moreover they are defined, and finite. *)
Theorem C87_error : forall shape ks, Positive shape -> Forall (FitsD shape) ks -> forall xs M X E,
  Z.of_nat (length xs) = Spec.prod shape -> PixelsWithin M xs -> 0 <= M -> Moderate ks M -> 0 <= E -> (forall p, Rabs (realPixel shape xs p - X p) <= E) ->
  exists out enough, Z.of_nat (length out) = Spec.prod shape /\ Forall Finite out /\
    (forall p, Rabs (realPixel shape out p - realAxes shape ks X p) <= axesError ks M E) /\
    forall fuel, (enough <= fuel)%nat -> correlateSeqD fuel (Z.of_nat (length shape)) (kernelsOf ks) (mkRaster shape xs) = Some (Ok (mkRaster shape out)).
Proof. exact seq_error. Qed.
Print Assumptions C87_error.
Example C87_error_met : let ks := [(map dofZ [1; 2; 1]%Z, 1%Z, 0%nat); (map dofZ [1; 1]%Z, 0%Z, 1%nat)] in let xs := map dofZ [1; 2; 4; 8; 16; 32]%Z in
  Forall (FitsD [3; 2]%Z) ks /\ PixelsWithin 32 xs /\ Moderate ks 32.
Proof. exact error_met. Qed.

(** For one axis: as many units of the last place as there are values in the kernel, and two more. *)
Theorem C87_along : forall shape xs k o a M, Positive shape -> FitsD shape (k, o, a) -> Z.of_nat (length xs) = Spec.prod shape -> PixelsWithin M xs -> 0 <= M ->
  M * gain k <= bpow radix2 1022 ->
  exists out enough, Z.of_nat (length out) = Spec.prod shape /\ PixelsWithin (M * gain k + axisError k M) out /\
    (forall p, Rabs (realPixel shape out p - realAxis shape k o a (realPixel shape xs) p) <= axisError k M) /\
    forall fuel, (enough <= fuel)%nat ->
      correlateAlongD fuel (Z.of_nat (length shape)) (mkDkernel k o) (Z.of_nat a) (mkRaster shape xs) = Some (Ok (mkRaster shape out)).
Proof. exact along_error. Qed.
Print Assumptions C87_along.
Example C87_along_met : FitsD [3; 2]%Z (map dofZ [1; 2; 1]%Z, 1%Z, 0%nat) /\ PixelsWithin 32 (map dofZ [1; 2; 4; 8; 16; 32]%Z) /\
  32 * gain (map dofZ [1; 2; 1]%Z) <= bpow radix2 1022.
Proof. exact along_met. Qed.

(** Correlations of integers are exact as long as the responses are at most 2^53. *)
Theorem C87_integers : forall shape ks ls, Positive shape -> Forall2 IntegralKernel ks ls -> Forall (Fits shape) ls -> forall xs zs M, Integral xs zs ->
  Z.of_nat (length zs) = Spec.prod shape -> (forall z, In z zs -> (Z.abs z <= M)%Z) -> (0 <= M)%Z -> Small ls M ->
  exists out enough ints, Integral out ints /\ Z.of_nat (length ints) = Spec.prod shape /\
    (forall p, pixel shape ints p = axesCorrelation shape ls (pixel shape zs) p) /\
    forall fuel, (enough <= fuel)%nat -> correlateSeqD fuel (Z.of_nat (length shape)) (kernelsOf ks) (mkRaster shape xs) = Some (Ok (mkRaster shape out)).
Proof. exact seq_integral. Qed.
Print Assumptions C87_integers.
Example C87_integers_met : let ls := [([1; 0; -1], 1, 0%nat); ([1; 2; 1], 1, 1%nat)]%Z in let zs := [1; 2; 4; 1; 2; 4; 1; 2; 255]%Z in
  Forall2 IntegralKernel (map (fun loa => (map dofZ (fst (fst loa)), snd (fst loa), snd loa)) ls) ls /\ Forall (Fits [3; 3]%Z) ls /\ Integral (map dofZ zs) zs /\
  (forall z, In z zs -> (Z.abs z <= 255)%Z) /\ Small ls 255.
Proof. exact integers_met. Qed.

(** If the values of the kernel are not negative, then a brighter image has a brighter response, in spite of rounding. *)
Theorem C87_monotone : forall shape xs ys k o a M out out' fuel, PixelsWithin M xs -> PixelsWithin M ys -> 0 <= M -> Forall Finite k -> Forall (fun v => 0 <= real v) k ->
  (Z.of_nat (length k) < 2 ^ 26)%Z -> M * gain k <= bpow radix2 1022 -> Forall2 below xs ys ->
  correlateAlongD fuel (Z.of_nat (length shape)) (mkDkernel k o) a (mkRaster shape xs) = Some (Ok out) ->
  correlateAlongD fuel (Z.of_nat (length shape)) (mkDkernel k o) a (mkRaster shape ys) = Some (Ok out') ->
  rshape out = rshape out' /\ Forall2 below (rdata out) (rdata out').
Proof. exact along_monotone. Qed.
Print Assumptions C87_monotone.
Example C87_monotone_met : exists out out',
  correlateAlongD 20 1 (mkDkernel (map dofZ [1; 2; 1]%Z) 1) 0 (mkRaster [3%Z] (map dofZ [1; 2; 3]%Z)) = Some (Ok out) /\
  correlateAlongD 20 1 (mkDkernel (map dofZ [1; 2; 1]%Z) 1) 0 (mkRaster [3%Z] (map dofZ [1; 2; 4]%Z)) = Some (Ok out') /\
  Forall (fun v => 0 <= real v) (map dofZ [1; 2; 1]%Z) /\ Forall2 below (map dofZ [1; 2; 3]%Z) (map dofZ [1; 2; 4]%Z).
Proof. exact monotone_met. Qed.

(** The result may differ from an exact response which is a double, and mirroring the image changes the response of a symmetric kernel. *)
Theorem C87_mirror_refuted : exists out out' v w,
  correlateAlongD 20 1 (mkDkernel (map dofZ [1; 1; 1]%Z) 1) 0 (mkRaster [3%Z] (map dofZ [2 ^ 53; 1; 1]%Z)) = Some (Ok out) /\
  correlateAlongD 20 1 (mkDkernel (map dofZ [1; 1; 1]%Z) 1) 0 (mkRaster [3%Z] (map dofZ [1; 1; 2 ^ 53]%Z)) = Some (Ok out') /\
  zget (rdata out) 1 = Ok v /\ zget (rdata out') 1 = Ok w /\ Finite v /\ Finite w /\ real v = IZR (2 ^ 53) /\ real w = IZR (2 ^ 53 + 2) /\
  realAxis [3%Z] (map dofZ [1; 1; 1]%Z) 1 0 (realPixel [3%Z] (map dofZ [2 ^ 53; 1; 1]%Z)) [1%Z] = IZR (2 ^ 53 + 2).
Proof. exact mirror_witness. Qed.
Print Assumptions C87_mirror_refuted.

(** The order of the axes matters (it does not with integers: C37). *)
Theorem C87_order_refuted : let k := mkDkernel (map dofZ [1; 1]%Z) 0 in let r := mkRaster [2; 2]%Z (map dofZ [2 ^ 53; 1; - 2 ^ 53; 0]%Z) in
  exists out out' v w,
  correlateSeqD 20 2 [(k, 0%Z); (k, 1%Z)] r = Some (Ok out) /\ correlateSeqD 20 2 [(k, 1%Z); (k, 0%Z)] r = Some (Ok out') /\
  zget (rdata out) 0 = Ok v /\ zget (rdata out') 0 = Ok w /\ Finite v /\ Finite w /\ real v = 0 /\ real w = 1.
Proof. exact order_witness. Qed.
Print Assumptions C87_order_refuted.

(** The response may overflow although the exact one is a double. *)
Theorem C87_overflow_refuted : exists out v,
  correlateAlongD 20 1 (mkDkernel (map dofZ [1; 1; -1]%Z) 1) 0 (mkRaster [3%Z] [dmax; dmax; dmax]) = Some (Ok out) /\
  zget (rdata out) 1 = Ok v /\ ~ Finite v /\ realAxis [3%Z] (map dofZ [1; 1; -1]%Z) 1 0 (realPixel [3%Z] [dmax; dmax; dmax]) [1%Z] = maxDouble.
Proof. exact overflow_witness. Qed.
Print Assumptions C87_overflow_refuted.

(** Pixels under a null value of the kernel matter if they are infinite. *)
Theorem C87_infinite_refuted : exists out v,
  correlateAlongD 20 1 (mkDkernel (map dofZ [1; 0; -1]%Z) 1) 0 (mkRaster [3%Z] [dofZ 3; dinf; dofZ 1]) = Some (Ok out) /\
  zget (rdata out) 1 = Ok v /\ is_nan v = true.
Proof. exact infinite_witness. Qed.
Print Assumptions C87_infinite_refuted.
