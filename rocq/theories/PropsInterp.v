(** C41 to C44: extrapolation and interpolation. *)
From Coq Require Import QArith Qround Qabs Lqa.
From Verif Require Import Res VecModel BoxModel RasterModel TypesModel InterpModel Spec RasterSpec InterpSpec InterpProofs.
Open Scope Z_scope.

(** C41. In the domain, every extrapolator returns the pixel. *)
Theorem C41_inside : forall A n (value : A) r p, WF r -> Positive (rshape r) -> InDomain (rshape r) p ->
  constantAt n value r p = rget n r p /\ nearestAt n r p = rget n r p /\ periodicAt n r p = rget n r p.
Proof. exact @extrapolate_inside. Qed.
Print Assumptions C41_inside.
Example C41_inside_met : InDomain [3; 2] [2; 1] /\ rget 2 (mkRaster [3; 2] [1; 2; 3; 4; 5; 6]) [2; 1] = Ok 6.
Proof. split; [repeat constructor; lia|reflexivity]. Qed.

(** No access is out of bounds, wherever the position is. *)
Theorem C41_defined : forall A n (value : A) r p, WF r -> Positive (rshape r) -> length p = length (rshape r) ->
  (exists a, constantAt n value r p = Ok a) /\ (exists a, nearestAt n r p = Ok a) /\ (exists a, periodicAt n r p = Ok a).
Proof. exact @extrapolate_defined. Qed.
Print Assumptions C41_defined.
Example C41_defined_met : nearestAt 2 (mkRaster [3; 2] [1; 2; 3; 4; 5; 6]) [-10; 7] = Ok 4 /\
  periodicAt 2 (mkRaster [3; 2] [1; 2; 3; 4; 5; 6]) [-10; 7] = Ok 6.
Proof. split; reflexivity. Qed.

(** Constant extrapolation. *)
Theorem C41_constant : forall A n (value : A) r p, WF r -> length p = length (rshape r) ->
  (InDomain (rshape r) p -> constantAt n value r p = rget n r p) /\
  (~ InDomain (rshape r) p -> constantAt n value r p = Ok value).
Proof. exact @constant_at. Qed.
Print Assumptions C41_constant.
Example C41_constant_met : constantAt 2 9 (mkRaster [3; 2] [1; 2; 3; 4; 5; 6]) [1; 2] = Ok 9.
Proof. reflexivity. Qed.

(** Nearest-neighbor extrapolation. *)
Theorem C41_nearest : forall A n (r : raster A) p, WF r -> Positive (rshape r) -> length p = length (rshape r) ->
  exists q, NearestIn (rshape r) p q /\ nearestAt n r p = rget n r q.
Proof. exact @nearest_at. Qed.
Print Assumptions C41_nearest.
Example C41_nearest_met : nearestAt 2 (mkRaster [3; 2] [1; 2; 3; 4; 5; 6]) [1; 2] = Ok 5.
Proof. reflexivity. Qed.

(** Periodic extrapolation. *)
Theorem C41_periodic : forall A n (r : raster A) p, WF r -> Positive (rshape r) -> length p = length (rshape r) ->
  exists q, Congruent (rshape r) p q /\ periodicAt n r p = rget n r q.
Proof. exact @periodic_at. Qed.
Print Assumptions C41_periodic.
Example C41_periodic_met : periodicAt 2 (mkRaster [3; 2] [1; 2; 3; 4; 5; 6]) [-1; -1] = Ok 6.
Proof. reflexivity. Qed.

(** There is only one such position, hence invariance under translation by multiples of the lengths. *)
Theorem C41_unique : forall shape p q q', Congruent shape p q -> Congruent shape p q' -> q = q'.
Proof. exact congruent_unique. Qed.
Print Assumptions C41_unique.
Example C41_unique_met : Congruent [3] [-4] [2].
Proof. split; [repeat constructor; lia|]. split; [reflexivity|]. intros [|i] H; [exists (-2); reflexivity|cbn in H; lia]. Qed.

Theorem C41_translation : forall A n (r : raster A) p k, WF r -> Positive (rshape r) -> length p = length (rshape r) -> length k = length (rshape r) ->
  periodicAt n r (map2 Z.add p (map2 Z.mul k (rshape r))) = periodicAt n r p.
Proof. exact @periodic_translate. Qed.
Print Assumptions C41_translation.
Example C41_translation_met : map2 Z.add [1; 1] (map2 Z.mul [-2; 1] [3; 2]) = [-5; 3] /\
  periodicAt 2 (mkRaster [3; 2] [1; 2; 3; 4; 5; 6]) [-5; 3] = Ok 5.
Proof. split; reflexivity. Qed.

(** C42. Nearest-neighbor interpolation for coordinates from -1/2. *)
Theorem C42_nearest_partial : forall A (get : list Z -> res A) p, Forall (fun x => - (1 # 2) <= x)%Q p ->
  exists q, Around (1 # 2) p q /\ nearestInterp get p = get q.
Proof. exact @nn_nearest. Qed.
Print Assumptions C42_nearest_partial.
Example C42_nearest_met : nearestInterp (@Ok _) [(-1 # 3)%Q; (9 # 4)%Q; (5 # 2)%Q] = Ok [0; 2; 3].
Proof. reflexivity. Qed.

Theorem C42_integral_partial : forall A (get : list Z -> res A) q, Forall (fun z => 0 <= z) q -> nearestInterp get (map inject_Z q) = get q.
Proof. exact @nn_integral. Qed.
Print Assumptions C42_integral_partial.
Example C42_integral_met : Forall (fun z => 0 <= z) [0; 4].
Proof. repeat constructor; discriminate. Qed.

(** At negative integral positions, the pixel after is returned, for every raster or extrapolator. *)
Theorem C42_negative : forall A (get : list Z -> res A) q, Forall (fun z => z < 0) q -> nearestInterp get (map inject_Z q) = get (map Z.succ q).
Proof. exact @nn_negative. Qed.
Print Assumptions C42_negative.
Example C42_negative_met : Forall (fun z => z < 0) [-1; -3].
Proof. repeat constructor. Qed.

Theorem C42_refuted : exists z, nearestInterp (@Ok _) [inject_Z z] <> Ok [z].
Proof. exact nn_refuted. Qed.
Print Assumptions C42_refuted.

(** C43. Linear interpolation is that at the mirror image of the position in its cell. *)
Theorem C43_mirrored : forall image get p m, p <> [] -> (forall q, Around 1 p q -> get q = Ok (image q)) -> Forall2 mirrored p m ->
  exists v, linearAt get p = Ok v /\ (v == multilinear image m)%Q.
Proof. exact linear_mirror. Qed.
Print Assumptions C43_mirrored.
Example C43_mirrored_met : Forall2 mirrored [(1 # 4)%Q; 2%Q; (-2)%Q] [(3 # 4)%Q; 3%Q; (-3)%Q].
Proof.
  repeat apply Forall2_cons; [right|right|left|apply Forall2_nil]; vm_compute; repeat split; try discriminate; left; discriminate.
Qed.

Theorem C43_mirror_exists : forall p, exists m, Forall2 mirrored p m.
Proof. exact mirrored_exists. Qed.
Print Assumptions C43_mirror_exists.

(** It lies between the neighbors. *)
Theorem C43_between_partial : forall image get p lo hi, p <> [] -> (forall q, Around 1 p q -> get q = Ok (image q) /\ lo <= image q <= hi)%Q ->
  exists v, linearAt get p = Ok v /\ (lo <= v <= hi)%Q.
Proof. exact linear_between. Qed.
Print Assumptions C43_between_partial.
Example C43_between_met : linearAt (fun q => Ok (inject_Z (hd 0 q))) [(5 # 4)%Q] = Ok (7 # 4)%Q.
Proof. reflexivity. Qed.

(** It is right at the center of the cells only. *)
Theorem C43_center_partial : forall image get p, p <> [] -> (forall q, Around 1 p q -> get q = Ok (image q)) ->
  Forall (fun x => x == inject_Z (Qfloor x) + (1 # 2))%Q p -> exists v, linearAt get p = Ok v /\ (v == multilinear image p)%Q.
Proof. exact linear_center. Qed.
Print Assumptions C43_center_partial.
Example C43_center_met : Forall (fun x => x == inject_Z (Qfloor x) + (1 # 2))%Q [(5 # 2)%Q; (-1 # 2)%Q].
Proof. repeat apply Forall_cons; [reflexivity|reflexivity|apply Forall_nil]. Qed.

Theorem C43_affine_mirrored : forall a s get p m, p <> [] -> (forall q, Around 1 p q -> get q = Ok (affine a s (map inject_Z q))) -> Forall2 mirrored p m ->
  exists v, linearAt get p = Ok v /\ (v == affine a s m)%Q.
Proof. exact linear_affine. Qed.
Print Assumptions C43_affine_mirrored.
Example C43_affine_met : exists v, linearAt (fun q => Ok (affine 1 [2; 3]%Q (map inject_Z q))) [(1 # 4)%Q; (1 # 2)%Q] = Ok v /\ (v == 4)%Q.
Proof. eexists. split; reflexivity. Qed.

Theorem C43_integral_refuted : exists image x v, linearAt (fun q => Ok (image q)) [inject_Z x] = Ok v /\ 0 <= x /\ ~ (v == image [x])%Q.
Proof. exact linear_refuted_integral. Qed.
Print Assumptions C43_integral_refuted.

Theorem C43_affine_refuted : exists a s x v, linearAt (fun q => Ok (affine a s (map inject_Z q))) [x] = Ok v /\ ~ (v == affine a s [x])%Q.
Proof. exact linear_refuted_affine. Qed.
Print Assumptions C43_affine_refuted.

Theorem C43_continuous_refuted : exists image x v, linearAt (fun q => Ok (image q)) [x] = Ok v /\
  forall e, (0 < e < 1)%Q -> exists w, linearAt (fun q => Ok (image q)) [(x - e)%Q] = Ok w /\ (1 <= v - w)%Q.
Proof. exact linear_refuted_continuous. Qed.
Print Assumptions C43_continuous_refuted.

(** C44. Cubic interpolation is the Catmull-Rom polynomial of every cell the position belongs to, hence is continuous from one to the next. *)
Theorem C44_cells : forall image get p c, p <> [] -> (forall q, Around 2 p q -> get q = Ok (image q)) -> InCell c p ->
  exists v, cubicAt get p = Ok v /\ (v == cellCubic image c p)%Q.
Proof. exact cubic_cell. Qed.
Print Assumptions C44_cells.
Example C44_cells_met : InCell [1; -3] [2; (-5 # 2)]%Q /\ InCell [2; -3] [2; (-5 # 2)]%Q.
Proof. split; repeat apply Forall2_cons; try apply Forall2_nil; split; vm_compute; discriminate. Qed.

Theorem C44_continuous : forall image get p c c' v, p <> [] -> (forall q, Around 2 p q -> get q = Ok (image q)) -> InCell c p -> InCell c' p ->
  cubicAt get p = Ok v -> (v == cellCubic image c p)%Q /\ (v == cellCubic image c' p)%Q.
Proof. exact cubic_glue. Qed.
Print Assumptions C44_continuous.
Example C44_continuous_met : exists v, cubicAt (fun q => Ok (inject_Z (hd 0 q * hd 0 q))) [2%Q] = Ok v /\ (v == 4)%Q.
Proof. eexists. split; reflexivity. Qed.

Theorem C44_integral : forall image get z, z <> [] -> (forall q, Around 2 (map inject_Z z) q -> get q = Ok (image q)) ->
  exists v, cubicAt get (map inject_Z z) = Ok v /\ (v == image z)%Q.
Proof. exact cubic_integral. Qed.
Print Assumptions C44_integral.
Example C44_integral_met : exists v, cubicAt (fun q => Ok (inject_Z (hd 0 q * hd 0 q))) [(-3)%Q; 2%Q] = Ok v /\ (v == 9)%Q.
Proof. eexists. split; reflexivity. Qed.

Theorem C44_affine : forall a s get p, p <> [] -> (forall q, Around 2 p q -> get q = Ok (affine a s (map inject_Z q))) ->
  exists v, cubicAt get p = Ok v /\ (v == affine a s p)%Q.
Proof. exact cubic_affine. Qed.
Print Assumptions C44_affine.
Example C44_affine_met : exists v, cubicAt (fun q => Ok (affine 1 [2; 3]%Q (map inject_Z q))) [(1 # 4)%Q; (1 # 2)%Q] = Ok v /\ (v == 3)%Q.
Proof. eexists. split; reflexivity. Qed.

(** Interpolation of extrapolated rasters is defined everywhere. *)
Theorem C44_defined : forall n value (r : raster Q) p get, WF r -> Positive (rshape r) -> length p = length (rshape r) ->
  In get [constantAt n value r; nearestAt n r; periodicAt n r] ->
  (exists v, nearestInterp get p = Ok v) /\ (exists v, linearAt get p = Ok v) /\ (exists v, cubicAt get p = Ok v).
Proof. exact interp_extrapolated. Qed.
Print Assumptions C44_defined.
Example C44_defined_met : exists v, cubicAt (nearestAt 1 (mkRaster [2] [1; 3]%Q)) [(1 # 2)%Q] = Ok v /\ (v == 2)%Q.
Proof. eexists. split; reflexivity. Qed.
