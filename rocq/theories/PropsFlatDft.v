(** C98: transform plans over buffers which are supplied by the caller. *)
From Coq Require Import Reals QArith.
From Verif Require Import Res Spec DftModel FlatDftModel DftSpec FourierSpec FlatDftSpec FourierProofs FlatDftProofs.
Open Scope Z_scope.

(** C98. A plan can be built if and only if the buffers are large enough, and the same or disjoint. Nothing else is written. *)
Theorem C98_new : forall n rest, IntShape (n :: rest) -> forall t i o g h,
  (GoodBuffers t n rest i o (hsize h) ->
    exists h', flatNew (A := R) t (n :: rest) i o g h = Ok (mkFplan t (n :: rest) i o (rev (n :: rest)), h') /\ hsize h' = hsize h /\
      forall x, Elsewhere t n rest i o x -> hcell h' x = hcell h x) /\
  (~ GoodBuffers t n rest i o (hsize h) -> flatNew t (n :: rest) i o g h = UB).
Proof. exact flat_new. Qed.
Print Assumptions C98_new.
Example C98_new_met : IntShape [5; 6] /\ GoodBuffers RealDft 5 [6] 2 2 38 /\ GoodBuffers RealDft 5 [6] 2 32 68 /\ ~ GoodBuffers RealDft 5 [6] 2 2 37 /\ ~ GoodBuffers RealDft 5 [6] 2 31 68 /\
  Elsewhere RealDft 5 [6] 2 2 1 /\ Elsewhere RealDft 5 [6] 2 32 68.
Proof.
  split; [split; [discriminate|repeat constructor]|]. unfold GoodBuffers, Fits, Disjoint, Elsewhere.
  repeat split; vm_compute; first [left; intuition discriminate|right; repeat split; try discriminate; left; discriminate|intuition discriminate|intros [[_ [_ H]]|[H _]]; [apply H; reflexivity|apply H; reflexivity]].
Qed.

(** Complex transforms, transforms from a buffer to another one, and transforms of one row are right, and nothing else is written.
    Missing: real transforms in place, see below. *)
Theorem C98_transform_partial : forall n rest, IntShape (n :: rest) -> forall fft, IsFftw fft -> forall t i o size p l h,
  Built t (n :: rest) i o size p -> SameLayout t rest i o -> HeapOf size h -> Elements t n rest l ->
  exists h', fillIn p l h = Ok h' /\ forall g, exists y,
    readOut 0%R p (flatTransform 0%R fft p g h') = Ok y /\ TransformOf t n rest l y /\
    forall x, Elsewhere t n rest i o x -> hcell (flatTransform 0%R fft p g h') x = hcell h x.
Proof. exact flat_transform. Qed.
Print Assumptions C98_transform_partial.
Example C98_transform_met : IsFftw exactFft /\ IntShape [2; 2] /\ (exists p, Built ComplexDft [2; 2] 1 1 9 p) /\ SameLayout ComplexDft [2] 1 1 /\ HeapOf 9 (mkHeap 9 IZR) /\
  Elements ComplexDft 2 [2] [(1%R, 2%R); czero; (3%R, 0%R); (0%R, 5%R)] /\ IntShape [4] /\ (exists p, Built RealDft [4] 0 0 6 p) /\ SameLayout RealDft [] 0 0.
Proof.
  assert (I : IntShape [2; 2]) by (split; [discriminate|repeat constructor]). assert (J : IntShape [4]) by (split; [discriminate|repeat constructor]).
  split; [exact exact_fftw|]. split; [exact I|]. split; [apply (good_built ComplexDft 2 [2] 1 1 9 I); left; repeat split; vm_compute; discriminate|]. split; [left; left; reflexivity|]. split; [reflexivity|].
  split; [split; [reflexivity|repeat constructor]|]. split; [exact J|]. split; [apply (good_built RealDft 4 [] 0 0 6 J); left; repeat split; vm_compute; discriminate|]. right. right. reflexivity.
Qed.

(** Such transforms followed by those of the inverse plan and normalization give the input back, in in() and in the out() of the inverse plan. *)
Theorem C98_round_trip_partial : forall n rest, IntShape (n :: rest) -> forall fft, IsFftw fft -> forall t i o size p g h,
  Built t (n :: rest) i o size p -> Direct t -> SameLayout t rest i o -> HeapOf size h ->
  exists q h0, flatInverse p g h = Ok (q, h0) /\ HeapOf size h0 /\
    forall h1 l g1 g2, HeapOf size h1 -> Elements t n rest l ->
      exists h2 h3, fillIn p l h1 = Ok h2 /\ flatNormalize 0%R scaleC q (flatTransform 0%R fft q g2 (flatTransform 0%R fft p g1 h2)) = Ok h3 /\
        readOut 0%R q h3 = Ok l /\ readIn 0%R p h3 = Ok l /\ forall x, Elsewhere t n rest i o x -> hcell h3 x = hcell h1 x.
Proof. exact flat_round_trip. Qed.
Print Assumptions C98_round_trip_partial.
Example C98_round_trip_met : IsFftw exactFft /\ IntShape [3; 2] /\ (exists p, Built RealDft [3; 2] 9 1 15 p) /\ Direct RealDft /\ SameLayout RealDft [2] 9 1 /\ HeapOf 15 (mkHeap 15 IZR) /\
  Elements RealDft 3 [2] (repeat (2%R, 0%R) 6).
Proof.
  assert (I : IntShape [3; 2]) by (split; [discriminate|repeat constructor]).
  split; [exact exact_fftw|]. split; [exact I|]. split; [apply (good_built RealDft 3 [2] 9 1 15 I); right; split; [discriminate|]; split; [split; vm_compute; discriminate|]; split; [split; vm_compute; discriminate|right; vm_compute; discriminate]|].
  split; [left; reflexivity|]. split; [right; left; discriminate|]. split; [reflexivity|]. split; [reflexivity|repeat constructor].
Qed.

(** A real transform in place is that of the image whose rows are padded to 2 (n / 2 + 1) elements in the buffer. *)
Theorem C98_real_padded : forall n rest, IntShape (n :: rest) -> forall fft, IsFftw fft -> forall i size p h g,
  Built RealDft (n :: rest) i i size p -> HeapOf size h ->
  exists xs y, readRaster 0%R true (padded n :: rest) i h = Ok xs /\ readOut 0%R p (flatTransform 0%R fft p g h) = Ok y /\
    forall k, InDomain (n / 2 + 1 :: rest) k -> rasterAt (n / 2 + 1 :: rest) y k = dft (n :: rest) (rasterAt (padded n :: rest) xs) k.
Proof. exact flat_real_padded. Qed.
Print Assumptions C98_real_padded.
Example C98_real_padded_met : IsFftw exactFft /\ IntShape [5; 6] /\ (exists p, Built RealDft [5; 6] 2 2 38 p) /\ HeapOf 38 (mkHeap 38 IZR) /\ InDomain [5 / 2 + 1; 6] [2; 5].
Proof.
  assert (I : IntShape [5; 6]) by (split; [discriminate|repeat constructor]). split; [exact exact_fftw|]. split; [exact I|].
  split; [apply (good_built RealDft 5 [6] 2 2 38 I); left; repeat split; vm_compute; discriminate|]. split; [reflexivity|]. repeat constructor; vm_compute; congruence.
Qed.

(** An inverse real transform in place writes an image whose rows are padded in this way. *)
Theorem C98_inverse_padded : forall n rest, IntShape (n :: rest) -> forall fft, IsFftw fft -> forall i size p h l g,
  Built InverseRealDft (n :: rest) i i size p -> HeapOf size h -> readIn 0%R p h = Ok l ->
  exists ys, readRaster 0%R true (padded n :: rest) i (flatTransform 0%R fft p g h) = Ok ys /\
    forall f, Hermitian (n :: rest) f -> (forall k, InDomain (n / 2 + 1 :: rest) k -> rasterAt (n / 2 + 1 :: rest) l k = f k) ->
      forall q, InDomain (n :: rest) q -> rasterAt (padded n :: rest) ys q = inverseDft (n :: rest) f q.
Proof. exact flat_inverse_padded. Qed.
Print Assumptions C98_inverse_padded.
Example C98_inverse_padded_met : IsFftw exactFft /\ IntShape [2; 1] /\ (exists p, Built InverseRealDft [2; 1] 0 0 4 p) /\
  (forall p, Built InverseRealDft [2; 1] 0 0 4 p -> exists l, readIn 0%R p (mkHeap 4 (fun _ => 0%R)) = Ok l /\
    exists f, Hermitian [2; 1] f /\ forall k, InDomain [2 / 2 + 1; 1] k -> rasterAt [2 / 2 + 1; 1] l k = f k).
Proof.
  assert (I : IntShape [2; 1]) by (split; [discriminate|repeat constructor]). split; [exact exact_fftw|]. split; [exact I|].
  split; [apply (good_built InverseRealDft 2 [1] 0 0 4 I); left; repeat split; vm_compute; discriminate|]. intros p B. destruct (built 2 [1] I InverseRealDft 0 0 4 p B) as [-> _].
  exists [czero; czero]. split; [reflexivity|]. exists (fun _ => czero). split; [intros k _; unfold conj, czero; cbn [fst snd]; rewrite Ropp_0; reflexivity|].
  intros k Hk. unfold rasterAt, valueAt. destruct (Z.to_nat _) as [|[|[|m]]]; reflexivity.
Qed.

(** Refuted for real transforms in place: in() is not padded. As soon as there are two rows, filling in() as documented gives a wrong transform for some images. *)
Theorem C98_real_refuted : forall n rest, IntShape (n :: rest) -> forall fft, IsFftw fft -> forall i size p,
  Built RealDft (n :: rest) i i size p -> 2 <= prod rest ->
  exists l h h', Elements RealDft n rest l /\ HeapOf size h /\ fillIn p l h = Ok h' /\
    forall g y, readOut 0%R p (flatTransform 0%R fft p g h') = Ok y -> ~ TransformOf RealDft n rest l y.
Proof. exact flat_real_wrong. Qed.
Print Assumptions C98_real_refuted.
Example C98_real_refuted_met : IsFftw exactFft /\ IntShape [5; 6] /\ (exists p, Built RealDft [5; 6] 2 2 38 p) /\ 2 <= prod [6].
Proof.
  assert (I : IntShape [5; 6]) by (split; [discriminate|repeat constructor]). split; [exact exact_fftw|]. split; [exact I|].
  split; [apply (good_built RealDft 5 [6] 2 2 38 I); left; repeat split; vm_compute; discriminate|]. vm_compute; discriminate.
Qed.

(** A buffer which is just as large as the real raster is too small for both the direct and inverse transforms in place. *)
Theorem C98_real_small_refuted : forall n rest, IntShape (n :: rest) -> forall i g h, hsize h = i + prod (n :: rest) ->
  flatNew (A := R) RealDft (n :: rest) i i g h = UB /\ flatNew (A := R) InverseRealDft (n :: rest) i i g h = UB.
Proof. exact flat_real_small. Qed.
Print Assumptions C98_real_small_refuted.
Example C98_real_small_refuted_met : IntShape [5; 6] /\ hsize (mkHeap 31 IZR) = 1 + prod [5; 6].
Proof. split; [split; [discriminate|repeat constructor]|reflexivity]. Qed.

(** Refuted for inverse real transforms in place: the element of out() after the first row is whatever FFTW leaves in the padding. *)
Theorem C98_inverse_refuted : forall n rest, IntShape (n :: rest) -> forall fft i size p h x,
  Built InverseRealDft (n :: rest) i i size p -> HeapOf size h -> 2 <= prod rest ->
  exists y, readOut 0%R p (flatTransform 0%R fft p (fun _ => x) h) = Ok y /\ valueAt y n = (x, 0%R).
Proof. exact flat_inverse_garbage. Qed.
Print Assumptions C98_inverse_refuted.
Example C98_inverse_refuted_met : IntShape [5; 6] /\ (exists p, Built InverseRealDft [5; 6] 2 2 38 p) /\ HeapOf 38 (mkHeap 38 IZR) /\ 2 <= prod [6].
Proof.
  assert (I : IntShape [5; 6]) by (split; [discriminate|repeat constructor]). split; [exact I|].
  split; [apply (good_built InverseRealDft 5 [6] 2 2 38 I); left; repeat split; vm_compute; discriminate|]. split; [reflexivity|]. vm_compute; discriminate.
Qed.

(** normalize() does not reach the last elements of the padded image. *)
Theorem C98_normalize_refuted : forall n rest, IntShape (n :: rest) -> forall i size p,
  Built InverseRealDft (n :: rest) i i size p -> 2 <= prod rest ->
  exists q, InDomain (n :: rest) q /\ forall h h', HeapOf size h -> flatNormalize 0%R scaleC p h = Ok h' ->
    hcell h' (i + rank (padded n :: rest) q) = hcell h (i + rank (padded n :: rest) q).
Proof. exact flat_normalize_short. Qed.
Print Assumptions C98_normalize_refuted.
Example C98_normalize_refuted_met : IntShape [5; 6] /\ (exists p, Built InverseRealDft [5; 6] 2 2 38 p) /\ 2 <= prod [6] /\
  forall p, Built InverseRealDft [5; 6] 2 2 38 p -> exists h', flatNormalize 0%R scaleC p (mkHeap 38 IZR) = Ok h'.
Proof.
  assert (I : IntShape [5; 6]) by (split; [discriminate|repeat constructor]). split; [exact I|].
  split; [apply (good_built InverseRealDft 5 [6] 2 2 38 I); left; repeat split; vm_compute; discriminate|]. split; [vm_compute; discriminate|].
  intros p B. destruct (built 5 [6] I InverseRealDft 2 2 38 p B) as [-> _]. eexists. reflexivity.
Qed.
