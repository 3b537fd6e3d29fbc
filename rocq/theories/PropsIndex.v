(** Properties C01 and C02: raster indexing. *)
From Verif Require Import Res VecModel BoxModel RasterModel Spec Lemmas IndexProofs.

(** C01. For a non-empty shape of dimension at least 1, [index] is a bijection from the domain onto 0 .. size-1,
    both for fixed (n = dimension) and run-time (n = -1) dimension. *)
Theorem C01_index_bijection : forall n shape,
  shape <> [] -> Positive shape -> n = -1 \/ n = Z.of_nat (length shape) ->
  (forall p, InDomain shape p -> exists i, rindex n shape p = Ok i /\ 0 <= i < shapeSize shape) /\
  (forall p q i, InDomain shape p -> InDomain shape q -> rindex n shape p = Ok i -> rindex n shape q = Ok i -> p = q) /\
  (forall i, 0 <= i < shapeSize shape -> exists p, InDomain shape p /\ rindex n shape p = Ok i) /\
  shapeSize shape = prod shape.
Proof. exact index_bijection. Qed.
Print Assumptions C01_index_bijection.

Example C01_index_bijection_met :
  [3; 4; 5] <> [] /\ Positive [3; 4; 5] /\ (3 = -1 \/ 3 = Z.of_nat (length [3; 4; 5])) /\
  InDomain [3; 4; 5] [2; 1; 4] /\ rindex 3 [3; 4; 5] [2; 1; 4] = Ok 53 /\ rindex (-1) [3; 4; 5] [2; 1; 4] = Ok 53.
Proof. repeat split; try discriminate; try (right; reflexivity); repeat constructor; lia. Qed.

(** Moving by one along axis k moves the index by the product of the previous lengths, which is shapeStride. *)
Theorem C01_index_row_major : forall n shape pos k x,
  n = -1 \/ n = Z.of_nat (length shape) -> shape <> [] -> length pos = length shape -> nth_error pos k = Some x ->
  exists i, rindex n shape pos = Ok i /\
            rindex n shape (replace pos k (x + 1)) = Ok (i + prod (firstn k shape)) /\
            shapeStride shape k = prod (firstn k shape).
Proof. exact index_row_major. Qed.
Print Assumptions C01_index_row_major.

Example C01_index_row_major_met :
  nth_error [2; 1; 3] 2 = Some 3 /\ rindex 3 [3; 4; 5] [2; 1; 3] = Ok 41 /\ rindex 3 [3; 4; 5] [2; 1; 4] = Ok (41 + 12).
Proof. repeat split. Qed.

Theorem C01_index_first_last : forall n shape,
  n = -1 \/ n = Z.of_nat (length shape) -> shape <> [] ->
  rindex n shape (repeat 0 (length shape)) = Ok 0 /\
  rindex n shape (map (fun s => s - 1) shape) = Ok (shapeSize shape - 1).
Proof. exact index_first_last. Qed.
Print Assumptions C01_index_first_last.

Example C01_index_first_last_met : rindex 2 [3; 4] [0; 0] = Ok 0 /\ rindex 2 [3; 4] [2; 3] = Ok 11.
Proof. split; reflexivity. Qed.

(** The fixed and run-time dimension versions agree; the latter throws when the dimensions differ. *)
Theorem C01_index_same : forall shape pos,
  shape <> [] -> length pos = length shape -> indexVar shape pos = indexFixed shape pos.
Proof. exact index_same. Qed.
Print Assumptions C01_index_same.

Theorem C01_index_mismatch : forall shape pos, length pos <> length shape -> indexVar shape pos = Throw ESize.
Proof. exact index_mismatch. Qed.
Print Assumptions C01_index_mismatch.

Example C01_index_same_met : length [7; 1] = length [3; 4] /\ indexVar [3; 4] [7; 1] = Ok 10 /\ indexVar [3; 4] [7] = Throw ESize.
Proof. repeat split. Qed.

(** C02. With 64-bit signed operations ([UB] on overflow), the size, the strides and the index of any position of the
    domain are the mathematical values if the number of pixels is less than 2^63. *)
Theorem C02_no_overflow : forall shape pos k,
  shape <> [] -> InDomain shape pos -> prod shape < 2 ^ 63 ->
  shapeSize64 shape = Ok (shapeSize shape) /\
  shapeStride64 shape k = Ok (shapeStride shape k) /\
  indexFixed64 shape pos = indexFixed shape pos /\
  indexVar64 shape pos = indexVar shape pos /\
  exists i, indexFixed shape pos = Ok i /\ indexVar shape pos = Ok i.
Proof. exact index64. Qed.
Print Assumptions C02_no_overflow.

Example C02_no_overflow_met :
  InDomain [2 ^ 20; 2 ^ 20; 2 ^ 22] [2 ^ 20 - 1; 5; 2 ^ 22 - 1] /\ prod [2 ^ 20; 2 ^ 20; 2 ^ 22] < 2 ^ 63 /\
  indexFixed64 [2 ^ 20; 2 ^ 20; 2 ^ 22] [2 ^ 20 - 1; 5; 2 ^ 22 - 1] = Ok (2 ^ 20 - 1 + 5 * 2 ^ 20 + (2 ^ 22 - 1) * 2 ^ 40).
Proof. repeat split; repeat constructor; lia. Qed.

(** The hypothesis that no length is zero matters: the number of pixels is 0 and size() overflows. *)
Theorem C02_empty_raster_overflows : exists shape, prod shape = 0 /\ shapeSize64 shape = UB.
Proof. exact (ex_intro _ [2 ^ 40; 2 ^ 40; 0] (conj eq_refl eq_refl)). Qed.
Print Assumptions C02_empty_raster_overflows.
