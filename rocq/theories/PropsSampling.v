(** Properties C28 to C30, C55 and C56: samplings, data samples, balls. *)
From Coq Require Import Sorted QArith.
From Verif Require Import Res VecModel BoxModel SamplingModel BallModel Spec SamplingSpec SamplingProofs IncrementProofs BallProofs.
Open Scope Z_scope.

(** C28. Axis sampling, as long as the bounds do not overflow. *)
Theorem C28_axis_sampling_partial : forall s, 0 < sstep s -> - 2 ^ 63 <= sfront s < 2 ^ 63 -> - 2 ^ 63 <= sback s - sfront s ->
  sback s + sstep s < 2 ^ 63 -> sback s - sfront s + sstep s < 2 ^ 63 ->
  exists L, ssize s = Ok (Z.of_nat (length L)) /\
    (exists enough, forall fuel, (enough <= fuel)%nat -> sforeach fuel s = Some (Ok L)) /\
    StronglySorted Z.lt L /\
    (forall i, In i L <-> exists k, 0 <= k /\ i = sfront s + k * sstep s /\ i <= sback s).
Proof. exact axis_sampling. Qed.
Print Assumptions C28_axis_sampling_partial.
Example C28_axis_sampling_met : sforeach 5 (mkSampling (-3) 9 4) = Some (Ok [-3; 1; 5; 9]) /\
  sforeach 5 (mkSampling (-3) 8 4) = Some (Ok [-3; 1; 5]) /\ sforeach 5 (mkSampling 2 0 1) = Some (Ok []).
Proof. repeat split; reflexivity. Qed.

(** The size of the default sampling overflows. *)
Theorem C28_default_refuted : ssize sdefault = UB.
Proof. exact default_size. Qed.
Print Assumptions C28_default_refuted.

(** A null step divides by zero: neither the size nor the iteration is defined. *)
Theorem C28_null_step : forall s, sstep s = 0 -> ssize s = UB /\ forall fuel, sforeach fuel s = Some UB.
Proof. exact null_step. Qed.
Print Assumptions C28_null_step.
Example C28_null_step_met : sstep (mkSampling 0 9 0) = 0.
Proof. reflexivity. Qed.

(** Sampling of a box: one sampling per axis; the shape is made of their sizes. *)
Theorem C28_position_sampling_partial : forall f b st, length f = length st -> length b = length st ->
  Forall (fun x => - 2 ^ 61 <= x < 2 ^ 61) f -> Forall (fun x => - 2 ^ 61 <= x < 2 ^ 61) b ->
  Forall (fun x => 0 < x < 2 ^ 62) st ->
  exists L, psampling (mkBox f b) st = Ok L /\
    (forall i s, zget L i = Ok s -> zget f i = Ok (sfront s) /\ zget b i = Ok (sback s) /\ zget st i = Ok (sstep s)) /\
    exists shape, pshape (Z.of_nat (length st)) L = Ok shape /\ length shape = length st /\
      forall i x y z n, zget f i = Ok x -> zget b i = Ok y -> zget st i = Ok z -> zget shape i = Ok n ->
        n = Z.max 0 ((y - x) / z + 1).
Proof. exact position_sampling. Qed.
Print Assumptions C28_position_sampling_partial.
Example C28_position_sampling_met :
  (L <- psampling (mkBox [0; -1] [7; 4]) [3; 5] ;; pshape 2 L) = Ok [3; 2].
Proof. reflexivity. Qed.

(** With a variable dimension, the shape is written out of bounds. *)
Theorem C28_variable_dimension_refuted : forall L, L <> [] -> (exists r, mapRes ssize L = Ok r) -> pshape (-1) L = UB.
Proof. exact pshape_variable. Qed.
Print Assumptions C28_variable_dimension_refuted.
Example C28_variable_dimension_met : exists r, mapRes ssize [mkSampling 0 7 3] = Ok r.
Proof. eexists. reflexivity. Qed.

(** C29. What iteration does: it reads as many elements as the data size, whatever the last index. *)
Theorem C29_iteration_partial : forall (A : Type) (mem : list A) d fuel,
  sstep (dSampling d) * dStride d <> 0 -> 0 <= dSize d -> (Z.to_nat (dSize d) < fuel)%nat ->
  let address j := dData d + (sfront (dSampling d) + j * sstep (dSampling d)) * dStride d in
  (forall L, dsForeach fuel mem d = Some (Ok L) <->
     Forall2 (fun j v => zget mem (address j) = Ok v) (zrange 0 (dSize d - 1)) L) /\
  (forall j, 0 <= j < dSize d -> ~ 0 <= address j < Z.of_nat (length mem) -> dsForeach fuel mem d = Some UB).
Proof. exact @dsForeach_spec. Qed.
Print Assumptions C29_iteration_partial.

(** This is the property when all of the elements are sampled. *)
Theorem C29_all_samples_partial : forall (A : Type) (mem : list A) data n s stride fuel,
  0 <= data -> 0 <= n < 2 ^ 63 -> 1 <= stride ->
  sfront s = 0 -> sstep s = 1 -> sback s = indexInf \/ sback s = n - 1 ->
  data + (n - 1) * stride < Z.of_nat (length mem) -> (Z.to_nat n < fuel)%nat ->
  let d := dsMake data n s stride in
  exists L, dsForeach fuel mem d = Some (Ok L) /\ dsCount d = Ok (Z.of_nat (length L)) /\ Z.of_nat (length L) = n /\
    forall j, 0 <= j < n -> zget L j = zget mem (data + j * stride).
Proof. exact @dsamples_full. Qed.
Print Assumptions C29_all_samples_partial.
Example C29_all_samples_met : dsForeach 4 [10; 11; 12; 13; 14; 15; 16] (dsMake 1 3 sdefault 2) = Some (Ok [11; 13; 15]).
Proof. reflexivity. Qed.

(** Any other front or step reads out of the n elements... *)
Theorem C29_bounds_refuted : forall (A : Type) (mem : list A) n s stride fuel, 0 < n < 2 ^ 63 -> 1 <= stride ->
  0 <= sfront s -> 1 <= sstep s -> 0 < sfront s \/ 1 < sstep s /\ 1 < n -> Z.of_nat (length mem) = (n - 1) * stride + 1 ->
  (Z.to_nat n < fuel)%nat -> dsForeach fuel mem (dsMake 0 n s stride) = Some UB.
Proof. exact @dsamples_overread. Qed.
Print Assumptions C29_bounds_refuted.
Example C29_bounds_met : dsForeach 10 [10; 11; 12; 13] (dsMake 0 4 (mkSampling 0 indexInf 2) 1) = Some UB /\
  dsCount (dsMake 0 4 (mkSampling 0 indexInf 2) 1) = Ok 2.
Proof. split; reflexivity. Qed.

(** ... and the last index is ignored. *)
Theorem C29_back_refuted : forall (A : Type) (mem : list A) n b stride fuel, 0 <= n < 2 ^ 63 -> 1 <= stride -> 0 <= b < n - 1 ->
  (n - 1) * stride < Z.of_nat (length mem) -> (Z.to_nat n < fuel)%nat ->
  dsCount (dsMake 0 n (mkSampling 0 b 1) stride) = Ok (b + 1) /\
  exists L, dsForeach fuel mem (dsMake 0 n (mkSampling 0 b 1) stride) = Some (Ok L) /\ Z.of_nat (length L) = n.
Proof. exact @dsamples_back. Qed.
Print Assumptions C29_back_refuted.
Example C29_back_met : dsForeach 10 [10; 11; 12; 13] (dsMake 0 4 (mkSampling 0 1 1) 1) = Some (Ok [10; 11; 12; 13]).
Proof. reflexivity. Qed.

(** C30. Missing: the pseudo-norm P = 0, whose iterator is not defined in the code. *)
Theorem C30_ball_iteration_partial : forall P r c, 0 < P -> c <> [] -> (0 <= r)%Q ->
  exists L, (forall p, In p L <-> WithinBall P r c p) /\ NoDup L /\ StronglySorted lexLt L /\
    exists enough, forall fuel, (enough <= fuel)%nat -> ballForeach fuel P (mkBall r c) = Some (Ok L).
Proof. exact ball_iteration. Qed.
Print Assumptions C30_ball_iteration_partial.
Example C30_ball_iteration_met :
  ballForeach 10 1 (mkBall (3 # 2) [5; -1]) = Some (Ok [[5; -2]; [4; -1]; [5; -1]; [6; -1]; [5; 0]]) /\
  ballForeach 10 2 (mkBall (3 # 2) [5; -1]) =
    Some (Ok [[4; -2]; [5; -2]; [6; -2]; [4; -1]; [5; -1]; [6; -1]; [4; 0]; [5; 0]; [6; 0]]).
Proof. split; reflexivity. Qed.

(** A ball of radius at most -1 is empty, and iterating over it never ends. *)
Theorem C30_negative_radius_never_ends : forall P r c, c <> [] -> (r <= -1)%Q ->
  forall fuel, ballForeach fuel P (mkBall r c) = None.
Proof. exact ball_negative_radius. Qed.
Print Assumptions C30_negative_radius_never_ends.
Example C30_negative_radius_met : (-(3 # 2) <= -1)%Q.
Proof. discriminate. Qed.

(** C55. box() is the smallest box which contains the ball. *)
Theorem C55_bounding_box : forall P r c, 0 < P -> c <> [] -> (0 <= r)%Q ->
  let inside p := WithinBall P r c p in
  (forall p, inside p -> Between (bfront (ballBox (mkBall r c))) (bback (ballBox (mkBall r c))) p) /\
  (forall f b, (forall p, inside p -> Between f b p) ->
     forall p, Between (bfront (ballBox (mkBall r c))) (bback (ballBox (mkBall r c))) p -> Between f b p).
Proof. exact ball_box. Qed.
Print Assumptions C55_bounding_box.
Example C55_bounding_box_met : ballBox (mkBall (5 # 2) [5; -1]) = mkBox [3; -3] [7; 1].
Proof. reflexivity. Qed.

Theorem C55_shape : forall b, ballShape (ballDim b) b = boxShape (ballBox b) /\ ballDim b = length (bcenter b).
Proof. exact ball_shape_dim. Qed.
Print Assumptions C55_shape.
Example C55_shape_met : ballDim (mkBall (5 # 2) [5; -1]) = 2%nat /\ ballShape 2 (mkBall (5 # 2) [5; -1]) = [5; 5].
Proof. split; reflexivity. Qed.

Theorem C55_translate : forall P b v p, length (bcenter b) = length v -> length p = length v ->
  let inside b p := WithinBall P (bradius b) (bcenter b) p in
  (inside (ballShift b v) (vadd p v) <-> inside b p) /\
  (inside (ballUnshift b v) (vsub p v) <-> inside b p).
Proof. exact ball_translate. Qed.
Print Assumptions C55_translate.
Example C55_translate_met : ballShift (mkBall (5 # 2) [5; -1]) [1; 2] = mkBall (5 # 2) [6; 1].
Proof. reflexivity. Qed.

Theorem C55_scalar_opposite : forall P b a p,
  let inside b p := WithinBall P (bradius b) (bcenter b) p in
  (inside (ballAdds b a) (vadds p a) <-> inside b p) /\ (inside (ballSubs b a) (vsubs p a) <-> inside b p) /\
  (inside (ballOpp b) (vopp p) <-> inside b p).
Proof. exact ball_scalar. Qed.
Print Assumptions C55_scalar_opposite.
Example C55_scalar_opposite_met : ballOpp (mkBall (5 # 2) [5; -1]) = mkBall (5 # 2) [-5; 1].
Proof. reflexivity. Qed.

Theorem C55_equality : forall a b, ballEqb a b = true <-> (bradius a == bradius b)%Q /\ bcenter a = bcenter b.
Proof. exact ball_equal. Qed.
Print Assumptions C55_equality.
Example C55_equality_met : ballEqb (mkBall (5 # 2) [5; -1]) (mkBall (5 # 2) [5; -1]) = true /\
  ballEqb (mkBall (5 # 2) [5; -1]) (mkBall (5 # 2) [5; 1]) = false.
Proof. split; reflexivity. Qed.

(** size() is not the number of positions, only an upper bound. *)
Theorem C55_size_bound_partial : forall P r c L, 0 < P -> c <> [] -> (0 <= r)%Q -> NoDup L ->
  (forall p, In p L <-> WithinBall P r c p) -> Z.of_nat (length L) <= ballSize (mkBall r c).
Proof. exact ball_size_bound. Qed.
Print Assumptions C55_size_bound_partial.
Example C55_size_bound_met : exists L, (forall p, In p L <-> WithinBall 2 (3 # 2) [0; 0] p) /\ NoDup L /\ In [1; 1] L /\ ~ In [2; 0] L.
Proof. exact ball_size_bound_met. Qed.

Theorem C55_size_refuted : exists b L, ballForeach 10 2 b = Some (Ok L) /\ length L = 5%nat /\ ballSize b = 9.
Proof. exact ball_size_witness. Qed.
Print Assumptions C55_size_refuted.

(** C56. Moves of data samples: [conv] is the conversion of an integer to the type of the elements. *)
Theorem C56_moves_partial : forall conv d n, conv n = n -> conv (- n) = - n ->
  dData (dsMove conv d n) = dData d + n /\ dData (dsMoveBack conv d n) = dData d - n /\
  dsMoveBack conv (dsMove conv d n) n = d.
Proof. exact dsMove_spec. Qed.
Print Assumptions C56_moves_partial.
Example C56_moves_met : dsMove (fun x => x) (dsMake 4 3 sdefault 2) 300 = dsMake 304 3 sdefault 2.
Proof. reflexivity. Qed.

(** With elements of type std::uint8_t, moving by 300 moves by 44, and moving back by 1 moves forward by 255. *)
Theorem C56_moves_refuted : forall d,
  dData (dsMove (fun x => x mod 256) d 300) = dData d + 44 /\
  dData (dsMoveBack (fun x => x mod 256) d 1) = dData d + 255.
Proof. exact dsMove_byte. Qed.
Print Assumptions C56_moves_refuted.

(** The prefix increment moves its operand and returns it. The postfix increment returns the moved samples and does not move its operand. *)
Theorem C56_postfix_refuted : forall conv d, conv 1 = 1 ->
  dData (fst (dsIncr conv d)) = dData d + 1 /\ dData (snd (dsIncr conv d)) = dData d + 1 /\
  dData (snd (dsPostIncr conv d)) = dData d /\ dData (fst (dsPostIncr conv d)) = dData d + 1.
Proof. exact increments. Qed.
Print Assumptions C56_postfix_refuted.
Example C56_postfix_met : dsPostIncr (fun x => x mod 256) (dsMake 4 3 sdefault 2) = (dsMake 5 3 sdefault 2, dsMake 4 3 sdefault 2).
Proof. reflexivity. Qed.
