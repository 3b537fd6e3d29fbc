(** Properties C03 to C07: boxes. *)
From Coq Require Import Sorted.
From Verif Require Import Res VecModel BoxModel RasterModel Spec BoxSpec Lemmas IndexProofs BoxIterProofs BoxGeomProofs.

(** C03. The for-loop over a non-empty box terminates, visits each position of the box exactly once, from front to back,
    by increasing index in any raster which contains the box. *)
Theorem C03_box_iteration : forall f b,
  f <> [] -> Nonempty (mkBox f b) ->
  exists L, (exists enough, forall fuel, (enough <= fuel)%nat -> boxForeach fuel (mkBox f b) = Some (Ok L)) /\
    NoDup L /\ (forall p, In p L <-> InBox (mkBox f b) p) /\
    (exists L1, L = f :: L1) /\ (exists L2, L = L2 ++ [b]) /\
    (forall n shape, n = -1 \/ n = Z.of_nat (length shape) -> (forall p, In p L -> InDomain shape p) ->
       StronglySorted (fun p q => exists i j, rindex n shape p = Ok i /\ rindex n shape q = Ok j /\ i < j) L).
Proof. exact iteration_full. Qed.
Print Assumptions C03_box_iteration.

Example C03_box_iteration_met :
  Nonempty (mkBox [1; -1] [2; 1]) /\
  boxForeach 10 (mkBox [1; -1] [2; 1]) = Some (Ok [[1; -1]; [2; -1]; [1; 0]; [2; 0]; [1; 1]; [2; 1]]).
Proof. split; [exists [2; 0]; repeat constructor; lia | reflexivity]. Qed.

(** C04 does not hold: iteration over an empty box of dimension at least 1 never ends, whatever the number of steps
    (with machine integers it goes on until the last coordinate overflows, or forever). *)
Theorem C04_empty_iteration_never_ends : forall b,
  bfront b <> [] -> length (bback b) = length (bfront b) -> ~ Nonempty b -> forall fuel, boxForeach fuel b = None.
Proof. exact never_ends. Qed.
Print Assumptions C04_empty_iteration_never_ends.
Example C04_met : ~ Nonempty (mkBox [0; 0] [2; -1]) /\ boxForeach 100 (mkBox [0; 0] [2; -1]) = None.
Proof. split; [|reflexivity]. intros (p & H). inversion H as [|? ? ? ? ? ? _ H']; subst. inversion H'; subst. lia. Qed.

(** Concretely, for the domain of an empty raster. *)
Theorem C04_empty_iteration_refuted :
  exists b, rdomain 2 [3; 0] = Ok b /\ ~ Nonempty b /\ forall fuel, boxForeach fuel b = None.
Proof. exact empty_iteration_witness. Qed.
Print Assumptions C04_empty_iteration_refuted.

(** C05, for non-empty boxes: size() is the number of positions of the box... *)
Theorem C05_size_is_count_partial : forall f b L,
  f <> [] -> Nonempty (mkBox f b) -> NoDup L -> (forall p, In p L <-> InBox (mkBox f b) p) ->
  boxSize (mkBox f b) = Z.of_nat (length L).
Proof. exact size_is_count. Qed.
Print Assumptions C05_size_is_count_partial.

(** ... and the number of positions visited by iteration. *)
Theorem C05_size_is_visited_partial : forall f b L fuel,
  f <> [] -> Nonempty (mkBox f b) -> boxForeach fuel (mkBox f b) = Some (Ok L) -> boxSize (mkBox f b) = Z.of_nat (length L).
Proof. exact size_is_visited. Qed.
Print Assumptions C05_size_is_visited_partial.

Example C05_size_met : Nonempty (mkBox [1; -1] [2; 1]) /\ boxSize (mkBox [1; -1] [2; 1]) = 6.
Proof. split; [exists [2; 0]; repeat constructor; lia | reflexivity]. Qed.

(** For empty boxes, size() is 0 if some length is 0 ... *)
Theorem C05_size_zero_partial : forall f b,
  length f = length b -> In 0 (boxShape (mkBox f b)) -> boxSize (mkBox f b) = 0.
Proof. exact size_zero. Qed.
Print Assumptions C05_size_zero_partial.

Example C05_size_zero_met : In 0 (boxShape (mkBox [0; 0] [2; -1])).
Proof. right. now left. Qed.

(** ... but not in general: it may be positive or negative. *)
Theorem C05_size_refuted :
  exists b, ~ Nonempty b /\ boxSize b = 1 /\ exists b', ~ Nonempty b' /\ boxSize b' = -3.
Proof. exact size_witness. Qed.
Print Assumptions C05_size_refuted.

(** C06. *)
Theorem C06_fromShape : forall front shape,
  length front = length shape -> bfront (fromShape front shape) = front /\ boxShape (fromShape front shape) = shape.
Proof. exact geometry_shape. Qed.
Print Assumptions C06_fromShape.

Theorem C06_fromCenter : forall r c p,
  InBox (fromCenter r c) p <-> Forall2 (fun x y => Z.abs (x - y) <= r) p c.
Proof. exact fromCenter_ball. Qed.
Print Assumptions C06_fromCenter.

Theorem C06_translate : forall b v p,
  length (bfront b) = length v -> length (bback b) = length v -> length p = length v ->
  (InBox (boxShift b v) (vadd p v) <-> InBox b p) /\
  (InBox (boxUnshift b v) (vsub p v) <-> InBox b p) /\
  boxShape (boxShift b v) = boxShape b /\ boxShape (boxUnshift b v) = boxShape b.
Proof. exact geometry_translate. Qed.
Print Assumptions C06_translate.

Theorem C06_translate_scalar : forall b a p, InBox (boxAdds b a) (vadds p a) <-> InBox b p.
Proof. exact geometry_scalar. Qed.
Print Assumptions C06_translate_scalar.

Theorem C06_inverse : forall b m v a,
  length (bfront b) = length v -> length (bback b) = length v ->
  length (bfront m) = length v -> length (bback m) = length v ->
  boxShrink (boxGrow b m) m = b /\ boxGrow (boxShrink b m) m = b /\
  boxUnshift (boxShift b v) v = b /\ boxShift (boxUnshift b v) v = b /\
  boxShift b (vopp v) = boxUnshift b v /\
  boxSubs (boxAdds b a) a = b /\ boxDecr (boxIncr b) = b.
Proof. exact geometry_inverse. Qed.
Print Assumptions C06_inverse.

Theorem C06_equality : forall a b,
  (boxEqb a b = true <-> bfront a = bfront b /\ bback a = bback b) /\ boxNeqb a b = negb (boxEqb a b).
Proof. exact geometry_equal. Qed.
Print Assumptions C06_equality.

Theorem C06_project : forall b axis x y,
  length (bfront b) = length (bback b) -> zget (bfront b) axis = Ok x -> zget (bback b) axis = Ok y -> x <= y ->
  exists pr, project b axis = Ok pr /\
    (forall p, InBox pr p <-> InBox b p /\ zget p axis = Ok x) /\
    (exists s, zset (boxShape b) axis 1 = Ok s /\ boxShape pr = s).
Proof. exact geometry_project. Qed.
Print Assumptions C06_project.

Example C06_met :
  boxShape (fromShape [1; 2] [3; 4]) = [3; 4] /\
  InBox (fromCenter 1 [5; 5]) [4; 6] /\
  InBox (boxShift (mkBox [0; 0] [2; 2]) [10; 20]) (vadd [1; 2] [10; 20]) /\
  project (mkBox [0; 0] [2; 2]) 1 = Ok (mkBox [0; 0] [2; 0]).
Proof. repeat split; repeat constructor; lia. Qed.

(** The part on unary minus does not hold... *)
Theorem C06_minus_refuted : exists b p, InBox b p /\ ~ InBox (boxOpp b) (vopp p).
Proof. exact opp_witness. Qed.
Print Assumptions C06_minus_refuted.

(** ... the opposite of a box with a length greater than one is empty ... *)
Theorem C06_minus_empty : forall b i x y p,
  zget (bfront b) i = Ok x -> zget (bback b) i = Ok y -> x < y -> ~ InBox (boxOpp b) p.
Proof. exact opp_always. Qed.
Print Assumptions C06_minus_empty.

(** ... and it holds for a box of one position only. *)
Theorem C06_minus_partial : forall b p, bfront b = bback b -> InBox (boxOpp b) (vopp p) <-> InBox b p.
Proof. exact opp_unit. Qed.
Print Assumptions C06_minus_partial.

Example C06_minus_met : InBox (boxOpp (mkBox [3; -1] [3; -1])) (vopp [3; -1]).
Proof. repeat constructor; cbn; lia. Qed.

(** C07. *)
Theorem C07_surround : forall f b mf mb,
  length mf = length f -> length mb = length f -> Nonempty (mkBox f b) ->
  Forall (fun x => x <= 0) mf -> Forall (fun x => 0 <= x) mb ->
  exists L, surround (mkBox f b) (mkBox mf mb) = Ok L /\
    Forall Nonempty L /\
    ForallOrdPairs Disjoint (mkBox f b :: L) /\
    (forall p, InBox (boxGrow (mkBox f b) (mkBox mf mb)) p <->
               InBox (mkBox f b) p \/ exists a, In a L /\ InBox a p) /\
    length L = (length (filter (fun x => (x <? 0)%Z) mf) + length (filter (fun x => (0 <? x)%Z) mb))%nat.
Proof. exact surround_partition. Qed.
Print Assumptions C07_surround.

Example C07_surround_met :
  Nonempty (mkBox [0; 0] [9; 9]) /\ Forall (fun x => x <= 0) [-1; 0] /\ Forall (fun x => 0 <= x) [2; 3] /\
  surround (mkBox [0; 0] [9; 9]) (mkBox [-1; 0] [2; 3])
  = Ok [mkBox [-1; 0] [-1; 9]; mkBox [10; 0] [11; 9]; mkBox [-1; 10] [11; 12]].
Proof. repeat split; [exists [1; 1] | |]; repeat constructor; lia. Qed.
