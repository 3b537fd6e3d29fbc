(** Property C108: regions modified by their own parts. *)
From Verif Require Import Res VecModel BoxModel ArithModel ArithSpec RegionAliasModel RegionAliasSpec RegionAliasProofs.

(** C108. A box shifted by a position which is not its front is shifted as a whole, even by its own back, and nothing
    else changes. *)
Theorem C108_shift : forall minus mem fa ba sa f b s,
  length b = length f -> length s = length f ->
  Holds mem fa f -> Holds mem ba b -> Holds mem sa s ->
  Apart fa (length f) ba (length f) -> Apart fa (length f) sa (length f) ->
  sa = ba \/ Apart ba (length f) sa (length f) ->
  exists mem', memShift minus (length f) mem fa ba sa = Ok mem' /\
    Holds mem' fa (shiftedBy minus f s) /\ Holds mem' ba (shiftedBy minus b s) /\ Frame2 mem mem' fa ba (length f).
Proof. exact shift_right. Qed.
Print Assumptions C108_shift.

Example C108_shift_met :
  Holds [3; 4; 5; 6] 0 [3; 4] /\ Holds [3; 4; 5; 6] 2 [5; 6] /\ Apart 0 2 2 2 /\
  memShift true 2 [3; 4; 5; 6] 0 2 2 = Ok [-2; -2; 0; 0].
Proof.
  split; [exact (holds_here [3; 4] [5; 6])|]. split; [exact (holds_end [3; 4] [5; 6])|]. split; [|reflexivity].
  intros i j Hi Hj. lia.
Qed.

(** A box shifted by its own front: the back is shifted by the already modified front, which is right if and only if
    the front is null. *)
Theorem C108_own_front : forall minus mem fa ba f b,
  length b = length f -> Holds mem fa f -> Holds mem ba b -> Apart fa (length f) ba (length f) ->
  exists mem', memShift minus (length f) mem fa ba fa = Ok mem' /\
    Holds mem' fa (shiftedBy minus f f) /\ Holds mem' ba (shiftedBy minus b (shiftedBy minus f f)) /\
    Frame2 mem mem' fa ba (length f) /\
    (Holds mem' ba (shiftedBy minus b f) <-> Forall (fun x => x = 0) f).
Proof. exact shift_own_front. Qed.
Print Assumptions C108_own_front.

(** Concretely, the box from (3, 4) to (5, 6) minus its front is from (0, 0) to (5, 6) instead of (2, 2) if it is
    modified in place, and right if a new box is created. *)
Theorem C108_refuted :
  Holds [3; 4; 5; 6] 0 [3; 4] /\ Holds [3; 4; 5; 6] 2 [5; 6] /\
  memShift true 2 [3; 4; 5; 6] 0 2 0 = Ok [0; 0; 5; 6] /\ vsub [5; 6] [3; 4] = [2; 2] /\
  memShiftNew true 2 [3; 4; 5; 6] 0 2 0 = Ok [3; 4; 5; 6; 0; 0; 2; 2].
Proof. exact own_front_refuted. Qed.
Print Assumptions C108_refuted.

(** A new box is right whatever the position, its own front included, and the box, the position and the remainder of the
    memory do not change. *)
Theorem C108_new : forall minus mem fa ba sa f b s,
  length b = length f -> length s = length f -> Holds mem fa f -> Holds mem ba b -> Holds mem sa s ->
  memShiftNew minus (length f) mem fa ba sa = Ok (mem ++ shiftedBy minus f s ++ shiftedBy minus b s).
Proof. exact new_right. Qed.
Print Assumptions C108_new.

(** A box grown or shrunk by a margin, which may be the box itself. *)
Theorem C108_margin : forall minus mem fa ba mf mb f b u v,
  length b = length f -> length u = length f -> length v = length f ->
  Holds mem fa f -> Holds mem ba b -> Holds mem mf u -> Holds mem mb v ->
  Apart fa (length f) ba (length f) -> Apart fa (length f) mb (length f) ->
  mf = fa \/ Apart fa (length f) mf (length f) -> mb = ba \/ Apart ba (length f) mb (length f) ->
  exists mem', memMargin minus (length f) mem fa ba mf mb = Ok mem' /\
    Holds mem' fa (shiftedBy minus f u) /\ Holds mem' ba (shiftedBy minus b v) /\ Frame2 mem mem' fa ba (length f).
Proof. exact margin_right. Qed.
Print Assumptions C108_margin.

Example C108_margin_met :
  memMargin true 2 [3; 4; 5; 6] 0 2 0 2 = Ok [0; 0; 0; 0] /\ memMargin false 2 [3; 4; 5; 6] 0 2 0 2 = Ok [6; 8; 10; 12].
Proof. split; reflexivity. Qed.

(** A scalar may be any coordinate, even of the box. *)
Theorem C108_scalar : forall minus mem fa ba s y f b,
  length b = length f -> Holds mem fa f -> Holds mem ba b -> zget mem s = Ok y ->
  Apart fa (length f) ba (length f) ->
  exists mem', memScalar minus (length f) mem fa ba s = Ok mem' /\
    Holds mem' fa (if minus then vsubs f y else vadds f y) /\ Holds mem' ba (if minus then vsubs b y else vadds b y) /\
    Frame2 mem mem' fa ba (length f).
Proof. exact scalar_right. Qed.
Print Assumptions C108_scalar.

Example C108_scalar_met : memScalar true 2 [3; 4; 5; 6] 0 2 0 = Ok [0; 1; 2; 3].
Proof. reflexivity. Qed.

(** A ball may be shifted by its own center. *)
Theorem C108_ball : forall minus mem ca sa c s,
  length s = length c -> Holds mem ca c -> Holds mem sa s -> sa = ca \/ Apart ca (length c) sa (length c) ->
  exists mem', memBallShift minus (length c) mem ca sa = Ok mem' /\ Holds mem' ca (shiftedBy minus c s) /\ Frame mem mem' ca (length c).
Proof. exact ball_right. Qed.
Print Assumptions C108_ball.

Example C108_ball_met : memBallShift true 2 [3; 4; 9] 0 0 = Ok [0; 0; 9].
Proof. reflexivity. Qed.
