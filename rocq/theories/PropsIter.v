(** C90: iterators over boxes, balls and subrasters, and their copies, in any history. *)
From Coq Require Import QArith.
From Verif Require Import Res VecModel BoxModel RasterModel BallModel LoopModel SubrasterModel IterModel BoxSpec IterSpec IterProofs.
Open Scope Z_scope.

(** What is not moved, reset, assigned to or destroyed does not change. *)
Theorem C90_frame : forall P n shape fuel ops s s' i x,
  iexec P n shape fuel s ops = Some (Ok s') -> object_at s i = Some x -> Unchanged i ops -> object_at s' i = Some x.
Proof. exact frame. Qed.
Print Assumptions C90_frame.

(** Boxes: begin() is at the first position, a copy is where its source is, reset() goes back... *)
Theorem C90_box_begin : forall P n shape fuel s r b fl L,
  object_at s r = Some (BoxObj b) -> boxForeach fl b = Some (Ok L) ->
  exists e s', endPosition b = Ok e /\ istep P n shape fuel s (Begin r) = Some (Ok s') /\ BoxAt s' (length s) r b L e 0 /\
  forall k x, object_at s k = Some x -> object_at s' k = Some x.
Proof. exact box_begin. Qed.
Print Assumptions C90_box_begin.

Theorem C90_box_copy : forall P n shape fuel s j r b L e m, BoxAt s j r b L e m ->
  exists s', istep P n shape fuel s (Copy j) = Some (Ok s') /\ BoxAt s' (length s) r b L e m /\
  forall k x, object_at s k = Some x -> object_at s' k = Some x.
Proof. exact box_copy. Qed.
Print Assumptions C90_box_copy.

Theorem C90_box_reset : forall P n shape fuel s j r b fl L e m,
  BoxAt s j r b L e m -> endPosition b = Ok e -> boxForeach fl b = Some (Ok L) ->
  exists s', istep P n shape fuel s (Reset j) = Some (Ok s') /\ BoxAt s' j r b L e 0.
Proof. exact box_reset. Qed.
Print Assumptions C90_box_reset.

(** ...and whatever is done to other objects, an iterator moves by one position per increment, as long as the box lives and is not modified. *)
Theorem C90_box_history : forall P n shape fuel ops s s' j r b fl L e m,
  BoxAt s j r b L e m -> endPosition b = Ok e -> boxForeach fl b = Some (Ok L) ->
  Unchanged r ops -> OnlyIncremented j ops -> (m + increments j ops <= length L)%nat ->
  iexec P n shape fuel s ops = Some (Ok s') -> BoxAt s' j r b L e (m + increments j ops).
Proof. exact box_history. Qed.
Print Assumptions C90_box_history.

Theorem C90_box_progress : forall P n shape fuel s j r b fl L e m o,
  BoxAt s j r b L e m -> endPosition b = Ok e -> boxForeach fl b = Some (Ok L) -> (m < length L)%nat -> o = Incr j \/ o = PostIncr j ->
  exists s', istep P n shape fuel s o = Some (Ok s') /\ BoxAt s' j r b L e (S m).
Proof. exact box_incr. Qed.
Print Assumptions C90_box_progress.

Definition boxHistory := [NewBox (mkBox [1; 1] [2; 3]); Begin 0; Incr 1; Copy 1; Incr 1; Destroy 1; Incr 2; PostIncr 2].
Example C90_box_met : exists s, iexec 2 2 [9; 9] 99 [] boxHistory = Some (Ok s) /\ object_at s 1 = None /\
  BoxAt s 2 0 (mkBox [1; 1] [2; 3]) [[1; 1]; [2; 1]; [1; 2]; [2; 2]; [1; 3]; [2; 3]] [0; 1] 3.
Proof. eexists. split; [reflexivity|]. split; [reflexivity|]. split; [reflexivity|]. exists [2; 2]. split; reflexivity. Qed.

(** Balls: the same, as long as the ball lives and is not modified, and as the iterator [r] which begin() returned lives... *)
Theorem C90_ball_begin : forall P n shape fuel s c b fl L,
  object_at s c = Some (BallObj b) -> ballForeach fl P b = Some (Ok L) -> (fl <= fuel)%nat ->
  exists e s', endPosition (ballBox b) = Ok e /\ istep P n shape fuel s (Begin c) = Some (Ok s') /\
  BallAt P s' (length s) (length s) c b L e 0 /\
  forall k x, object_at s k = Some x -> object_at s' k = Some x.
Proof. exact ball_begin. Qed.
Print Assumptions C90_ball_begin.

Theorem C90_ball_copy : forall P n shape fuel s j r c b L e m, BallAt P s j r c b L e m ->
  exists s', istep P n shape fuel s (Copy j) = Some (Ok s') /\ BallAt P s' (length s) r c b L e m /\
  forall k x, object_at s k = Some x -> object_at s' k = Some x.
Proof. exact ball_copy. Qed.
Print Assumptions C90_ball_copy.

Theorem C90_ball_history_partial : forall P n shape fuel ops s s' j r c b fl L e m,
  BallAt P s j r c b L e m -> endPosition (ballBox b) = Ok e -> ballForeach fl P b = Some (Ok L) ->
  (fl <= fuel)%nat -> Unchanged c ops -> OnlyIncremented r ops -> OnlyIncremented j ops -> (m + increments j ops <= length L)%nat ->
  iexec P n shape fuel s ops = Some (Ok s') -> BallAt P s' j r c b L e (m + increments j ops).
Proof. exact ball_history. Qed.
Print Assumptions C90_ball_history_partial.

Theorem C90_ball_progress_partial : forall P n shape fuel s j r c b fl L e m o,
  BallAt P s j r c b L e m -> endPosition (ballBox b) = Ok e -> ballForeach fl P b = Some (Ok L) ->
  (fl <= fuel)%nat -> (m < length L)%nat -> o = Incr j \/ o = PostIncr j ->
  exists s', istep P n shape fuel s o = Some (Ok s') /\ BallAt P s' j r c b L e (S m).
Proof. exact ball_incr. Qed.
Print Assumptions C90_ball_progress_partial.

(** ...and not if it does not: a copy refers to a member of the iterator [r] it was made from. *)
Theorem C90_ball_copy_refuted : forall P n shape fuel s j r c b L e m o s1,
  BallAt P s j r c b L e m -> j <> r -> istep P n shape fuel s (Destroy r) = Some (Ok s1) -> o = Incr j \/ o = PostIncr j ->
  istep P n shape fuel s1 o = Some UB.
Proof. exact ball_orphan. Qed.
Print Assumptions C90_ball_copy_refuted.

Definition findHistory := [NewBall (mkBall 1 [5; -1]); Begin 0; Incr 1; Copy 1; Destroy 1].
Example C90_ball_met :
  (exists s, iexec 2 2 [9; 9] 99 [] (firstn 4 findHistory) = Some (Ok s) /\
     BallAt 2 s 2 1 0 (mkBall 1 [5; -1]) [[5; -2]; [4; -1]; [5; -1]; [6; -1]; [5; 0]] [3; -2] 1) /\
  (exists s, iexec 2 2 [9; 9] 99 [] (firstn 4 findHistory ++ [Incr 1; Incr 2; PostIncr 2]) = Some (Ok s) /\
     BallAt 2 s 2 1 0 (mkBall 1 [5; -1]) [[5; -2]; [4; -1]; [5; -1]; [6; -1]; [5; 0]] [3; -2] 3) /\
  (exists s, iexec 2 2 [9; 9] 99 [] findHistory = Some (Ok s)) /\ iexec 2 2 [9; 9] 99 [] (findHistory ++ [Incr 2]) = Some UB.
Proof.
  split; [|split; [|split]].
  - eexists. split; [vm_compute; reflexivity|]. split; [reflexivity|]. split; [exists [4; -1]; reflexivity|]. exists [4; -1]. split; reflexivity.
  - eexists. split; [vm_compute; reflexivity|]. split; [reflexivity|]. split; [exists [5; -1]; reflexivity|]. exists [6; -1]. split; reflexivity.
  - eexists. vm_compute. reflexivity.
  - vm_compute. reflexivity.
Qed.

(** Subrasters of a raster which outlives the iterators: the same... *)
Theorem C90_sub_states : forall fl n shape region O, subForeach fl n shape region = Some (Ok O) <->
  exists L e, SubStates fl n shape region L e /\ O = map siCurrent L.
Proof. exact sub_states. Qed.
Print Assumptions C90_sub_states.

Theorem C90_sub_begin : forall P n shape fuel s region fl L e, SubStates fl n shape region L e ->
  exists s', istep P n shape fuel s (BeginSub region) = Some (Ok s') /\
  SubAt s' (length s) (length s) region L e 0 /\ forall k x, object_at s k = Some x -> object_at s' k = Some x.
Proof. exact sub_begin'. Qed.
Print Assumptions C90_sub_begin.

Theorem C90_sub_copy : forall P n shape fuel s j r region L e m, SubAt s j r region L e m ->
  exists s', istep P n shape fuel s (Copy j) = Some (Ok s') /\ SubAt s' (length s) r region L e m /\
  forall k x, object_at s k = Some x -> object_at s' k = Some x.
Proof. exact sub_copy. Qed.
Print Assumptions C90_sub_copy.

Theorem C90_sub_history_partial : forall P n shape fuel ops s s' j r region fl e L m,
  SubAt s j r region L e m -> SubStates fl n shape region L e ->
  OnlyIncremented r ops -> OnlyIncremented j ops -> (m + increments j ops <= length L)%nat ->
  iexec P n shape fuel s ops = Some (Ok s') -> SubAt s' j r region L e (m + increments j ops).
Proof. exact sub_history'. Qed.
Print Assumptions C90_sub_history_partial.

Theorem C90_sub_progress_partial : forall P n shape fuel s j r region fl e L m o,
  SubAt s j r region L e m -> SubStates fl n shape region L e -> (m < length L)%nat -> o = Incr j \/ o = PostIncr j ->
  exists s', istep P n shape fuel s o = Some (Ok s') /\ SubAt s' j r region L e (S m).
Proof. exact sub_incr'. Qed.
Print Assumptions C90_sub_progress_partial.

(** ...and a copy whose source is dead works up to the end of the row only. *)
Theorem C90_sub_copy_refuted : forall P n shape fuel s j r own w c o s1,
  object_at s j = Some (IterObj r (SubIter own w c)) -> j <> r ->
  istep P n shape fuel s (Destroy r) = Some (Ok s1) -> o = Incr j \/ o = PostIncr j ->
  (siCurrent c + 1 = siEol c -> istep P n shape fuel s1 o = Some UB) /\
  (siCurrent c + 1 <> siEol c -> exists s2, istep P n shape fuel s1 o = Some (Ok s2) /\
     object_at s2 j = Some (IterObj r (SubIter own w (mkSubIt (siBegin c) (siCurrent c + 1) (siEol c))))).
Proof. exact sub_orphan. Qed.
Print Assumptions C90_sub_copy_refuted.

Definition subHistory := [BeginSub (mkBox [1; 1] [2; 2]); Copy 0].
Example C90_sub_met :
  subForeach 9 2 [4; 3] (mkBox [1; 1] [2; 2]) = Some (Ok [5; 6; 9; 10]) /\
  (exists s, iexec 2 2 [4; 3] 99 [] (subHistory ++ [Incr 0; Incr 1; Incr 1]) = Some (Ok s) /\ exists own w,
     object_at s 1 = Some (IterObj 0 (SubIter own w (mkSubIt [1; 2] 9 11)))) /\
  (exists s, iexec 2 2 [4; 3] 99 [] (subHistory ++ [Destroy 0; Incr 1]) = Some (Ok s)) /\
  iexec 2 2 [4; 3] 99 [] (subHistory ++ [Destroy 0; Incr 1; Incr 1]) = Some UB.
Proof.
  split; [reflexivity|]. split; [|split].
  - eexists. split; [vm_compute; reflexivity|]. eexists. eexists. reflexivity.
  - eexists. vm_compute. reflexivity.
  - vm_compute. reflexivity.
Qed.

(** Postfix increments return where the iterator goes, and not where it was:
    [while (it != end) visit( *it++)] misses the front of any box and visits the end position, which is not in the box. *)
Theorem C90_postfix_refuted : forall f b, f <> [] -> Nonempty (mkBox f b) ->
  exists L e, endPosition (mkBox f b) = Ok e /\
  (exists enough, forall fuel, (enough <= fuel)%nat ->
     boxForeach fuel (mkBox f b) = Some (Ok (f :: L)) /\ postLoop fuel (mkBox f b) e f = Some (Ok (L ++ [e]))) /\
  ~ In f (L ++ [e]) /\ ~ InBox (mkBox f b) e.
Proof. exact post_box. Qed.
Print Assumptions C90_postfix_refuted.
Example C90_postfix_met : Nonempty (mkBox [1; 1] [2; 2]) /\
  boxForeach 9 (mkBox [1; 1] [2; 2]) = Some (Ok [[1; 1]; [2; 1]; [1; 2]; [2; 2]]) /\
  postLoop 9 (mkBox [1; 1] [2; 2]) [0; 1] [1; 1] = Some (Ok [[2; 1]; [1; 2]; [2; 2]; [0; 1]]).
Proof. split; [exists [2; 2]; repeat constructor; lia|]. split; reflexivity. Qed.
