From Verif Require Import Res Lemmas MatrixModel.

Lemma diagonalLoop_spec columns : 0 <= columns -> forall values d data, 0 <= d ->
  (values = [] \/ d + (columns + 1) * (Z.of_nat (length values) - 1) < Z.of_nat (length data)) ->
  exists out, diagonalLoop columns d values data = Ok out /\ length out = length data /\
    (forall j v, nth_error values j = Some v -> zget out (d + (columns + 1) * Z.of_nat j) = Ok v) /\
    (forall i, (forall j, (j < length values)%nat -> i <> d + (columns + 1) * Z.of_nat j) -> zget out i = zget data i).
Proof.
  intros Hc. induction values as [|v values IH]; intros d data Hd Hl; cbn [diagonalLoop].
  - exists data. repeat split; auto. intros j v H. destruct j; discriminate.
  - destruct Hl as [Hl|Hl]; [discriminate|]. cbn [length] in Hl. rewrite Nat2Z.inj_succ in Hl.
    assert (Hd' : 0 <= d < Z.of_nat (length data)) by nia. rewrite zset_ok by exact Hd'. cbn [bind].
    destruct (IH (d + (columns + 1)) (replace data (Z.to_nat d) v)) as (out & E & L & A & B); [lia| |].
    + destruct values as [|w values]; [now left|right]. rewrite replace_length. cbn [length] in *. nia.
    + exists out. split; [exact E|]. split; [now rewrite L, replace_length|]. split.
      * intros [|j] w H; cbn [nth_error] in H.
        -- injection H as <-. rewrite B by (intros j Hj; nia). replace (d + (columns + 1) * Z.of_nat 0) with d by lia.
           unfold zget. replace (d <? 0) with false by lia. rewrite nth_error_replace_eq by lia. reflexivity.
        -- rewrite <- (A j w H). f_equal. lia.
      * intros i Hi. rewrite B.
        -- assert (i <> d) by (specialize (Hi O ltac:(cbn [length]; lia)); lia). unfold zget. destruct (i <? 0) eqn:Ei; [reflexivity|].
           rewrite nth_error_replace_neq by lia. reflexivity.
        -- intros j Hj. specialize (Hi (S j) ltac:(cbn [length]; lia)). rewrite Nat2Z.inj_succ in Hi. nia.
Qed.

Lemma diagonalLoop_out columns : 0 <= columns -> forall values d data, 0 <= d -> values <> [] ->
  Z.of_nat (length data) <= d + (columns + 1) * (Z.of_nat (length values) - 1) -> diagonalLoop columns d values data = UB.
Proof.
  intros Hc. induction values as [|v values IH]; intros d data Hd Hn Hl; [congruence|]. cbn [diagonalLoop length] in *.
  destruct (Z.lt_ge_cases d (Z.of_nat (length data))) as [L|L].
  - rewrite zset_ok by lia. cbn [bind]. apply IH; [lia| |].
    + intros ->. cbn [length] in Hl. lia.
    + rewrite replace_length. rewrite Nat2Z.inj_succ in Hl. lia.
  - unfold zset. replace ((d <? 0) || (Z.of_nat (length data) <=? d)) with true by lia. reflexivity.
Qed.

Lemma zget_repeat {A} (a : A) n i : 0 <= i < Z.of_nat n -> zget (repeat a n) i = Ok a.
Proof.
  intros H. unfold zget. replace (i <? 0) with false by lia.
  destruct (nth_error (repeat a n) (Z.to_nat i)) eqn:E; [apply nth_error_In, repeat_spec in E; congruence|].
  apply nth_error_None in E. rewrite repeat_length in E. lia.
Qed.

Lemma zeroMatrix_length rows columns : 0 <= rows -> 0 <= columns -> Z.of_nat (length (zeroMatrix rows columns)) = rows * columns.
Proof. intros. unfold zeroMatrix. rewrite repeat_length. nia. Qed.

(** Flat indices of the diagonal *)
Lemma flat_diagonal columns r c j : 0 <= c < columns -> 0 <= r -> 0 <= j < columns -> c + columns * r = (columns + 1) * j -> r = j /\ c = j.
Proof. intros Hc Hr Hj E. assert (r = j) by nia. subst. lia. Qed.

Theorem diagonal_ok rows columns values : 0 <= rows -> 0 <= columns -> Z.of_nat (length values) <= Z.min rows columns ->
  exists data, diagonalMatrix rows columns values = Ok data /\ Z.of_nat (length data) = rows * columns /\
    forall r c, 0 <= r < rows -> 0 <= c < columns ->
      zget data (c + columns * r) = if (r =? c) && (r <? Z.of_nat (length values)) then zget values r else Ok 0.
Proof.
  intros Hr Hc Hv. unfold diagonalMatrix. assert (Hz := zeroMatrix_length rows columns Hr Hc).
  destruct (diagonalLoop_spec columns Hc values 0 (zeroMatrix rows columns)) as (data & E & L & A & B); [lia| |].
  - destruct values as [|v values]; [now left|right]. rewrite Hz. cbn [length] in *. nia.
  - exists data. split; [exact E|]. split; [lia|]. intros r c Br Bc. destruct ((r =? c) && (r <? Z.of_nat (length values))) eqn:T.
    + assert (r = c) by lia. subst c. replace (r + columns * r) with (0 + (columns + 1) * Z.of_nat (Z.to_nat r)) by lia.
      destruct (nth_error values (Z.to_nat r)) as [v|] eqn:N; [|apply nth_error_None in N; lia].
      rewrite (A _ _ N). unfold zget. replace (r <? 0) with false by lia. now rewrite N.
    + rewrite B.
      * unfold zeroMatrix. apply zget_repeat. nia.
      * intros j Hj E'. assert (0 <= Z.of_nat j < columns) by lia. destruct (flat_diagonal columns r c (Z.of_nat j)); lia.
Qed.

Theorem identity_ok rows columns : 0 <= rows -> 0 <= columns -> exists data, identityMatrix rows columns = Ok data /\ Z.of_nat (length data) = rows * columns /\
  forall r c, 0 <= r < rows -> 0 <= c < columns -> zget data (c + columns * r) = Ok (if r =? c then 1 else 0).
Proof.
  intros Hr Hc. set (k := Z.to_nat (Z.min rows columns)). assert (Lk : length (repeat 1 k) = k) by apply repeat_length.
  destruct (diagonal_ok rows columns (repeat 1 k) Hr Hc) as (data & E & L & A); [rewrite Lk; lia|].
  exists data. split; [exact E|]. split; [exact L|]. intros r c Br Bc. rewrite A by assumption. rewrite Lk.
  destruct (r =? c) eqn:Er; cbn [andb]; [|reflexivity]. replace (r <? Z.of_nat k) with true by lia. apply zget_repeat. lia.
Qed.

Theorem diagonal_long rows columns values : 0 <= rows -> 0 <= columns -> values <> [] ->
  ((columns + 1) * (Z.of_nat (length values) - 1) < rows * columns ->
     exists data, diagonalMatrix rows columns values = Ok data /\ Z.of_nat (length data) = rows * columns /\
       forall j v, nth_error values j = Some v -> zget data ((columns + 1) * Z.of_nat j) = Ok v) /\
  (rows * columns <= (columns + 1) * (Z.of_nat (length values) - 1) -> diagonalMatrix rows columns values = UB).
Proof.
  intros Hr Hc Hv. unfold diagonalMatrix. assert (Hz := zeroMatrix_length rows columns Hr Hc). split; intros H.
  - destruct (diagonalLoop_spec columns Hc values 0 (zeroMatrix rows columns)) as (data & E & L & A & B); [lia|right; lia|].
    exists data. split; [exact E|]. split; [lia|]. exact A.
  - apply diagonalLoop_out; auto; lia.
Qed.

(** Copies *)
Theorem copy_elements m a d : elements m a = Ok d -> exists b m', copyMatrix m a = Ok (b, m') /\ elements m' b = Ok d /\ elements m' a = Ok d /\ mblock b <> mblock a.
Proof.
  unfold elements, copyMatrix. intros E. rewrite E. cbn [bind]. do 2 eexists. split; [reflexivity|]. cbn [mblock].
  unfold readBlock in *. destruct (nth_error m (mblock a)) as [[e|]|] eqn:N; try discriminate. assert (B : (mblock a < length m)%nat) by (apply nth_error_Some; congruence).
  rewrite nth_error_app2, Nat.sub_diag by lia. cbn [nth_error]. rewrite nth_error_app1 by lia. rewrite N. repeat split; auto. lia.
Qed.

Theorem copy_determinant det m a b m' : copyMatrix m a = Ok (b, m') -> determinantOf det m' b = determinantOf det m' a.
Proof. unfold copyMatrix. destruct (readBlock m (mblock a)); try discriminate. cbn [bind]. intros [= <- <-]. reflexivity. Qed.
