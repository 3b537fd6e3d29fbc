(** C68: matrices. *)
From Verif Require Import Res MatrixModel MatrixProofs.

(** The identity, of any number of rows and columns. Row r, column c is at c + columns r. *)
Theorem C68_identity : forall rows columns, 0 <= rows -> 0 <= columns -> exists data, identityMatrix rows columns = Ok data /\ Z.of_nat (length data) = rows * columns /\
  forall r c, 0 <= r < rows -> 0 <= c < columns -> zget data (c + columns * r) = Ok (if r =? c then 1 else 0).
Proof. exact identity_ok. Qed.
Print Assumptions C68_identity.
Example C68_identity_met : identityMatrix 2 3 = Ok [1; 0; 0; 0; 1; 0] /\ identityMatrix 3 2 = Ok [1; 0; 0; 1; 0; 0].
Proof. split; reflexivity. Qed.

(** Diagonal matrices, for no more values than there are rows and columns. Missing: more values (see below). *)
Theorem C68_diagonal_partial : forall rows columns values, 0 <= rows -> 0 <= columns -> Z.of_nat (length values) <= Z.min rows columns ->
  exists data, diagonalMatrix rows columns values = Ok data /\ Z.of_nat (length data) = rows * columns /\
    forall r c, 0 <= r < rows -> 0 <= c < columns ->
      zget data (c + columns * r) = if (r =? c) && (r <? Z.of_nat (length values)) then zget values r else Ok 0.
Proof. exact diagonal_ok. Qed.
Print Assumptions C68_diagonal_partial.
Example C68_diagonal_met : diagonalMatrix 3 3 [7; 8] = Ok [7; 0; 0; 0; 8; 0; 0; 0; 0].
Proof. reflexivity. Qed.

(** All numbers of values: no check, writes every (columns + 1) elements, undefined once out of the array. *)
Theorem C68_diagonal_characterised : forall rows columns values, 0 <= rows -> 0 <= columns -> values <> [] ->
  ((columns + 1) * (Z.of_nat (length values) - 1) < rows * columns ->
     exists data, diagonalMatrix rows columns values = Ok data /\ Z.of_nat (length data) = rows * columns /\
       forall j v, nth_error values j = Some v -> zget data ((columns + 1) * Z.of_nat j) = Ok v) /\
  (rows * columns <= (columns + 1) * (Z.of_nat (length values) - 1) -> diagonalMatrix rows columns values = UB).
Proof. exact diagonal_long. Qed.
Print Assumptions C68_diagonal_characterised.
Example C68_diagonal_characterised_met : diagonalMatrix 2 2 [1; 2; 3] = UB.
Proof. reflexivity. Qed.

(** Three values in a matrix of four rows and two columns: row 3, column 0, which is out of the diagonal, is written. *)
Theorem C68_diagonal_refuted : exists data, diagonalMatrix 4 2 [1; 2; 3] = Ok data /\ zget data (0 + 2 * 3) = Ok 3.
Proof. exact (ex_intro _ [1; 0; 0; 2; 0; 0; 3; 0] (conj eq_refl eq_refl)). Qed.
Print Assumptions C68_diagonal_refuted.

(** A copy has the elements of its source, in its own memory. *)
Theorem C68_copy_elements : forall m a d, elements m a = Ok d ->
  exists b m', copyMatrix m a = Ok (b, m') /\ elements m' b = Ok d /\ elements m' a = Ok d /\ mblock b <> mblock a.
Proof. exact copy_elements. Qed.
Print Assumptions C68_copy_elements.
Example C68_copy_elements_met : let (a, m) := newMatrix [] [2] in elements m a = Ok [2].
Proof. reflexivity. Qed.

(** But its determinant remains that of the source, which changes with the source and is undefined after its destruction. *)
Theorem C68_copy_refuted : let (a, m) := newMatrix [] [2] in exists b m1 m2, copyMatrix m a = Ok (b, m1) /\ writeBlock m1 (mblock a) [5] = Ok m2 /\
  elements m2 b = Ok [2] /\ (forall det, determinantOf det m2 b = Ok (det [5])) /\ (forall det, determinantOf det (destroyMatrix m1 a) b = UB).
Proof.
  exact (ex_intro _ (mkMatrix 1 0) (ex_intro _ [Some [2]; Some [2]] (ex_intro _ [Some [5]; Some [2]] (conj eq_refl (conj eq_refl (conj eq_refl (conj (fun _ => eq_refl) (fun _ => eq_refl)))))))).
Qed.
Print Assumptions C68_copy_refuted.

(** And an assignment to the copy overwrites the source. *)
Theorem C68_assign_refuted : let (a, m) := newMatrix [] [2] in exists b m1, copyMatrix m a = Ok (b, m1) /\
  let (c, m2) := newMatrix m1 [7] in exists m3, assignMatrix m2 b c = Ok m3 /\ elements m3 b = Ok [7] /\ elements m2 a = Ok [2] /\ elements m3 a = Ok [7].
Proof.
  exact (ex_intro _ (mkMatrix 1 0) (ex_intro _ [Some [2]; Some [2]] (conj eq_refl (ex_intro _ [Some [7]; Some [7]; Some [7]] (conj eq_refl (conj eq_refl (conj eq_refl eq_refl))))))).
Qed.
Print Assumptions C68_assign_refuted.
