(** Generic lemmas. *)
From Coq Require Export ZifyBool ZifyNat ZifyN.
From Coq Require Import FinFun.
From Verif Require Import Res VecModel Spec.
Ltac Zify.zify_post_hook ::= Z.div_mod_to_equations.

Lemma veqb_spec u v : veqb u v = true <-> u = v.
Proof.
  revert v; induction u as [|x u IH]; intros [|y v]; cbn; try (split; congruence).
  rewrite andb_true_iff, IH, Z.eqb_eq. split; [intros [-> ->]; reflexivity | now intros [= -> ->]].
Qed.

Lemma veqb_refl u : veqb u u = true.
Proof. now apply veqb_spec. Qed.

Lemma veqb_false u v : u <> v -> veqb u v = false.
Proof. intros H. destruct (veqb u v) eqn:E; auto. apply veqb_spec in E. contradiction. Qed.

(** Memory access. *)
Lemma zget_ok {A} (l : list A) i a : zget l i = Ok a <-> 0 <= i /\ nth_error l (Z.to_nat i) = Some a.
Proof.
  unfold zget. destruct (i <? 0) eqn:E.
  - split; [discriminate | lia].
  - destruct (nth_error l (Z.to_nat i)); split; try discriminate.
    + intros [= ->]. split; [lia | reflexivity].
    + intros [_ [= ->]]. reflexivity.
    + intros [_ H]; discriminate.
Qed.

Lemma zget_in_range {A} (l : list A) i : 0 <= i < Z.of_nat (length l) -> exists a, zget l i = Ok a.
Proof.
  intros H. unfold zget. replace (i <? 0) with false by lia.
  destruct (nth_error l (Z.to_nat i)) eqn:E; eauto.
  apply nth_error_None in E. lia.
Qed.

Lemma zget_range {A} (l : list A) i a : zget l i = Ok a -> 0 <= i < Z.of_nat (length l).
Proof.
  rewrite zget_ok. intros [H E]. assert (nth_error l (Z.to_nat i) <> None) by congruence.
  apply nth_error_Some in H0. lia.
Qed.

Lemma zget_nat {A} (l : list A) n : zget l (Z.of_nat n) = match nth_error l n with Some a => Ok a | None => UB end.
Proof. unfold zget. rewrite Nat2Z.id. replace (Z.of_nat n <? 0) with false by lia. reflexivity. Qed.

Lemma zget_out {A} (l : list A) i : i < 0 \/ Z.of_nat (length l) <= i -> zget l i = UB.
Proof.
  intros H. unfold zget. destruct (i <? 0) eqn:E; auto.
  replace (nth_error l (Z.to_nat i)) with (@None A); auto.
  symmetry; apply nth_error_None; lia.
Qed.

Lemma zget_cons_0 {A} (a : A) l : zget (a :: l) 0 = Ok a.
Proof. reflexivity. Qed.

Lemma zget_cons_S {A} (a : A) l i : 0 < i -> zget (a :: l) i = zget l (i - 1).
Proof.
  intros H. unfold zget. replace (i <? 0) with false by lia. replace (i - 1 <? 0) with false by lia.
  replace (Z.to_nat i) with (S (Z.to_nat (i - 1))) by lia. reflexivity.
Qed.

Lemma zget_app_l {A} (l r : list A) i : i < Z.of_nat (length l) -> zget (l ++ r) i = zget l i.
Proof.
  intros H. unfold zget. destruct (i <? 0) eqn:E; auto.
  rewrite nth_error_app1; auto. lia.
Qed.

Lemma zget_app_r {A} (l r : list A) i : Z.of_nat (length l) <= i -> zget (l ++ r) i = zget r (i - Z.of_nat (length l)).
Proof.
  intros H. unfold zget. replace (i <? 0) with false by lia.
  replace (i - Z.of_nat (length l) <? 0) with false by lia.
  rewrite nth_error_app2 by lia.
  replace (Z.to_nat (i - Z.of_nat (length l))) with (Z.to_nat i - length l)%nat by lia. reflexivity.
Qed.

Lemma zget_map {A B} (f : A -> B) l i : zget (map f l) i = (a <- zget l i ;; Ok (f a)).
Proof.
  unfold zget. destruct (i <? 0); auto. rewrite nth_error_map.
  destruct (nth_error l (Z.to_nat i)); reflexivity.
Qed.

Lemma zget_ext {A} (l r : list A) :
  length l = length r -> (forall i, 0 <= i < Z.of_nat (length l) -> zget l i = zget r i) -> l = r.
Proof.
  revert r; induction l as [|a l IH]; intros [|b r] Hl H; cbn in Hl; try discriminate; auto.
  assert (H0 := H 0 ltac:(cbn [length]; lia)). rewrite !zget_cons_0 in H0. injection H0 as ->.
  f_equal. apply IH; [lia|]. intros i Hi.
  specialize (H (i + 1) ltac:(cbn [length]; lia)). rewrite !zget_cons_S in H by lia.
  replace (i + 1 - 1) with i in H by lia. exact H.
Qed.

Lemma replace_length {A} (l : list A) n a : length (replace l n a) = length l.
Proof. revert n; induction l as [|x l IH]; intros [|n]; cbn; auto. Qed.

Lemma nth_error_replace_eq {A} (l : list A) n a : (n < length l)%nat -> nth_error (replace l n a) n = Some a.
Proof. revert n; induction l as [|x l IH]; intros [|n] H; cbn in *; try lia; auto; apply IH; lia. Qed.

Lemma nth_error_replace_neq {A} (l : list A) n m a : n <> m -> nth_error (replace l n a) m = nth_error l m.
Proof.
  revert n m; induction l as [|x l IH]; intros [|n] [|m] H; cbn; auto; try lia; apply IH; lia.
Qed.

Lemma zset_ok {A} (l : list A) i a : 0 <= i < Z.of_nat (length l) -> zset l i a = Ok (replace l (Z.to_nat i) a).
Proof. intros H. unfold zset. replace ((i <? 0) || (Z.of_nat (length l) <=? i)) with false by lia. reflexivity. Qed.

Lemma zset_inv {A} (l l' : list A) i a :
  zset l i a = Ok l' -> 0 <= i < Z.of_nat (length l) /\ l' = replace l (Z.to_nat i) a.
Proof.
  unfold zset. destruct ((i <? 0) || (Z.of_nat (length l) <=? i)) eqn:E; [discriminate|].
  intros [= <-]. split; [lia | reflexivity].
Qed.

Lemma zset_length {A} (l l' : list A) i a : zset l i a = Ok l' -> length l' = length l.
Proof. intros H. apply zset_inv in H as [_ ->]. apply replace_length. Qed.

Lemma zset_get_eq {A} (l l' : list A) i a : zset l i a = Ok l' -> zget l' i = Ok a.
Proof.
  intros H. apply zset_inv in H as [H ->]. apply zget_ok. split; [lia|].
  apply nth_error_replace_eq. lia.
Qed.

Lemma zset_get_neq {A} (l l' : list A) i j a : zset l i a = Ok l' -> i <> j -> zget l' j = zget l j.
Proof.
  intros H Hij. apply zset_inv in H as [H ->]. unfold zget. destruct (j <? 0) eqn:E; auto.
  rewrite nth_error_replace_neq by lia. reflexivity.
Qed.

(** Ranges. *)
Lemma zrange_length a b : Z.of_nat (length (zrange a b)) = Z.max 0 (b - a + 1).
Proof. unfold zrange. rewrite map_length, seq_length. lia. Qed.

Lemma In_zrange a b z : In z (zrange a b) <-> a <= z <= b.
Proof.
  unfold zrange. rewrite in_map_iff. split.
  - intros (k & <- & H). apply in_seq in H. lia.
  - intros H. exists (Z.to_nat (z - a)). split; [lia|]. apply in_seq. lia.
Qed.

Lemma zrange_empty a b : b < a -> zrange a b = [].
Proof. intros H. unfold zrange. replace (Z.to_nat (b - a + 1)) with O by lia. reflexivity. Qed.

Lemma zrange_cons a b : a <= b -> zrange a b = a :: zrange (a + 1) b.
Proof.
  intros H. unfold zrange. replace (Z.to_nat (b - a + 1)) with (S (Z.to_nat (b - (a + 1) + 1))) by lia.
  cbn [seq map]. f_equal; [lia|]. rewrite <- seq_shift, map_map. apply map_ext. intros k. lia.
Qed.

Lemma zrange_snoc a b : a <= b -> zrange a b = zrange a (b - 1) ++ [b].
Proof.
  intros H. unfold zrange. replace (Z.to_nat (b - a + 1)) with (Z.to_nat (b - 1 - a + 1) + 1)%nat by lia.
  rewrite seq_app, map_app. cbn [seq map]. do 2 f_equal. lia.
Qed.

Lemma zrange_NoDup a b : NoDup (zrange a b).
Proof.
  unfold zrange. apply Injective_map_NoDup; [|apply seq_NoDup]. intros x y. lia.
Qed.

Lemma nth_error_zrange a b k :
  nth_error (zrange a b) k = if (a + Z.of_nat k <=? b) then Some (a + Z.of_nat k) else None.
Proof.
  unfold zrange. rewrite nth_error_map.
  destruct (a + Z.of_nat k <=? b) eqn:E.
  - rewrite (nth_error_nth' _ O) by (rewrite seq_length; lia). rewrite seq_nth by lia. reflexivity.
  - replace (nth_error (seq 0 (Z.to_nat (b - a + 1))) k) with (@None nat); [reflexivity|].
    symmetry. apply nth_error_None. rewrite seq_length. lia.
Qed.

Lemma zrange_shift a b d : zrange (a + d) (b + d) = map (fun z => z + d) (zrange a b).
Proof.
  unfold zrange. rewrite map_map. replace (b + d - (a + d) + 1) with (b - a + 1) by lia.
  apply map_ext. intros; lia.
Qed.

(** Vectors. *)
Lemma map2_length {A B C} (f : A -> B -> C) l r : length l = length r -> length (map2 f l r) = length l.
Proof. revert r; induction l as [|a l IH]; intros [|b r] H; cbn in *; try lia. rewrite IH; lia. Qed.

Lemma vadds_length u a : length (vadds u a) = length u.
Proof. apply map_length. Qed.
Lemma vsubs_length u a : length (vsubs u a) = length u.
Proof. apply map_length. Qed.

(** Products and sizes. *)
Lemma fold_left_mul l a : fold_left Z.mul l a = a * prod l.
Proof.
  revert a; induction l as [|x l IH]; intros a; cbn; [lia|]. rewrite IH. unfold prod. lia.
Qed.

Lemma prod_cons x l : prod (x :: l) = x * prod l.
Proof. reflexivity. Qed.

Lemma prod_app l r : prod (l ++ r) = prod l * prod r.
Proof. induction l as [|x l IH]; cbn [app prod fold_right]; [unfold prod; lia|]. fold (prod (l ++ r)) (prod l). rewrite IH. lia. Qed.

Lemma prod_pos l : Positive l -> 0 < prod l.
Proof.
  induction 1 as [|x l Hx Hl IH]; [reflexivity|]. rewrite prod_cons. nia.
Qed.

Lemma shapeStride_prod shape k : shapeStride shape k = prod (firstn k shape).
Proof. unfold shapeStride. rewrite fold_left_mul. lia. Qed.

Lemma shapeSize_prod shape : shape <> [] -> shapeSize shape = prod shape.
Proof.
  destruct shape as [|s l]; [congruence|]. intros _. unfold shapeSize.
  rewrite shapeStride_prod, firstn_all. reflexivity.
Qed.

(** Membership. *)
Lemma Between_length f b p : Between f b p -> length f = length p /\ length b = length p.
Proof. induction 1; cbn; lia. Qed.

Lemma InDomain_length s p : InDomain s p -> length s = length p.
Proof. induction 1; cbn; lia. Qed.

Lemma InDomain_Positive s p : InDomain s p -> Positive s.
Proof. induction 1; constructor; auto. lia. Qed.

Lemma Between_cons_iff x y z f b p : Between (x :: f) (y :: b) (z :: p) <-> x <= z <= y /\ Between f b p.
Proof. split; [now inversion 1 | intros []; now constructor]. Qed.

Lemma InDomain_cons_iff s p shape pos : InDomain (s :: shape) (p :: pos) <-> 0 <= p < s /\ InDomain shape pos.
Proof. split; [now inversion 1 | intros []; now constructor]. Qed.

Lemma InDomain_Between s p :
  InDomain s p <-> Between (repeat 0 (length s)) (vsubs s 1) p.
Proof.
  revert p; induction s as [|x s IH]; intros [|z p]; cbn.
  - split; constructor.
  - split; inversion 1.
  - split; inversion 1.
  - rewrite InDomain_cons_iff, Between_cons_iff, IH. unfold vsubs. intuition lia.
Qed.
