(** Position/index bijection and 64-bit safety. *)
From Verif Require Import Res VecModel BoxModel RasterModel Spec Lemmas.

Lemma rankFrom_scale k shape pos : rankFrom k shape pos = k * rank shape pos.
Proof.
  unfold rank. revert k pos; induction shape as [|s shape IH]; intros k [|p pos]; cbn [rankFrom]; try lia.
  rewrite (IH (k * s)), (IH (1 * s)). lia.
Qed.

Lemma rank_cons s shape p pos : rank (s :: shape) (p :: pos) = p + s * rank shape pos.
Proof. unfold rank at 1. cbn [rankFrom]. rewrite rankFrom_scale. lia. Qed.

Lemma indexFixed_cons s s' shape p pos :
  indexFixed (s :: s' :: shape) (p :: pos) = (r <- indexFixed (s' :: shape) pos ;; Ok (p + s * r)).
Proof. reflexivity. Qed.

Lemma indexFixed64_cons s s' shape p pos :
  indexFixed64 (s :: s' :: shape) (p :: pos)
  = (r <- indexFixed64 (s' :: shape) pos ;; m <- chk64 (s * r) ;; chk64 (p + m)).
Proof. reflexivity. Qed.

Lemma indexFixed_rank shape pos :
  shape <> [] -> length shape = length pos -> indexFixed shape pos = Ok (rank shape pos).
Proof.
  revert pos; induction shape as [|s shape IH]; intros [|p pos] Hne Hl; cbn in Hl; try congruence; try lia.
  rewrite rank_cons. destruct shape as [|s' shape].
  - destruct pos as [|p' pos]; [|cbn in Hl; lia]. cbn. f_equal. lia.
  - rewrite indexFixed_cons, IH by (cbn in *; congruence || lia). reflexivity.
Qed.

Lemma indexLoop_rank shape pos : length shape = length pos -> indexLoop shape pos = rank shape pos.
Proof.
  unfold indexLoop. rewrite <- fold_left_rev_right, rev_involutive.
  revert pos; induction shape as [|s shape IH]; intros [|p pos] Hl; cbn in Hl; try lia; auto.
  rewrite rank_cons. cbn [combine fold_right fst snd]. rewrite IH by lia. reflexivity.
Qed.

Lemma indexVar_rank shape pos : length shape = length pos -> indexVar shape pos = Ok (rank shape pos).
Proof. intros H. unfold indexVar. rewrite <- H, Nat.eqb_refl, indexLoop_rank by auto. reflexivity. Qed.

Lemma rindex_rank n shape pos :
  shape <> [] -> length shape = length pos -> rindex n shape pos = Ok (rank shape pos).
Proof. intros. unfold rindex. destruct (n =? -1); [apply indexVar_rank | apply indexFixed_rank]; auto. Qed.

Lemma rank_bounds shape pos : InDomain shape pos -> 0 <= rank shape pos < prod shape.
Proof.
  induction 1 as [|s p shape pos Hp Hd IH]; [cbn; lia|]. rewrite rank_cons, prod_cons. nia.
Qed.

Fixpoint unrank (shape : list Z) (i : Z) : list Z :=
  match shape with
  | [] => []
  | s :: shape' => i mod s :: unrank shape' (i / s)
  end.

Lemma unrank_domain shape i : Positive shape -> InDomain shape (unrank shape i).
Proof.
  intros H; revert i; induction H as [|s shape Hs Hp IH]; intros i; cbn; constructor; auto.
  apply Z.mod_pos_bound. lia.
Qed.

Lemma rank_unrank shape i : Positive shape -> 0 <= i < prod shape -> rank shape (unrank shape i) = i.
Proof.
  intros H; revert i; induction H as [|s shape Hs Hp IH]; intros i Hi.
  - cbn in *. lia.
  - cbn [unrank]. rewrite rank_cons, IH.
    + rewrite (Z.div_mod i s) at 3 by lia. lia.
    + rewrite prod_cons in Hi. split; [apply Z.div_pos; lia | apply Z.div_lt_upper_bound; lia].
Qed.

Lemma unrank_rank shape pos : InDomain shape pos -> unrank shape (rank shape pos) = pos.
Proof.
  induction 1 as [|s p shape pos Hp Hd IH]; auto. rewrite rank_cons. cbn [unrank].
  replace ((p + s * rank shape pos) mod s) with p.
  - replace ((p + s * rank shape pos) / s) with (rank shape pos); [now rewrite IH|].
    rewrite Z.add_comm, Z.mul_comm, Z.div_add_l by lia. rewrite Z.div_small; lia.
  - rewrite Z.add_comm, Z.mul_comm, Z.add_comm, Z_mod_plus_full, Z.mod_small; lia.
Qed.

Lemma rank_inj shape p q : InDomain shape p -> InDomain shape q -> rank shape p = rank shape q -> p = q.
Proof. intros Hp Hq H. rewrite <- (unrank_rank _ _ Hp), <- (unrank_rank _ _ Hq), H. reflexivity. Qed.

Lemma rank_replace shape pos k x :
  length shape = length pos -> nth_error pos k = Some x ->
  rank shape (replace pos k (x + 1)) = rank shape pos + prod (firstn k shape).
Proof.
  revert pos k; induction shape as [|s shape IH]; intros [|p pos] k Hl Hk; cbn in Hl; try lia.
  - destruct k; discriminate.
  - destruct k as [|k]; cbn in Hk.
    + injection Hk as ->. cbn [replace firstn]. rewrite !rank_cons. cbn. lia.
    + cbn [replace firstn]. rewrite !rank_cons, prod_cons, IH by (auto; lia). lia.
Qed.

Lemma rank_vadd shape p q :
  length shape = length p -> length shape = length q -> rank shape (vadd p q) = rank shape p + rank shape q.
Proof.
  revert p q; induction shape as [|s shape IH]; intros [|x p] [|y q] Hp Hq; cbn in Hp, Hq; try lia; auto.
  cbn [vadd map2]. fold (vadd p q). rewrite !rank_cons, IH by lia. lia.
Qed.

Lemma rank_zero shape n : rank shape (repeat 0 n) = 0.
Proof.
  revert n; induction shape as [|s shape IH]; intros [|n]; auto. cbn [repeat]. rewrite rank_cons, IH. lia.
Qed.

Lemma rank_last shape : shape <> [] -> rank shape (vsubs shape 1) = prod shape - 1.
Proof.
  induction shape as [|s shape IH]; [congruence|]. intros _. cbn [vsubs map]. fold (vsubs shape 1).
  rewrite rank_cons, prod_cons. destruct shape as [|s' shape]; [cbn; lia|]. rewrite IH by congruence. nia.
Qed.

Lemma domain_zero shape : Positive shape -> InDomain shape (repeat 0 (length shape)).
Proof. induction 1; cbn; constructor; auto. lia. Qed.

Lemma domain_last shape : Positive shape -> InDomain shape (vsubs shape 1).
Proof. induction 1; cbn; constructor; auto. lia. Qed.

(** Row-major rank is increasing in the memory order. *)
Lemma rank_lexLt shape p q : InDomain shape p -> InDomain shape q -> lexLt p q -> rank shape p < rank shape q.
Proof.
  intros Hp; revert q; induction Hp as [|s x shape p Hx Hp IH]; intros q Hq; inversion Hq; subst; cbn [lexLt]; [tauto|].
  rewrite !rank_cons. intros [Hlt|[-> Hlt]]; [|lia].
  assert (rank shape p < rank shape pos) by (apply IH; auto). nia.
Qed.

(** 64-bit computations. *)
Lemma chk64_ok z : - 2 ^ 63 <= z < 2 ^ 63 -> chk64 z = Ok z.
Proof. intros H. unfold chk64. replace ((- 2 ^ 63 <=? z) && (z <? 2 ^ 63)) with true by lia. reflexivity. Qed.

Lemma stride64_aux l a b :
  0 < a -> Positive l -> a * prod l <= b -> b < 2 ^ 63 ->
  fold_left (fun acc x => a <- acc ;; chk64 (a * x)) l (Ok a) = Ok (a * prod l).
Proof.
  intros Ha Hl; revert a b Ha; induction Hl as [|x l Hx Hl IH]; intros a b Ha Hb Hb2.
  - cbn. f_equal. lia.
  - cbn [fold_left bind]. rewrite prod_cons in *. assert (Hp := prod_pos l Hl).
    rewrite chk64_ok by nia. rewrite (IH _ b) by nia. f_equal. lia.
Qed.

Lemma firstn_prod_le l k : Positive l -> 0 < prod (firstn k l) <= prod l.
Proof.
  intros H. rewrite <- (firstn_skipn k l) at 3. rewrite prod_app.
  assert (Positive (firstn k l) /\ Positive (skipn k l)) as [H1 H2].
  { unfold Positive in *. rewrite <- Forall_app, firstn_skipn. exact H. }
  assert (P1 := prod_pos _ H1). assert (P2 := prod_pos _ H2). nia.
Qed.

Lemma Positive_firstn l k : Positive l -> Positive (firstn k l).
Proof.
  unfold Positive. intros H. rewrite <- (firstn_skipn k l) in H. apply Forall_app in H. tauto.
Qed.

Lemma Positive_skipn l k : Positive l -> Positive (skipn k l).
Proof.
  unfold Positive. intros H. rewrite <- (firstn_skipn k l) in H. apply Forall_app in H. tauto.
Qed.

Lemma shapeStride64_ok shape k :
  Positive shape -> prod shape < 2 ^ 63 -> shapeStride64 shape k = Ok (prod (firstn k shape)).
Proof.
  intros Hp Hb. unfold shapeStride64.
  rewrite (stride64_aux _ 1 (prod shape)); try lia; auto using Positive_firstn.
  - f_equal. lia.
  - generalize (firstn_prod_le shape k Hp). lia.
Qed.

Lemma shapeSize64_ok shape :
  shape <> [] -> Positive shape -> prod shape < 2 ^ 63 -> shapeSize64 shape = Ok (prod shape).
Proof.
  intros Hne Hp Hb. destruct shape as [|s l]; [congruence|]. unfold shapeSize64.
  rewrite shapeStride64_ok, firstn_all by auto. reflexivity.
Qed.

Lemma indexFixed64_ok shape pos :
  shape <> [] -> InDomain shape pos -> prod shape < 2 ^ 63 -> indexFixed64 shape pos = Ok (rank shape pos).
Proof.
  intros Hne Hd; induction Hd as [|s p shape pos Hp Hd IH]; [congruence|]. intros Hb.
  rewrite rank_cons. assert (Hr := rank_bounds _ _ Hd). rewrite prod_cons in Hb.
  destruct Hd as [|s' p' shape pos Hp' Hd].
  - cbn in *. f_equal. lia.
  - rewrite indexFixed64_cons.
    rewrite IH by (try congruence; nia).
    cbn [bind]. rewrite chk64_ok by nia. cbn [bind]. apply chk64_ok. nia.
Qed.

Lemma indexVar64_ok shape pos :
  InDomain shape pos -> prod shape < 2 ^ 63 -> indexVar64 shape pos = Ok (rank shape pos).
Proof.
  intros Hd Hb. unfold indexVar64. rewrite (InDomain_length _ _ Hd), Nat.eqb_refl.
  rewrite <- fold_left_rev_right, rev_involutive.
  induction Hd as [|s p shape pos Hp Hd IH]; [reflexivity|].
  assert (Hr := rank_bounds _ _ Hd). rewrite prod_cons in Hb.
  cbn [combine fold_right fst snd]. rewrite IH by nia. cbn [bind]. rewrite rank_cons.
  rewrite chk64_ok by nia. cbn [bind]. apply chk64_ok. nia.
Qed.

(** Final forms. *)
Lemma index_bijection n shape :
  shape <> [] -> Positive shape -> n = -1 \/ n = Z.of_nat (length shape) ->
  (forall p, InDomain shape p -> exists i, rindex n shape p = Ok i /\ 0 <= i < shapeSize shape) /\
  (forall p q i, InDomain shape p -> InDomain shape q -> rindex n shape p = Ok i -> rindex n shape q = Ok i -> p = q) /\
  (forall i, 0 <= i < shapeSize shape -> exists p, InDomain shape p /\ rindex n shape p = Ok i) /\
  shapeSize shape = prod shape.
Proof.
  intros Hne Hp Hn. rewrite shapeSize_prod by auto.
  assert (R : forall p, InDomain shape p -> rindex n shape p = Ok (rank shape p)).
  { intros p Hd. apply rindex_rank; auto. now apply InDomain_length. }
  repeat split.
  - intros p Hd. exists (rank shape p). split; auto. now apply rank_bounds.
  - intros p q i Hd Hd' H1 H2. rewrite R in H1, H2 by auto. apply (rank_inj shape); auto. congruence.
  - intros i Hi. exists (unrank shape i). split; [now apply unrank_domain|].
    rewrite R by now apply unrank_domain. f_equal. now apply rank_unrank.
Qed.

Lemma index_row_major n shape pos k x :
  n = -1 \/ n = Z.of_nat (length shape) -> shape <> [] -> length pos = length shape -> nth_error pos k = Some x ->
  exists i, rindex n shape pos = Ok i /\
            rindex n shape (replace pos k (x + 1)) = Ok (i + prod (firstn k shape)) /\
            shapeStride shape k = prod (firstn k shape).
Proof.
  intros Hn Hne Hl Hk. exists (rank shape pos). rewrite !rindex_rank by (rewrite ?replace_length; auto).
  rewrite rank_replace, shapeStride_prod by auto. auto.
Qed.

Lemma index_first_last n shape :
  n = -1 \/ n = Z.of_nat (length shape) -> shape <> [] ->
  rindex n shape (repeat 0 (length shape)) = Ok 0 /\
  rindex n shape (map (fun s => s - 1) shape) = Ok (shapeSize shape - 1).
Proof.
  intros Hn Hne. rewrite !rindex_rank by (rewrite ?repeat_length, ?map_length; auto).
  rewrite rank_zero. fold (vsubs shape 1). rewrite rank_last, shapeSize_prod by auto. auto.
Qed.

Lemma index_same shape pos :
  shape <> [] -> length pos = length shape -> indexVar shape pos = indexFixed shape pos.
Proof. intros. rewrite indexVar_rank, indexFixed_rank by auto. reflexivity. Qed.

Lemma index_mismatch shape pos : length pos <> length shape -> indexVar shape pos = Throw ESize.
Proof. intros H. unfold indexVar. apply Nat.eqb_neq in H. now rewrite H. Qed.

Lemma index64 shape pos k :
  shape <> [] -> InDomain shape pos -> prod shape < 2 ^ 63 ->
  shapeSize64 shape = Ok (shapeSize shape) /\
  shapeStride64 shape k = Ok (shapeStride shape k) /\
  indexFixed64 shape pos = indexFixed shape pos /\
  indexVar64 shape pos = indexVar shape pos /\
  exists i, indexFixed shape pos = Ok i /\ indexVar shape pos = Ok i.
Proof.
  intros Hne Hd Hb. pose proof (InDomain_length _ _ Hd). pose proof (InDomain_Positive _ _ Hd).
  rewrite shapeSize64_ok, shapeStride64_ok, indexFixed64_ok, indexVar64_ok, shapeSize_prod, shapeStride_prod,
    indexFixed_rank, indexVar_rank by auto. repeat split; eauto.
Qed.
