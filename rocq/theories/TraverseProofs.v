(** Proofs about the ways to update each pixel. *)
From Coq Require Import Sorted.
From Verif Require Import Res VecModel BoxModel RasterModel ArithModel TraverseModel Spec BoxSpec RasterSpec ArithSpec Lemmas IndexProofs BoxIterProofs BoxGeomProofs ArithProofs.

Section Traverse.
Context {A : Type}.
Variable f : A -> A.

(** Updates of distinct elements. *)
Fixpoint updIdx (data : list A) (is : list Z) : res (list A) :=
  match is with
  | [] => Ok data
  | i :: is' => a <- zget data i ;; d <- zset data i (f a) ;; updIdx d is'
  end.

Lemma updIdx_spec is : forall data, NoDup is -> (forall i, In i is -> 0 <= i < Z.of_nat (length data)) ->
  exists d, updIdx data is = Ok d /\ length d = length data /\
    (forall i x, In i is -> zget data i = Ok x -> zget d i = Ok (f x)) /\
    (forall i, ~ In i is -> zget d i = zget data i).
Proof.
  induction is as [|i is IH]; intros data ND B; cbn [updIdx].
  - exists data. repeat split; auto. intros i x [].
  - inversion ND as [|? ? NI ND']; subst. destruct (zget_in_range data i) as [x Hx]; [apply B; now left|]. rewrite Hx. cbn [bind].
    destruct (zset data i (f x)) as [d1| |] eqn:Es; cbn [bind].
    2,3: exfalso; unfold zset in Es; pose proof (B i (or_introl eq_refl)); destruct ((i <? 0) || (Z.of_nat (length data) <=? i)) eqn:C; [lia|discriminate].
    pose proof (zset_length _ _ _ _ Es) as L1.
    destruct (IH d1 ND') as (d & E & L & P & Q); [intros j Hj; rewrite L1; apply B; now right|].
    exists d. split; [exact E|]. split; [congruence|]. split.
    + intros j y [->|Hj] Hy.
      * rewrite Q by exact NI. rewrite (zset_get_eq _ _ _ _ Es). congruence.
      * apply P; [exact Hj|]. rewrite (zset_get_neq _ _ _ _ _ Es); [exact Hy|]. intros ->. contradiction.
    + intros j Hj. rewrite Q by (intros H; apply Hj; now right). apply (zset_get_neq _ _ _ _ _ Es). intros ->. apply Hj. now left.
Qed.

Lemma updIdx_all is data : NoDup is -> (forall i, In i is <-> 0 <= i < Z.of_nat (length data)) -> updIdx data is = Ok (map f data).
Proof.
  intros ND B. destruct (updIdx_spec is data ND) as (d & E & L & P & _); [apply B|]. rewrite E. f_equal.
  apply zget_ext; [rewrite map_length; exact L|]. intros i Hi. destruct (zget_in_range data i) as [x Hx]; [lia|].
  rewrite (P i x) by (auto; apply B; lia). rewrite zget_map, Hx. reflexivity.
Qed.

Lemma updateAll_idx n r ps : forall is, Forall2 (fun p i => rindex n (rshape r) p = Ok i) ps is ->
  updateAll f n r ps = (d <- updIdx (rdata r) is ;; Ok (mkRaster (rshape r) d)).
Proof.
  revert r. induction ps as [|p ps IH]; intros r is H; inversion H; subst; cbn [updateAll updIdx].
  - destruct r; reflexivity.
  - unfold updateAt, rget, rset. rewrite H2. cbn [bind]. destruct (zget (rdata r) y) as [a| |]; cbn [bind]; try reflexivity.
    destruct (zset (rdata r) y (f a)) as [d| |]; cbn [bind]; try reflexivity. rewrite (IH (mkRaster (rshape r) d) l'); [reflexivity|]. exact H4.
Qed.

Definition Updated (r : raster A) : raster A := mkRaster (rshape r) (map f (rdata r)).

(** Any list of the positions of the domain without repetition will do. *)
Lemma updateAll_domain n r ps : WF r -> Positive (rshape r) -> n = -1 \/ n = Z.of_nat (length (rshape r)) ->
  NoDup ps -> (forall p, In p ps <-> InDomain (rshape r) p) -> updateAll f n r ps = Ok (Updated r).
Proof.
  intros [NE [_ L]] PO HN ND IP. destruct (index_bijection n (rshape r) NE PO HN) as (I1 & I2 & I3 & I4).
  assert (X : exists is, Forall2 (fun p i => rindex n (rshape r) p = Ok i) ps is).
  { assert (H : forall p, In p ps -> InDomain (rshape r) p) by (intros p Hp; apply IP; exact Hp). clear IP ND.
    induction ps as [|p ps IH]; [exists []; constructor|]. destruct IH as [is His]; [intros q Hq; apply H; now right|].
    destruct (I1 p) as [i [Hi _]]; [apply H; now left|]. exists (i :: is). constructor; auto. }
  destruct X as [is F]. rewrite (updateAll_idx n r ps is F).
  assert (M : forall i, In i is <-> exists p, In p ps /\ rindex n (rshape r) p = Ok i).
  { clear -F. induction F as [|p i ps is H F IH]; intros j; cbn; [firstorder|]. rewrite IH. split.
    - intros [<-|(q & Hq & E)]; eauto.
    - intros (q & [<-|Hq] & E); [left; congruence|right; eauto]. }
  rewrite updIdx_all; [reflexivity| |].
  - assert (H : forall p, In p ps -> InDomain (rshape r) p) by (intros p Hp; apply IP; exact Hp). clear IP.
    induction F as [|p i ps is Hp F IH]; [constructor|]. inversion ND; subst. constructor.
    + intros Hi. assert (exists q, In q ps /\ rindex n (rshape r) q = Ok i) as (q & Hq & Eq).
      { clear -F Hi. induction F as [|p' i' ps is H F IH]; [destruct Hi|]. destruct Hi as [->|Hi]; [exists p'; split; [now left|exact H]|].
        destruct (IH Hi) as (q & Hq & E). exists q. split; [now right|exact E]. }
      assert (p = q). { apply (I2 p q i); auto; apply H; [now left|now right]. } subst q. contradiction.
    + apply IH; auto.
      * intros j. clear -F. revert j. induction F as [|p' i' ps is H F IH]; intros j; cbn; [firstorder|]. rewrite IH. split.
        -- intros [<-|(q & Hq & E)]; eauto.
        -- intros (q & [<-|Hq] & E); [left; congruence|right; eauto].
      * intros q Hq. apply H. now right.
  - intros i. rewrite M. rewrite L, <- I4. split.
    + intros (p & Hp & E). apply IP in Hp. destruct (I1 p Hp) as (j & Ej & Hj). congruence.
    + intros Hi. destruct (I3 i Hi) as (p & Hp & E). exists p. split; [apply IP; exact Hp|exact E].
Qed.

(** Nested loops *)
Fixpoint nestedPositions (lens pos : list Z) : list (list Z) :=
  match lens with
  | [] => [pos]
  | l :: lens' => flat_map (fun x => nestedPositions lens' (x :: pos)) (map Z.of_nat (seq 0 (Z.to_nat l)))
  end.

Lemma updateAll_app n r ps qs : updateAll f n r (ps ++ qs) = (r' <- updateAll f n r ps ;; updateAll f n r' qs).
Proof.
  revert r. induction ps as [|p ps IH]; intros r; cbn [updateAll app]; [reflexivity|].
  destruct (updateAt f n r p); cbn [bind]; try reflexivity. apply IH.
Qed.

Lemma nested_positions n lens : forall pos r, nestedLoops f n lens pos r = updateAll f n r (nestedPositions lens pos).
Proof.
  induction lens as [|l lens IH]; intros pos r; cbn [nestedLoops nestedPositions].
  - cbn [updateAll]. destruct (updateAt f n r pos); reflexivity.
  - assert (G : forall k i r, forRange k (Z.of_nat i) (fun x r' => nestedLoops f n lens (x :: pos) r') r =
      updateAll f n r (flat_map (fun x => nestedPositions lens (x :: pos)) (map Z.of_nat (seq i k)))).
    { induction k as [|k IK]; intros i r'; cbn [forRange seq map flat_map]; [reflexivity|].
      rewrite updateAll_app, IH. destruct (updateAll f n r' _); cbn [bind]; try reflexivity.
      replace (Z.of_nat i + 1) with (Z.of_nat (S i)) by lia. apply IK. }
    exact (G (Z.to_nat l) O r).
Qed.

Lemma InDomain_app s1 s2 p : InDomain (s1 ++ s2) p <-> exists p1 p2, p = p1 ++ p2 /\ InDomain s1 p1 /\ InDomain s2 p2.
Proof.
  revert p. induction s1 as [|s s1 IH]; intros p; cbn [app].
  - split; [intros H; exists [], p; repeat split; auto; constructor|]. intros (p1 & p2 & -> & H1 & H2). inversion H1; subst. exact H2.
  - split.
    + intros H. inversion H as [|? x ? q Hx Hq]; subst. apply IH in Hq. destruct Hq as (p1 & p2 & -> & H1 & H2).
      exists (x :: p1), p2. repeat split; auto. constructor; auto.
    + intros (p1 & p2 & -> & H1 & H2). inversion H1 as [|? x ? q Hx Hq]; subst. cbn. constructor; auto. apply IH. exists q, p2. auto.
Qed.

Lemma nestedPositions_in lens : forall pos p,
  In p (nestedPositions lens pos) <-> exists q, p = q ++ pos /\ InDomain (rev lens) q.
Proof.
  induction lens as [|l lens IH]; intros pos p; cbn [nestedPositions rev].
  - split; [intros [<-|[]]; exists []; split; [reflexivity|constructor]|]. intros (q & -> & H). inversion H; subst. now left.
  - rewrite in_flat_map. split.
    + intros (x & Hx & Hp). apply in_map_iff in Hx. destruct Hx as (k & <- & Hk). apply in_seq in Hk. apply IH in Hp.
      destruct Hp as (q & -> & Hq). exists (q ++ [Z.of_nat k]). split; [rewrite <- app_assoc; reflexivity|].
      apply InDomain_app. exists q, [Z.of_nat k]. repeat split; auto. constructor; [lia|constructor].
    + intros (q & -> & Hq). apply InDomain_app in Hq. destruct Hq as (p1 & p2 & -> & H1 & H2).
      inversion H2 as [|? x ? q Hx Hq]; subst. inversion Hq; subst. exists x. split.
      * apply in_map_iff. exists (Z.to_nat x). split; [lia|]. apply in_seq. lia.
      * apply IH. exists p1. rewrite <- app_assoc. auto.
Qed.

Lemma NoDup_flat_map {X Y} (g : X -> list Y) l : NoDup l -> (forall x, NoDup (g x)) ->
  (forall x y z, In z (g x) -> In z (g y) -> x = y) -> NoDup (flat_map g l).
Proof.
  intros ND NG D. induction l as [|x l IH]; cbn [flat_map]; [constructor|]. inversion ND; subst.
  assert (A1 : forall l1 l2 : list Y, NoDup l1 -> NoDup l2 -> (forall z, In z l1 -> ~ In z l2) -> NoDup (l1 ++ l2)).
  { clear. induction l1 as [|z l1 IH]; intros l2 N1 N2 H; cbn; [exact N2|]. inversion N1; subst. constructor.
    - rewrite in_app_iff. intros [?|?]; [contradiction|]. apply (H z); [now left|assumption].
    - apply IH; auto. intros w Hw. apply H. now right. }
  apply A1; auto. intros z Hz Hl. apply in_flat_map in Hl. destruct Hl as (y & Hy & Hz'). rewrite (D x y z Hz Hz') in H1. contradiction.
Qed.

Lemma nestedPositions_nodup lens : forall pos, NoDup (nestedPositions lens pos).
Proof.
  induction lens as [|l lens IH]; intros pos; cbn [nestedPositions]; [repeat constructor; auto|].
  apply NoDup_flat_map.
  - apply FinFun.Injective_map_NoDup; [intros a b H; lia|apply seq_NoDup].
  - intros x. apply IH.
  - intros x y z Hx Hy. apply nestedPositions_in in Hx, Hy. destruct Hx as (q & -> & Hq). destruct Hy as (q' & E & Hq').
    assert (LQ : length q = length q').
    { assert (G : forall s p, InDomain s p -> length p = length s) by (induction 1; cbn; lia).
      rewrite (G _ _ Hq), (G _ _ Hq'). reflexivity. }
    assert (G : forall (u v w t : list Z), length u = length v -> u ++ w = v ++ t -> w = t).
    { clear. induction u as [|a u IHu]; intros [|b v] w t L E; cbn in *; try discriminate; auto. injection E; intros E' _. apply (IHu v w t); [lia|exact E']. }
    apply G in E; auto. congruence.
Qed.

Theorem byPosition_spec n r : WF r -> n = -1 \/ n = Z.of_nat (length (rshape r)) -> byPosition f n r = Ok (Updated r).
Proof.
  intros W HN. unfold byPosition. rewrite nested_positions.
  assert (PI : forall p, In p (nestedPositions (rev (rshape r)) []) <-> InDomain (rshape r) p).
  { intros p. rewrite nestedPositions_in, rev_involutive. split.
    - intros (q & -> & Hq). rewrite app_nil_r. exact Hq.
    - intros Hp. exists p. rewrite app_nil_r. auto. }
  destruct (Forall_dec (fun s => 0 < s) (fun s => Z_lt_dec 0 s) (rshape r)) as [P|P].
  - apply updateAll_domain; auto. apply nestedPositions_nodup.
  - destruct W as [NE [NN L]]. assert (Z0 : prod (rshape r) = 0).
    { clear -P NN. induction (rshape r) as [|s l IH]; [exfalso; apply P; constructor|]. inversion NN; subst. cbn.
      destruct (Z.eq_dec s 0) as [->|]; [reflexivity|]. change (fold_right Z.mul 1 l) with (prod l). rewrite IH; auto; [lia|].
      intros H. apply P. constructor; [lia|exact H]. }
    assert (E : nestedPositions (rev (rshape r)) [] = []).
    { destruct (nestedPositions (rev (rshape r)) []) as [|p l] eqn:E; [reflexivity|]. exfalso. apply P.
      assert (H : InDomain (rshape r) p) by (apply PI; now left). clear -H. induction H; constructor; auto. lia. }
    rewrite E. cbn [updateAll]. destruct r as [s d]. cbn in *. unfold Updated. cbn. destruct d; [reflexivity|cbn in L; lia].
Qed.

Theorem byDomain_spec r : WF r -> Positive (rshape r) ->
  exists enough, forall fuel, (enough <= fuel)%nat -> byDomain f fuel (Z.of_nat (length (rshape r))) r = Some (Ok (Updated r)).
Proof.
  intros W P. set (n := Z.of_nat (length (rshape r))).
  assert (NE : rshape r <> []) by apply W.
  assert (EZ : vzero n = repeat 0 (length (rshape r))).
  { unfold vzero, tplDim. f_equal. unfold n. clear. lia || (destruct (Z.of_nat (length (rshape r)) =? -1) eqn:E; lia). }
  assert (ED : rdomain n (rshape r) = Ok (mkBox (repeat 0 (length (rshape r))) (vsubs (vadd (repeat 0 (length (rshape r))) (rshape r)) 1))).
  { unfold rdomain. rewrite EZ, repeat_length, Nat.leb_refl. reflexivity. }
  assert (IB : forall p, InBox (mkBox (repeat 0 (length (rshape r))) (vsubs (vadd (repeat 0 (length (rshape r))) (rshape r)) 1)) p <-> InDomain (rshape r) p).
  { unfold InBox. cbn [bfront bback]. clear. induction (rshape r) as [|s l IH]; intros p; cbn.
    - split; intros H; inversion H; constructor.
    - split; intros H; inversion H; subst; constructor; try lia; apply IH; assumption. }
  assert (NB : Nonempty (mkBox (repeat 0 (length (rshape r))) (vsubs (vadd (repeat 0 (length (rshape r))) (rshape r)) 1))).
  { exists (repeat 0 (length (rshape r))). apply IB. clear -P. induction (rshape r); cbn; constructor; inversion P; subst; auto. lia. }
  destruct (iteration_full (repeat 0 (length (rshape r))) (vsubs (vadd (repeat 0 (length (rshape r))) (rshape r)) 1)) as (L & (enough & H) & ND & IN & _).
  - intros E. apply NE. destruct (rshape r); [reflexivity|discriminate].
  - exact NB.
  - exists enough. intros fuel HF. unfold byDomain. rewrite ED, (H fuel HF). f_equal. apply updateAll_domain; auto.
    intros p. rewrite IN. apply IB.
Qed.

(** Loops on indices and pointers *)
Lemma index_loop fuel : forall i data, 0 <= i <= Z.of_nat (length data) -> Z.of_nat (length data) - i < Z.of_nat fuel ->
  indexLoopFrom f fuel i data = Some (Ok (firstn (Z.to_nat i) data ++ map f (skipn (Z.to_nat i) data))) /\
  iteratorLoopFrom f fuel i (Z.of_nat (length data)) data = Some (Ok (firstn (Z.to_nat i) data ++ map f (skipn (Z.to_nat i) data))).
Proof.
  induction fuel as [|fuel IH]; intros i data B E; [lia|]. cbn [indexLoopFrom iteratorLoopFrom].
  destruct (Z.eqb_spec i (Z.of_nat (length data))) as [->|N].
  - rewrite Z.ltb_irrefl. rewrite Nat2Z.id, firstn_all, skipn_all. cbn. rewrite app_nil_r. auto.
  - destruct (Z.ltb_spec i (Z.of_nat (length data))) as [H|H]; [|lia].
    destruct (zget_in_range data i) as [x Hx]; [lia|]. rewrite Hx. cbn [bind]. rewrite zset_ok by lia.
    assert (LR : length (replace data (Z.to_nat i) (f x)) = length data) by apply replace_length.
    destruct (IH (i + 1) (replace data (Z.to_nat i) (f x))) as [E1 E2]; [lia|lia|].
    rewrite LR in E2. rewrite E1, E2.
    assert (G : firstn (Z.to_nat (i + 1)) (replace data (Z.to_nat i) (f x)) ++ map f (skipn (Z.to_nat (i + 1)) (replace data (Z.to_nat i) (f x))) =
      firstn (Z.to_nat i) data ++ map f (skipn (Z.to_nat i) data)).
    { replace (Z.to_nat (i + 1)) with (S (Z.to_nat i)) by lia. unfold zget in Hx. destruct (Z.ltb_spec i 0); [lia|].
      destruct (nth_error data (Z.to_nat i)) as [y|] eqn:EN; [|discriminate]. injection Hx as ->. clear -EN.
      revert data EN. induction (Z.to_nat i) as [|k IH]; intros [|a data] EN; cbn in *; try discriminate.
      - injection EN as ->. reflexivity.
      - f_equal. apply IH. exact EN. }
    rewrite G. auto.
Qed.

Theorem byIndex_spec r fuel : (length (rdata r) < fuel)%nat ->
  byIndex f fuel r = Some (Ok (Updated r)) /\ byIterator f fuel r = Some (Ok (Updated r)).
Proof.
  intros H. unfold byIndex, byIterator. destruct (index_loop fuel 0 (rdata r)) as [E1 E2]; [lia|lia|]. rewrite E1, E2. auto.
Qed.

Theorem byAlgorithm_spec r : byAlgorithm f r = Ok (Updated r).
Proof.
  unfold byAlgorithm. destruct (transform1_spec (fun a => Ok (f a)) (length (rdata r)) (rdata r) 0) as (m & E & [L _] & P).
  - split; lia.
  - intros i Hi. destruct (zget_in_range (rdata r) (0 + i)) as [x Hx]; [lia|]. rewrite Hx. cbn. eauto.
  - rewrite E. cbn [bind]. unfold Updated. repeat f_equal. apply zget_ext; [rewrite map_length; exact L|]. intros i Hi.
    specialize (P i ltac:(lia)). cbn [Z.add] in P. rewrite zget_map. destruct (zget_in_range (rdata r) i) as [x Hx]; [lia|].
    replace (0 + i) with i in P by lia. rewrite P, Hx. reflexivity.
Qed.
End Traverse.

Lemma traversals_empty {A} (f : A -> A) r : WF r -> ~ Positive (rshape r) ->
  forall fuel, byDomain f fuel (Z.of_nat (length (rshape r))) r = None.
Proof.
  intros [NE [NN L]] NP fuel. set (n := Z.of_nat (length (rshape r))). unfold byDomain.
  assert (EZ : vzero n = repeat 0 (length (rshape r))) by (unfold vzero, tplDim; f_equal; unfold n; lia).
  unfold rdomain. rewrite EZ, repeat_length, Nat.leb_refl. rewrite never_ends; [reflexivity| | |].
  - cbn. intros E. apply NE. destruct (rshape r); [reflexivity|discriminate].
  - cbn. rewrite repeat_length. clear. induction (rshape r); cbn; [reflexivity|]. f_equal. exact IHl.
  - intros [p Hp]. apply NP. revert p Hp. unfold InBox, fromShape. cbn [bfront bback]. clear. unfold Positive.
    induction (rshape r) as [|s l IH]; cbn; intros p Hp; constructor; inversion Hp; subst; [lia|]. eapply IH; eauto.
Qed.

(** Run-time dimension: Position<-1>::zero() has one element. *)
Lemma byDomain_runtime {A} (f : A -> A) r s l : WF r -> rshape r = s :: l -> 0 < s ->
  exists enough, forall fuel, (enough <= fuel)%nat ->
    byDomain f fuel (-1) r = Some (match l with [] => Ok (mkRaster (rshape r) (map f (rdata r))) | _ => Throw ESize end).
Proof.
  intros W ES Hs.
  assert (ED : rdomain (-1) (rshape r) = Ok (mkBox [0] [s - 1])) by (rewrite ES; destruct s; reflexivity).
  assert (IB : forall p, InBox (mkBox [0] [s - 1]) p <-> InDomain [s] p).
  { intros p. unfold InBox. cbn [bfront bback]. split; intros H; inversion H; subst; constructor; try lia.
    all: match goal with K : _ [] _ |- _ => inversion K; constructor | K : _ [] [] _ |- _ => inversion K; constructor end. }
  assert (NB : Nonempty (mkBox [0] [s - 1])) by (exists [0]; apply IB; repeat constructor; lia).
  destruct (iteration_full [0] [s - 1] ltac:(discriminate) NB) as (L & (enough & H) & ND & IN & _).
  exists enough. intros fuel HF. unfold byDomain. rewrite ED, (H fuel HF). f_equal. destruct l as [|s2 l].
  - apply (updateAll_domain f (-1) r L W); auto; [rewrite ES; repeat constructor; lia|]. intros p. rewrite IN, ES. apply IB.
  - assert (I0 : In [0] L) by (apply IN, IB; repeat constructor; lia). destruct L as [|p L]; [contradiction|].
    assert (Hp : InDomain [s] p) by (apply IB, IN; now left). cbn [updateAll]. unfold updateAt, rget. rewrite ES.
    unfold rindex. cbn [Z.eqb]. unfold indexVar. assert (length p = 1)%nat by (inversion Hp as [|? ? ? ? ? E]; inversion E; reflexivity). rewrite H0. reflexivity.
Qed.

Lemma byDomain_no_axis {A} (f : A -> A) fuel data : byDomain f fuel (-1) (mkRaster [] data) = Some UB.
Proof. reflexivity. Qed.
