(** Box geometry. *)
From Verif Require Import Res VecModel BoxModel RasterModel Spec BoxSpec Lemmas IndexProofs BoxIterProofs.

Lemma fromShape_shape front shape :
  length front = length shape -> boxShape (fromShape front shape) = shape.
Proof.
  unfold fromShape. rewrite boxShape_map2. revert shape; induction front as [|x f IH]; intros [|s shape] Hl; cbn in Hl; try lia; auto.
  unfold vsubs, vadd in *. cbn [map2 map]. f_equal; [lia | apply IH; lia].
Qed.

Lemma fromCenter_ball r c p :
  InBox (fromCenter r c) p <-> Forall2 (fun x y => Z.abs (x - y) <= r) p c.
Proof.
  unfold InBox, fromCenter. cbn [bfront bback]. revert p; induction c as [|y c IH]; intros [|x p]; cbn.
  - split; constructor.
  - split; inversion 1.
  - split; inversion 1.
  - rewrite Between_cons_iff. specialize (IH p). unfold vsubs, vadds in IH. rewrite IH. split.
    + intros [H1 H2]. constructor; auto. lia.
    + inversion 1; subst. split; auto. lia.
Qed.

Lemma shift_member f b v p :
  length v = length p -> length f = length p -> length b = length p ->
  (Between (vadd f v) (vadd b v) (vadd p v) <-> Between f b p).
Proof.
  revert f b v; induction p as [|z p IH]; intros [|x f] [|y b] [|w v]; cbn; try lia; intros.
  - reflexivity.
  - unfold vadd in *. rewrite !Between_cons_iff, IH by lia. intuition lia.
Qed.

Lemma unshift_member f b v p :
  length v = length p -> length f = length p -> length b = length p ->
  (Between (vsub f v) (vsub b v) (vsub p v) <-> Between f b p).
Proof.
  revert f b v; induction p as [|z p IH]; intros [|x f] [|y b] [|w v]; cbn; try lia; intros.
  - reflexivity.
  - unfold vsub in *. rewrite !Between_cons_iff, IH by lia. intuition lia.
Qed.

Lemma vadd_vsub u v : length u = length v -> vsub (vadd u v) v = u.
Proof.
  unfold vsub, vadd. revert v; induction u as [|x u IH]; intros [|y v] Hl; cbn in *; try lia; auto.
  rewrite IH by lia. f_equal. lia.
Qed.

Lemma vsub_vadd u v : length u = length v -> vadd (vsub u v) v = u.
Proof.
  unfold vsub, vadd. revert v; induction u as [|x u IH]; intros [|y v] Hl; cbn in *; try lia; auto.
  rewrite IH by lia. f_equal. lia.
Qed.

Lemma vsub_vopp u v : length u = length v -> vadd u (vopp v) = vsub u v.
Proof.
  unfold vsub, vadd, vopp. revert v; induction u as [|x u IH]; intros [|y v] Hl; cbn in *; try lia; auto.
  rewrite IH by lia. f_equal. 
Qed.

Lemma shift_shape f b v : length f = length v -> length b = length v ->
  boxShape (boxShift (mkBox f b) v) = boxShape (mkBox f b).
Proof.
  unfold boxShift. cbn [bfront bback]. rewrite !boxShape_map2. unfold vadd.
  revert b v; induction f as [|x f IH]; intros [|y b] [|w v]; cbn; try lia; intros; auto.
  rewrite IH by lia. f_equal. lia.
Qed.

Lemma boxEqb_spec a b : boxEqb a b = true <-> a = b.
Proof.
  unfold boxEqb. rewrite andb_true_iff, !veqb_spec. destruct a, b; cbn. split; [intros [-> ->] | intros [= -> ->]]; auto.
Qed.

Lemma boxNeqb_spec a b : boxNeqb a b = negb (boxEqb a b).
Proof. unfold boxNeqb, boxEqb. now rewrite negb_andb. Qed.

(** Scalars. *)
Lemma adds_subs b a : boxSubs (boxAdds b a) a = b.
Proof.
  destruct b as [f b]. unfold boxSubs, boxAdds, vsubs, vadds. cbn [bfront bback]. rewrite !map_map.
  f_equal; (etransitivity; [|apply map_id]); apply map_ext; intros; lia.
Qed.

Lemma adds_member f b a p : Between (vadds f a) (vadds b a) (vadds p a) <-> Between f b p.
Proof.
  revert f b; induction p as [|z p IH]; intros [|x f] [|y b]; cbn; try (split; inversion 1; fail).
  - split; constructor.
  - rewrite !Between_cons_iff. unfold vadds in IH. rewrite IH. intuition lia.
Qed.

(** Splitting at an axis. *)
Lemma Between_app f1 b1 p1 f2 b2 p2 :
  length f1 = length p1 -> length b1 = length p1 ->
  (Between (f1 ++ f2) (b1 ++ b2) (p1 ++ p2) <-> Between f1 b1 p1 /\ Between f2 b2 p2).
Proof.
  revert f1 b1; induction p1 as [|z p IH]; intros [|x f1] [|y b1]; cbn; try lia; intros.
  - split; [intros; split; auto; constructor | tauto].
  - rewrite !Between_cons_iff, IH by lia. tauto.
Qed.

Lemma Between_app_inv f1 b1 f2 b2 p :
  length f1 = length b1 ->
  Between (f1 ++ f2) (b1 ++ b2) p ->
  exists p1 p2, p = p1 ++ p2 /\ Between f1 b1 p1 /\ Between f2 b2 p2.
Proof.
  revert b1 p; induction f1 as [|x f1 IH]; intros [|y b1] p; cbn; try lia; intros Hl H.
  - exists [], p. repeat split; auto; constructor.
  - inversion H as [|? ? z ? ? p' Hz Hp']; subst. apply IH in Hp' as (p1 & p2 & -> & H1 & H2); [|lia].
    exists (z :: p1), p2. repeat split; auto. now constructor.
Qed.

Lemma Between_mid_inv f1 b1 x y f2 b2 p :
  length f1 = length b1 ->
  Between (f1 ++ x :: f2) (b1 ++ y :: b2) p ->
  exists p1 z p2, p = p1 ++ z :: p2 /\ Between f1 b1 p1 /\ x <= z <= y /\ Between f2 b2 p2.
Proof.
  intros Hl H. apply Between_app_inv in H as (p1 & p2 & -> & H1 & H2); auto.
  inversion H2; subst. eauto 10.
Qed.

Lemma Between_mid f1 b1 p1 x y z f2 b2 p2 :
  Between f1 b1 p1 -> x <= z <= y -> Between f2 b2 p2 -> Between (f1 ++ x :: f2) (b1 ++ y :: b2) (p1 ++ z :: p2).
Proof.
  intros H1 Hz H2. pose proof (Between_length _ _ _ H1) as [? ?].
  apply Between_app; auto. split; auto. now constructor.
Qed.

Lemma zget_mid {A} (l : list A) a r : zget (l ++ a :: r) (Z.of_nat (length l)) = Ok a.
Proof. rewrite zget_nat, nth_error_app2, Nat.sub_diag by lia. reflexivity. Qed.

Lemma zget_mid' {A} (l : list A) a r k : k = length l -> zget (l ++ a :: r) (Z.of_nat k) = Ok a.
Proof. intros ->. apply zget_mid. Qed.

Lemma replace_mid {A} (l : list A) a b r : replace (l ++ a :: r) (length l) b = l ++ b :: r.
Proof. induction l as [|x l IH]; cbn; auto. now rewrite IH. Qed.

Lemma zset_mid' {A} (l : list A) a b r k : k = length l -> zset (l ++ a :: r) (Z.of_nat k) b = Ok (l ++ b :: r).
Proof.
  intros ->. rewrite zset_ok by (rewrite app_length; cbn; lia). now rewrite Nat2Z.id, replace_mid.
Qed.

Lemma split_at {A} (l : list A) i a : zget l i = Ok a -> exists l1 l2, l = l1 ++ a :: l2 /\ i = Z.of_nat (length l1).
Proof.
  intros H. apply zget_ok in H as [Hi H]. apply nth_error_split in H as (l1 & l2 & -> & H).
  exists l1, l2. split; auto. lia.
Qed.

Lemma split_len {A} (l : list A) k m : length l = (k + S m)%nat -> exists l1 a l2, l = l1 ++ a :: l2 /\ length l1 = k /\ length l2 = m.
Proof.
  intros H. exists (firstn k l). destruct (skipn k l) as [|a l2] eqn:E.
  - apply (f_equal (@length A)) in E. rewrite skipn_length in E. cbn in E. lia.
  - exists a, l2. rewrite <- E. rewrite firstn_skipn. split; auto. split; [apply firstn_length_le; lia|].
    apply (f_equal (@length A)) in E. rewrite skipn_length in E. cbn in E. lia.
Qed.

(** Projection. *)
Lemma project_spec f b axis x y :
  length f = length b -> zget f axis = Ok x -> zget b axis = Ok y -> x <= y ->
  exists pr, project (mkBox f b) axis = Ok pr /\
    (forall p, InBox pr p <-> InBox (mkBox f b) p /\ zget p axis = Ok x) /\
    (exists s, zset (boxShape (mkBox f b)) axis 1 = Ok s /\ boxShape pr = s).
Proof.
  intros Hl Hf Hb Hxy. unfold project. cbn [bfront bback]. rewrite Hf. cbn [bind].
  apply split_at in Hf as (f1 & f2 & -> & ->). rewrite !app_length in Hl. cbn in Hl.
  destruct (split_len b (length f1) (length f2)) as (b1 & y' & b2 & -> & Hb1 & Hb2); [rewrite <- Hl; lia|].
  rewrite zget_mid' in Hb by auto. injection Hb as ->.
  rewrite zset_mid' by auto. cbn [bind]. eexists; split; [reflexivity|]. split.
  - intros p. unfold InBox. cbn [bfront bback]. split.
    + intros H. apply Between_mid_inv in H as (p1 & z & p2 & -> & H1 & Hz & H2); auto.
      pose proof (Between_length _ _ _ H1) as [? ?].
      split; [apply Between_mid; auto; lia|]. rewrite zget_mid' by auto. f_equal. lia.
    + intros [H Hz]. apply Between_mid_inv in H as (p1 & z & p2 & -> & H1 & Hz' & H2); auto.
      pose proof (Between_length _ _ _ H1) as [? ?].
      rewrite zget_mid' in Hz by auto. injection Hz as ->. apply Between_mid; auto. lia.
  - rewrite !boxShape_map2.
    assert (Hm : forall y', map2 (fun x y => y - x + 1) (f1 ++ x :: f2) (b1 ++ y' :: b2)
                 = map2 (fun x y => y - x + 1) f1 b1 ++ (y' - x + 1) :: map2 (fun x y => y - x + 1) f2 b2).
    { clear - Hb1. intros y'. revert b1 Hb1; induction f1 as [|u f1 IH]; intros [|v b1]; cbn; try lia; auto.
      intros. rewrite IH by lia. reflexivity. }
    rewrite !Hm. rewrite zset_mid' by (rewrite map2_length; lia). eexists; split; [reflexivity|].
    do 2 f_equal. lia.
Qed.

(** Unary minus: the front and the back are exchanged, so that a box with a length greater than one becomes empty. *)
Lemma opp_empty f b x y i p :
  zget f i = Ok x -> zget b i = Ok y -> x < y -> ~ InBox (boxOpp (mkBox f b)) p.
Proof.
  unfold InBox, boxOpp, vopp. cbn [bfront bback]. intros Hf Hb Hxy H.
  revert i p b H Hf Hb. induction f as [|u f IH]; intros i p b H Hf Hb.
  - rewrite zget_out in Hf by (cbn; lia). discriminate.
  - destruct b as [|v b]; [inversion H|]. inversion H; subst.
    destruct (Z.lt_trichotomy i 0) as [Hi|[->|Hi]].
    + rewrite zget_out in Hf by lia. discriminate.
    + rewrite zget_cons_0 in *. injection Hf as ->. injection Hb as ->. lia.
    + rewrite zget_cons_S in * by auto. eapply IH; eauto.
Qed.

(** surround *)
Definition sides (f b : Z) : nat := ((if (f <? 0)%Z then 1 else 0) + (if (0 <? b)%Z then 1 else 0))%nat.

Lemma FOP_app {A} (R : A -> A -> Prop) l r :
  ForallOrdPairs R l -> ForallOrdPairs R r -> (forall a b, In a l -> In b r -> R a b) -> ForallOrdPairs R (l ++ r).
Proof.
  induction 1 as [|a l Ha Hl IH]; intros Hr H; auto. cbn. constructor.
  - apply Forall_app. split; auto. apply Forall_forall. intros; apply H; auto. now left.
  - apply IH; auto. intros; apply H; auto. now right.
Qed.

Lemma Nonempty_iff b : Nonempty b <-> NonEmpty (bfront b) (bback b).
Proof.
  split; [intros [p Hp]; eapply Between_NonEmpty; eauto | intros H; exists (bfront b); now apply NonEmpty_front].
Qed.

Lemma NonEmpty_mid f1 b1 x y f2 b2 :
  NonEmpty f1 b1 -> x <= y -> NonEmpty f2 b2 -> NonEmpty (f1 ++ x :: f2) (b1 ++ y :: b2).
Proof. intros H1 Hxy H2. apply Forall2_app; auto. Qed.

Ltac run := repeat (cbn [bind bfront bback]; first [rewrite zset_mid' by lia | rewrite zget_mid' by lia]); cbn [bind bfront bback].

Lemma surroundAxis_spec mf1 mf mf2 mb1 mb mb2 f1 x f2 b1 y b2 out :
  length mf1 = length f1 -> length mb1 = length f1 -> length b1 = length f1 ->
  mf <= 0 <= mb -> NonEmpty f1 b1 -> x <= y -> NonEmpty f2 b2 ->
  exists new,
    surroundAxis (mkBox (mf1 ++ mf :: mf2) (mb1 ++ mb :: mb2)) (mkBox (f1 ++ x :: f2) (b1 ++ y :: b2), out) (length f1)
      = Ok (mkBox (f1 ++ (x + mf) :: f2) (b1 ++ (y + mb) :: b2), out ++ new) /\
    Forall Nonempty new /\
    ForallOrdPairs Disjoint (mkBox (f1 ++ x :: f2) (b1 ++ y :: b2) :: new) /\
    (forall p, InBox (mkBox (f1 ++ (x + mf) :: f2) (b1 ++ (y + mb) :: b2)) p <->
               InBox (mkBox (f1 ++ x :: f2) (b1 ++ y :: b2)) p \/ exists a, In a new /\ InBox a p) /\
    length new = sides mf mb.
Proof.
  intros Hmf1 Hmb1 Hb1 Hm Hne1 Hxy Hne2.
  assert (Hf1b1 : length f1 = length b1) by lia.
  assert (Disj : forall x1 y1 x2 y2, y1 < x2 \/ y2 < x1 ->
     Disjoint (mkBox (f1 ++ x1 :: f2) (b1 ++ y1 :: b2)) (mkBox (f1 ++ x2 :: f2) (b1 ++ y2 :: b2))).
  { intros x1 y1 x2 y2 Hlt p Hp Hq. unfold InBox in *. cbn [bfront bback] in *.
    apply Between_mid_inv in Hp as (p1 & z & p2 & -> & H1 & Hz & H2); auto.
    apply Between_mid_inv in Hq as (q1 & w & q2 & E & H1' & Hw & H2'); auto.
    pose proof (Between_length _ _ _ H1) as [? ?]. pose proof (Between_length _ _ _ H1') as [? ?].
    assert (E' := f_equal (fun l => zget l (Z.of_nat (length f1))) E). cbv beta in E'.
    rewrite !zget_mid' in E' by lia. injection E' as ->. lia. }
  assert (NE : forall x1 y1, x1 <= y1 -> Nonempty (mkBox (f1 ++ x1 :: f2) (b1 ++ y1 :: b2))).
  { intros. apply Nonempty_iff. cbn [bfront bback]. apply NonEmpty_mid; auto. }
  assert (Cov : forall x0 y0 L, (forall z, x0 <= z <= y0 <-> exists u, In u L /\ fst u <= z <= snd u) ->
     forall p, InBox (mkBox (f1 ++ x0 :: f2) (b1 ++ y0 :: b2)) p <->
       exists a, In a (map (fun u => mkBox (f1 ++ fst u :: f2) (b1 ++ snd u :: b2)) L) /\ InBox a p).
  { intros x0 y0 L HL p. unfold InBox. cbn [bfront bback]. split.
    - intros H. apply Between_mid_inv in H as (p1 & z & p2 & -> & H1 & Hz & H2); auto.
      apply HL in Hz as (u & Hu & Hz). eexists. split; [apply in_map; exact Hu|]. cbn [bfront bback].
      apply Between_mid; auto.
    - intros (a & Ha & H). apply in_map_iff in Ha as (u & <- & Hu). cbn [bfront bback] in H.
      apply Between_mid_inv in H as (p1 & z & p2 & -> & H1 & Hz & H2); auto.
      apply Between_mid; auto. apply HL. eauto. }
  unfold surroundAxis. cbn [bfront bback]. rewrite !zget_mid' by lia. cbn [bind].
  exists ((if mf <? 0 then [mkBox (f1 ++ (x + mf) :: f2) (b1 ++ (x - 1) :: b2)] else []) ++
          (if 0 <? mb then [mkBox (f1 ++ (y + 1) :: f2) (b1 ++ (y + mb) :: b2)] else [])).
  destruct (mf <? 0) eqn:Emf, (0 <? mb) eqn:Emb.
  - run.
    split; [now rewrite <- app_assoc|].
    cbn [app]. split; [repeat constructor; apply NE; lia|].
    split; [repeat constructor; apply Disj; lia|]. split; [|unfold sides; rewrite Emf, Emb; reflexivity].
    intros p. rewrite (Cov _ _ [(x, y); (x + mf, x - 1); (y + 1, y + mb)]).
    + cbn. split; [intros (a & [<-|[<-|[<-|[]]]] & Ha); eauto 7 | intros [H|(a & [<-|[<-|[]]] & Ha)]; eauto 7].
    + intros z. split.
      * intros Hz. destruct (Z_lt_le_dec z x); [exists (x + mf, x - 1); cbn; intuition lia|].
        destruct (Z_lt_le_dec y z); [exists (y + 1, y + mb) | exists (x, y)]; cbn; intuition lia.
      * intros (u & [<-|[<-|[<-|[]]]] & Hz); cbn in Hz; lia.
  - run.
    replace (y + mb) with y by lia.
    split; [reflexivity|].
    cbn [app]. split; [repeat constructor; apply NE; lia|].
    split; [repeat constructor; apply Disj; lia|]. split; [|unfold sides; rewrite Emf, Emb; reflexivity].
    intros p. rewrite (Cov _ _ [(x, y); (x + mf, x - 1)]).
    + cbn. split; [intros (a & [<-|[<-|[]]] & Ha); eauto 7 | intros [H|(a & [<-|[]] & Ha)]; eauto 7].
    + intros z. split.
      * intros Hz. destruct (Z_lt_le_dec z x); [exists (x + mf, x - 1) | exists (x, y)]; cbn; intuition lia.
      * intros (u & [<-|[<-|[]]] & Hz); cbn in Hz; lia.
  - run.
    replace (x + mf) with x by lia.
    split; [reflexivity|].
    cbn [app]. split; [repeat constructor; apply NE; lia|].
    split; [repeat constructor; apply Disj; lia|]. split; [|unfold sides; rewrite Emf, Emb; reflexivity].
    intros p. rewrite (Cov _ _ [(x, y); (y + 1, y + mb)]).
    + cbn. split; [intros (a & [<-|[<-|[]]] & Ha); eauto 7 | intros [H|(a & [<-|[]] & Ha)]; eauto 7].
    + intros z. split.
      * intros Hz. destruct (Z_lt_le_dec y z); [exists (y + 1, y + mb) | exists (x, y)]; cbn; intuition lia.
      * intros (u & [<-|[<-|[]]] & Hz); cbn in Hz; lia.
  - cbn [bind]. replace (x + mf) with x by lia. replace (y + mb) with y by lia.
    split; [now rewrite app_nil_r|]. cbn [app].
    split; [constructor|]. split; [repeat constructor|]. split; [|unfold sides; rewrite Emf, Emb; reflexivity].
    intros p. split; auto. intros [H|(a & [] & _)]; auto.
Qed.

Fixpoint countSides (mf mb : list Z) : nat :=
  match mf, mb with
  | f :: mf', b :: mb' => (sides f b + countSides mf' mb')%nat
  | _, _ => 0%nat
  end.

Lemma surroundLoop_spec mf2 : forall mb2 f2 b2 mf1 mb1 f1 b1 out,
  length mf1 = length f1 -> length mb1 = length f1 -> length b1 = length f1 ->
  length mf2 = length f2 -> length mb2 = length f2 -> length b2 = length f2 ->
  Forall (fun x => x <= 0) mf2 -> Forall (fun x => 0 <= x) mb2 ->
  NonEmpty f1 b1 -> NonEmpty f2 b2 ->
  exists new,
    surroundLoop (mkBox (mf1 ++ mf2) (mb1 ++ mb2)) (seq (length f1) (length f2)) (mkBox (f1 ++ f2) (b1 ++ b2), out)
      = Ok (mkBox (f1 ++ vadd f2 mf2) (b1 ++ vadd b2 mb2), out ++ new) /\
    Forall Nonempty new /\
    ForallOrdPairs Disjoint (mkBox (f1 ++ f2) (b1 ++ b2) :: new) /\
    (forall p, InBox (mkBox (f1 ++ vadd f2 mf2) (b1 ++ vadd b2 mb2)) p <->
               InBox (mkBox (f1 ++ f2) (b1 ++ b2)) p \/ exists a, In a new /\ InBox a p) /\
    length new = countSides mf2 mb2.
Proof.
  induction mf2 as [|mf mf2 IH]; intros [|mb mb2] [|x f2] [|y b2] mf1 mb1 f1 b1 out Hmf1 Hmb1 Hb1 Hmf Hmb Hb Hneg Hpos Hne1 Hne2;
    cbn in Hmf, Hmb, Hb; try lia.
  - exists []. cbn. rewrite !app_nil_r. repeat split; auto; try (repeat constructor).
    intros [H|(a & [] & _)]; auto.
  - inversion Hneg as [|? ? Hmf0 Hneg']; subst. inversion Hpos as [|? ? Hmb0 Hpos']; subst.
    inversion Hne2 as [|? ? ? ? Hxy Hne2']; subst.
    destruct (surroundAxis_spec mf1 mf mf2 mb1 mb mb2 f1 x f2 b1 y b2 out) as (new & E & N & D & C & L); auto.
    cbn [length seq surroundLoop]. rewrite E. cbn [bind].
    destruct (IH mb2 f2 b2 (mf1 ++ [mf]) (mb1 ++ [mb]) (f1 ++ [x + mf]) (b1 ++ [y + mb]) (out ++ new))
      as (new' & E' & N' & D' & C' & L'); try (rewrite ?app_length; cbn; lia); auto.
    { apply Forall2_app; auto. repeat constructor. lia. }
    assert (A : forall (l : list Z) z r, (l ++ [z]) ++ r = l ++ z :: r) by (intros; now rewrite <- app_assoc).
    rewrite !(A mf1), !(A mb1), !(A f1), !(A b1) in E'. rewrite (A f1), (A b1) in D'.
    rewrite !(A f1), !(A b1) in C'.
    replace (length (f1 ++ [x + mf])) with (S (length f1)) in E' by (rewrite app_length; cbn; lia).
    exists (new ++ new'). unfold vadd in *. cbn [map2]. split; [rewrite E'; now rewrite app_assoc|].
    split; [now apply Forall_app|].
    inversion D' as [|? ? D1 D2]; subst. rewrite Forall_forall in D1.
    split; [|split].
    + rewrite app_comm_cons. apply FOP_app; auto. intros a b Ha Hbb p Hp Hq.
      eapply D1; eauto. apply C. destruct Ha as [<-|Ha]; eauto.
    + intros p. rewrite C', C. split.
      * intros [[H|(a & Ha & H)]|(a & Ha & H)]; auto; right; exists a; split; auto; apply in_or_app; auto.
      * intros [H|(a & Ha & H)]; auto. apply in_app_or in Ha as [Ha|Ha]; eauto.
    + rewrite app_length, L, L'. reflexivity.
Qed.

Lemma surround_spec f b mf mb :
  length mf = length f -> length mb = length f -> NonEmpty f b ->
  Forall (fun x => x <= 0) mf -> Forall (fun x => 0 <= x) mb ->
  exists L, surround (mkBox f b) (mkBox mf mb) = Ok L /\
    Forall Nonempty L /\
    ForallOrdPairs Disjoint (mkBox f b :: L) /\
    (forall p, InBox (boxGrow (mkBox f b) (mkBox mf mb)) p <->
               InBox (mkBox f b) p \/ exists a, In a L /\ InBox a p) /\
    length L = countSides mf mb.
Proof.
  intros Hmf Hmb Hne Hneg Hpos. pose proof (Forall2_len _ _ _ Hne) as Hlen.
  destruct (surroundLoop_spec mf mb f b [] [] [] [] []) as (new & E & N & D & C & L); auto; try constructor.
  cbn [app length] in E, C, D. exists new. unfold surround, boxDim. cbn [bfront]. rewrite E.
  cbn [bind snd]. repeat split; auto; apply C.
Qed.

Lemma countSides_filter mf mb :
  length mf = length mb ->
  countSides mf mb = (length (filter (fun x => (x <? 0)%Z) mf) + length (filter (fun x => (0 <? x)%Z) mb))%nat.
Proof.
  revert mb; induction mf as [|f mf IH]; intros [|b mb] Hl; cbn in Hl; try lia; auto.
  cbn [countSides filter]. rewrite IH by lia. unfold sides.
  destruct (f <? 0), (0 <? b); cbn [length]; lia.
Qed.

Lemma surround_partition f b mf mb :
  length mf = length f -> length mb = length f -> Nonempty (mkBox f b) ->
  Forall (fun x => x <= 0) mf -> Forall (fun x => 0 <= x) mb ->
  exists L, surround (mkBox f b) (mkBox mf mb) = Ok L /\
    Forall Nonempty L /\
    ForallOrdPairs Disjoint (mkBox f b :: L) /\
    (forall p, InBox (boxGrow (mkBox f b) (mkBox mf mb)) p <->
               InBox (mkBox f b) p \/ exists a, In a L /\ InBox a p) /\
    length L = (length (filter (fun x => (x <? 0)%Z) mf) + length (filter (fun x => (0 <? x)%Z) mb))%nat.
Proof.
  intros. rewrite <- countSides_filter by lia. apply surround_spec; auto. now apply Nonempty_iff in H1.
Qed.

Lemma iteration_spec f b :
  f <> [] -> Nonempty (mkBox f b) ->
  exists L, (exists enough, forall fuel, (enough <= fuel)%nat -> boxForeach fuel (mkBox f b) = Some (Ok L)) /\
    NoDup L /\ (forall p, In p L <-> InBox (mkBox f b) p) /\
    (exists L1, L = f :: L1) /\ (exists L2, L = L2 ++ [b]) /\
    Sorted.StronglySorted lexLt L.
Proof.
  intros Hf H. apply Nonempty_iff in H. cbn [bfront bback] in H. exists (positions f b).
  split; [|split; [apply positions_NoDup | split; [intros p; apply In_positions|
    split; [now apply positions_hd | split; [now apply positions_last | apply positions_sorted]]]]].
  exists (S (length (positions f b))). intros fuel Hfuel. apply boxForeach_positions; auto.
Qed.

(** The same order on the indices of a raster which contains the box. *)
Lemma SSorted_impl {A} (R S : A -> A -> Prop) l :
  (forall a b, In a l -> In b l -> R a b -> S a b) -> Sorted.StronglySorted R l -> Sorted.StronglySorted S l.
Proof.
  intros H HS; induction HS as [|a l Hl IH Ha]; constructor.
  - apply IH. intros; apply H; auto; now right.
  - rewrite Forall_forall in *. intros b Hb. apply H; auto; [now left | now right].
Qed.

Lemma iteration_index_order n shape L :
  (n = -1 \/ n = Z.of_nat (length shape)) ->
  shape <> [] -> (forall p, In p L -> InDomain shape p) -> Sorted.StronglySorted lexLt L ->
  Sorted.StronglySorted (fun p q => exists i j, rindex n shape p = Ok i /\ rindex n shape q = Ok j /\ i < j) L.
Proof.
  intros Hn Hs Hin. apply SSorted_impl. intros p q Hp Hq Hlt.
  exists (rank shape p), (rank shape q). pose proof (InDomain_length _ _ (Hin p Hp)). pose proof (InDomain_length _ _ (Hin q Hq)).
  rewrite !rindex_rank by auto. repeat split; auto. apply rank_lexLt; auto.
Qed.

(** Sizes. *)
Lemma size_is_count f b L :
  f <> [] -> Nonempty (mkBox f b) -> NoDup L -> (forall p, In p L <-> InBox (mkBox f b) p) ->
  boxSize (mkBox f b) = Z.of_nat (length L).
Proof.
  intros Hf H HN HL. apply Nonempty_iff in H. rewrite boxSize_count by auto. f_equal.
  apply Nat.le_antisymm; apply NoDup_incl_length; auto using positions_NoDup; intros p Hp.
  - apply HL, In_positions, Hp.
  - apply In_positions, HL, Hp.
Qed.

Lemma prod_zero l : In 0 l -> prod l = 0.
Proof.
  induction l as [|x l IH]; intros Hin; [destruct Hin|]. rewrite prod_cons.
  destruct Hin as [->|H]; [lia | rewrite IH; auto; lia].
Qed.

Lemma size_zero f b : length f = length b -> In 0 (boxShape (mkBox f b)) -> boxSize (mkBox f b) = 0.
Proof.
  intros Hl H. rewrite boxSize_prod; auto using prod_zero. intros ->. destruct b; [destruct H | discriminate].
Qed.

Lemma never_ends b :
  bfront b <> [] -> length (bback b) = length (bfront b) -> ~ Nonempty b -> forall fuel, boxForeach fuel b = None.
Proof. intros Hne Hl He fuel. apply boxForeach_empty; auto. intros H. apply He, Nonempty_iff, H. Qed.

Lemma Nonempty_dec_false f b i x y : zget f i = Ok x -> zget b i = Ok y -> y < x -> ~ Nonempty (mkBox f b).
Proof.
  intros Hf Hb Hlt H. apply Nonempty_iff in H. cbn [bfront bback] in H.
  revert i Hf Hb. induction H as [|u v f b Huv H IH]; intros i Hf Hb.
  - rewrite zget_out in Hf by (cbn; lia). discriminate.
  - destruct (Z.lt_trichotomy i 0) as [Hi|[->|Hi]].
    + rewrite zget_out in Hf by lia. discriminate.
    + rewrite zget_cons_0 in *. injection Hf as ->. injection Hb as ->. lia.
    + rewrite zget_cons_S in * by auto. eapply IH; eauto.
Qed.

Lemma empty_iteration_witness :
  exists b, rdomain 2 [3; 0] = Ok b /\ ~ Nonempty b /\ forall fuel, boxForeach fuel b = None.
Proof.
  exists (mkBox [0; 0] [2; -1]). split; [reflexivity|].
  assert (H : ~ Nonempty (mkBox [0; 0] [2; -1])) by (apply (Nonempty_dec_false _ _ 1 0 (-1)); auto; lia).
  split; auto. apply never_ends; auto. discriminate.
Qed.

Lemma size_witness :
  exists b, ~ Nonempty b /\ boxSize b = 1 /\ exists b', ~ Nonempty b' /\ boxSize b' = -3.
Proof.
  exists (mkBox [5; 5] [3; 3]). split; [apply (Nonempty_dec_false _ _ 0 5 3); auto; lia|].
  split; [reflexivity|].
  exists (mkBox [5; 0] [3; 2]). split; [apply (Nonempty_dec_false _ _ 0 5 3); auto; lia | reflexivity].
Qed.

Lemma iteration_full f b :
  f <> [] -> Nonempty (mkBox f b) ->
  exists L, (exists enough, forall fuel, (enough <= fuel)%nat -> boxForeach fuel (mkBox f b) = Some (Ok L)) /\
    NoDup L /\ (forall p, In p L <-> InBox (mkBox f b) p) /\
    (exists L1, L = f :: L1) /\ (exists L2, L = L2 ++ [b]) /\
    (forall n shape, n = -1 \/ n = Z.of_nat (length shape) -> (forall p, In p L -> InDomain shape p) ->
       Sorted.StronglySorted (fun p q => exists i j, rindex n shape p = Ok i /\ rindex n shape q = Ok j /\ i < j) L).
Proof.
  intros Hf H. destruct (iteration_spec f b Hf H) as (L & HL & Hnd & Hin & (L1 & E1) & HL2 & Hs).
  exists L. repeat split; eauto; try apply Hin.
  intros n shape Hn Hd. apply iteration_index_order; auto. intros ->.
  assert (Hf' : InDomain [] f) by (apply Hd; rewrite E1; now left). inversion Hf'; congruence.
Qed.

Lemma size_is_visited f b L fuel :
  f <> [] -> Nonempty (mkBox f b) -> boxForeach fuel (mkBox f b) = Some (Ok L) -> boxSize (mkBox f b) = Z.of_nat (length L).
Proof.
  intros Hf H HL. pose proof H as H'. apply Nonempty_iff in H'. cbn [bfront bback] in H'. 
  rewrite boxSize_count by auto. do 2 f_equal.
  assert (M : forall n k e p l, boxLoop n (mkBox f b) e p = Some l -> boxLoop (n + k) (mkBox f b) e p = Some l).
  { clear. induction n as [|n IH]; intros k e p l; [discriminate|]. cbn [plus]. rewrite !boxLoop_S.
    destruct (veqb p e); auto. destruct (next (mkBox f b) p) as [q| |]; auto.
    destruct (boxLoop n (mkBox f b) e q) as [[l'| |]|] eqn:E; try discriminate; intros [= <-];
      rewrite (IH _ _ _ _ E); auto. }
  assert (HP : boxForeach (fuel + S (length (positions f b))) (mkBox f b) = Some (Ok (positions f b)))
    by (apply boxForeach_positions; auto; lia).
  unfold boxForeach in *. destruct (endPosition (mkBox f b)) as [e| |]; try congruence.
  rewrite (M _ _ _ _ _ HL) in HP. congruence.
Qed.

Lemma geometry_shape front shape :
  length front = length shape -> bfront (fromShape front shape) = front /\ boxShape (fromShape front shape) = shape.
Proof. intros. split; auto. now apply fromShape_shape. Qed.

Lemma geometry_translate b v p :
  length (bfront b) = length v -> length (bback b) = length v -> length p = length v ->
  (InBox (boxShift b v) (vadd p v) <-> InBox b p) /\
  (InBox (boxUnshift b v) (vsub p v) <-> InBox b p) /\
  boxShape (boxShift b v) = boxShape b /\ boxShape (boxUnshift b v) = boxShape b.
Proof.
  destruct b as [f b]. unfold InBox. cbn [bfront bback boxShift boxUnshift]. intros Hf Hb Hp.
  rewrite shift_member, unshift_member by lia. repeat split; auto; try tauto.
  - now apply shift_shape.
  - transitivity (boxShape (boxShift (boxUnshift (mkBox f b) v) v)).
    + unfold boxUnshift. cbn [bfront bback]. rewrite shift_shape; auto; unfold vsub; rewrite map2_length; lia.
    + unfold boxUnshift, boxShift. cbn [bfront bback]. rewrite !vsub_vadd by lia. reflexivity.
Qed.

Lemma geometry_inverse b m v a :
  length (bfront b) = length v -> length (bback b) = length v ->
  length (bfront m) = length v -> length (bback m) = length v ->
  boxShrink (boxGrow b m) m = b /\ boxGrow (boxShrink b m) m = b /\
  boxUnshift (boxShift b v) v = b /\ boxShift (boxUnshift b v) v = b /\
  boxShift b (vopp v) = boxUnshift b v /\
  boxSubs (boxAdds b a) a = b /\ boxDecr (boxIncr b) = b.
Proof.
  destruct b as [f b], m as [mf mb]. cbn [bfront bback]. intros.
  unfold boxShrink, boxGrow, boxUnshift, boxShift. cbn [bfront bback].
  rewrite !vadd_vsub, !vsub_vadd, !vsub_vopp by lia. repeat split; auto; apply adds_subs.
Qed.

Lemma geometry_scalar b a p : InBox (boxAdds b a) (vadds p a) <-> InBox b p.
Proof. unfold InBox. apply adds_member. Qed.

Lemma geometry_equal a b : (boxEqb a b = true <-> bfront a = bfront b /\ bback a = bback b) /\ boxNeqb a b = negb (boxEqb a b).
Proof.
  split; [|apply boxNeqb_spec]. rewrite boxEqb_spec. destruct a, b; cbn. split; [intros [= -> ->] | intros [-> ->]]; auto.
Qed.

Lemma geometry_project b axis x y :
  length (bfront b) = length (bback b) -> zget (bfront b) axis = Ok x -> zget (bback b) axis = Ok y -> x <= y ->
  exists pr, project b axis = Ok pr /\
    (forall p, InBox pr p <-> InBox b p /\ zget p axis = Ok x) /\
    (exists s, zset (boxShape b) axis 1 = Ok s /\ boxShape pr = s).
Proof. destruct b. apply project_spec. Qed.

Lemma opp_witness : exists b p, InBox b p /\ ~ InBox (boxOpp b) (vopp p).
Proof.
  exists (mkBox [0] [2]), [1]. split; [repeat constructor; lia|]. intros H. inversion H; subst. lia.
Qed.

Lemma opp_always b i x y p :
  zget (bfront b) i = Ok x -> zget (bback b) i = Ok y -> x < y -> ~ InBox (boxOpp b) p.
Proof. destruct b. apply opp_empty. Qed.

Lemma opp_unit b p : bfront b = bback b -> InBox (boxOpp b) (vopp p) <-> InBox b p.
Proof.
  intros E. destruct b as [f g]. cbn in E. subst g.
  unfold InBox, boxOpp. cbn [bfront bback]. unfold vopp. revert p; induction f as [|x f IH]; intros [|z p]; cbn;
    try (split; inversion 1; fail).
  - split; constructor.
  - rewrite !Between_cons_iff, IH. intuition lia.
Qed.
