(** Box iteration. *)
From Coq Require Import Sorted.
From Verif Require Import Res VecModel BoxModel RasterModel Spec Lemmas IndexProofs.

(** A box with front <= back on every axis. *)
Definition NonEmpty (f b : list Z) : Prop := Forall2 Z.le f b.

Lemma Forall2_len {A B} (R : A -> B -> Prop) l r : Forall2 R l r -> length l = length r.
Proof. induction 1; cbn; auto. Qed.

(** The enumeration [positions]. *)
Lemma In_positions f b p : In p (positions f b) <-> Between f b p.
Proof.
  revert b p; induction f as [|x f IH]; intros [|y b] p; cbn [positions].
  - split; [intros [<-|[]]; constructor | inversion 1; now left].
  - split; [intros [] | inversion 1].
  - split; [intros [] | inversion 1].
  - rewrite in_flat_map. split.
    + intros (q & Hq & Hp). apply in_map_iff in Hp as (z & <- & Hz).
      constructor; [now apply In_zrange | now apply IH].
    + inversion 1; subst. exists p0. split; [now apply IH|].
      apply in_map_iff. exists z. split; [reflexivity | now apply In_zrange].
Qed.

Lemma NoDup_app {A} (l r : list A) :
  NoDup l -> NoDup r -> (forall a, In a l -> ~ In a r) -> NoDup (l ++ r).
Proof.
  induction 1 as [|a l Ha Hl IH]; intros Hr H; auto. cbn. constructor.
  - rewrite in_app_iff. intros [?|?]; [contradiction | eapply H; [now left | eassumption]].
  - apply IH; auto. intros a' Ha'. apply H. now right.
Qed.

Lemma positions_NoDup f b : NoDup (positions f b).
Proof.
  revert b; induction f as [|x f IH]; intros [|y b]; cbn [positions]; try constructor; auto; try constructor.
  specialize (IH b). induction IH as [|q L Hq HL IH]; [constructor|].
  cbn [flat_map]. apply NoDup_app.
  - apply FinFun.Injective_map_NoDup; [intros u v [=]; auto | apply zrange_NoDup].
  - exact IH.
  - intros a Ha Hin. apply in_map_iff in Ha as (z & <- & _).
    apply in_flat_map in Hin as (q' & Hq' & Hin). apply in_map_iff in Hin as (z' & [= -> ->] & _).
    contradiction.
Qed.

Lemma SSorted_app {A} (R : A -> A -> Prop) l r :
  StronglySorted R l -> StronglySorted R r -> (forall a b, In a l -> In b r -> R a b) -> StronglySorted R (l ++ r).
Proof.
  induction 1 as [|a l Hl IH Ha]; intros Hr H; auto. cbn. constructor.
  - apply IH; auto. intros; apply H; auto. now right.
  - apply Forall_app. split; auto. apply Forall_forall. intros b Hb. apply H; auto. now left.
Qed.

Lemma zrange_sorted a b : StronglySorted Z.lt (zrange a b).
Proof.
  unfold zrange. generalize (Z.to_nat (b - a + 1)) as n. intros n. generalize O as k.
  induction n as [|n IH]; intros k; cbn [seq map]; constructor; auto.
  apply Forall_forall. intros z Hz. apply in_map_iff in Hz as (j & <- & Hj). apply in_seq in Hj. lia.
Qed.

Lemma SSorted_map {A B} (R : A -> A -> Prop) (S : B -> B -> Prop) (g : A -> B) l :
  (forall a b, R a b -> S (g a) (g b)) -> StronglySorted R l -> StronglySorted S (map g l).
Proof.
  intros H; induction 1 as [|a l Hl IH Ha]; cbn; constructor; auto.
  apply Forall_map. eapply Forall_impl; [|exact Ha]. intros; auto.
Qed.

Lemma positions_sorted f b : StronglySorted lexLt (positions f b).
Proof.
  revert b; induction f as [|x f IH]; intros [|y b]; cbn [positions]; try (now repeat constructor).
  specialize (IH b). induction IH as [|q L HL IH Hq]; [constructor|].
  cbn [flat_map]. apply SSorted_app.
  - apply (SSorted_map Z.lt); [|apply zrange_sorted]. intros u v Huv. cbn. auto.
  - exact IH.
  - intros p p' Hp Hp'. apply in_map_iff in Hp as (z & <- & _).
    apply in_flat_map in Hp' as (q' & Hq' & Hin). apply in_map_iff in Hin as (z' & <- & _).
    cbn. left. rewrite Forall_forall in Hq. auto.
Qed.

Lemma flat_map_length_const {A B} (g : A -> list B) l n :
  (forall a, length (g a) = n) -> length (flat_map g l) = (length l * n)%nat.
Proof. intros H; induction l as [|a l IH]; cbn; auto. rewrite app_length, IH, H. lia. Qed.

Lemma positions_length f b :
  length f = length b ->
  Z.of_nat (length (positions f b)) = prod (map2 (fun x y => Z.max 0 (y - x + 1)) f b).
Proof.
  revert b; induction f as [|x f IH]; intros [|y b] Hl; cbn in Hl; try lia; auto.
  cbn [positions map2]. rewrite prod_cons.
  rewrite (flat_map_length_const _ _ (length (zrange x y))) by (intros; apply map_length).
  rewrite Nat2Z.inj_mul, IH, zrange_length by lia. lia.
Qed.

Lemma boxShape_map2 f b : boxShape (mkBox f b) = map2 (fun x y => y - x + 1) f b.
Proof.
  unfold boxShape, vadds, vsub. cbn [bfront bback]. revert b; induction f as [|x f IH]; intros [|y b]; auto.
  cbn [map2 map]. now rewrite IH.
Qed.

Lemma positions_length_nonempty f b :
  NonEmpty f b -> Z.of_nat (length (positions f b)) = prod (boxShape (mkBox f b)).
Proof.
  intros H. rewrite positions_length by (eapply Forall2_len; eauto). rewrite boxShape_map2.
  induction H as [|x y f b Hxy H IH]; auto. cbn [map2]. rewrite !prod_cons, IH. f_equal. lia.
Qed.

Lemma NonEmpty_front f b : NonEmpty f b -> Between f b f.
Proof. induction 1; constructor; auto. lia. Qed.
Lemma NonEmpty_back f b : NonEmpty f b -> Between f b b.
Proof. induction 1; constructor; auto. lia. Qed.
Lemma Between_NonEmpty f b p : Between f b p -> NonEmpty f b.
Proof. induction 1; constructor; auto. lia. Qed.

Lemma positions_hd f b : NonEmpty f b -> exists L, positions f b = f :: L.
Proof.
  induction 1 as [|x y f b Hxy H [L IH]]; [now exists []|].
  cbn [positions]. rewrite IH. cbn [flat_map]. rewrite (zrange_cons x y) by auto. cbn. eauto.
Qed.

Lemma positions_last f b : NonEmpty f b -> exists L, positions f b = L ++ [b].
Proof.
  induction 1 as [|x y f b Hxy H [L IH]]; [now exists []|].
  cbn [positions]. rewrite IH, flat_map_app. cbn [flat_map]. rewrite app_nil_r, (zrange_snoc x y) by auto.
  rewrite map_app, app_assoc. cbn. eauto.
Qed.

(** Consecutive positions. *)
Lemma carry_id f b q : Between f b q -> carry f b q = q.
Proof.
  induction 1 as [|x y z f b q Hz H IH]; auto. cbn [carry].
  destruct q as [|z' q]; auto. replace (y <? z) with false by lia. now rewrite IH.
Qed.

Lemma advance_in_row x y f b z q :
  Between f b q -> z < y -> advance (mkBox (x :: f) (y :: b)) (z :: q) = Ok (z + 1 :: q).
Proof.
  intros Hq Hz. cbn [advance bfront bback]. f_equal. cbn [carry]. destruct q as [|z' q]; auto.
  replace (y <? z + 1) with false by lia. now rewrite carry_id.
Qed.

Lemma advance_next_row x y f b z q q' :
  y <= z -> advance (mkBox f b) q = Ok q' ->
  advance (mkBox (x :: f) (y :: b)) (z :: q) = Ok (x :: q').
Proof.
  intros Hz. cbn [advance bfront bback]. destruct q as [|z' q]; cbn [advance]; [discriminate|].
  intros [= <-]. cbn [carry bfront bback]. replace (y <? z + 1) with true by lia. reflexivity.
Qed.

Definition Succ (b : box) (p q : list Z) : Prop := advance b p = Ok q.

Lemma Sorted_app {A} (R : A -> A -> Prop) l r :
  Sorted R l -> Sorted R r ->
  (forall l' a b r', l = l' ++ [a] -> r = b :: r' -> R a b) -> Sorted R (l ++ r).
Proof.
  induction 1 as [|a l Hl IH Ha]; intros Hr H; auto. cbn. constructor.
  - apply IH; auto. intros l' a' b' r' -> ->. eapply (H (a :: l')); reflexivity.
  - destruct l as [|a' l]; cbn.
    + destruct r as [|b r]; constructor. apply (H [] a b r); reflexivity.
    + constructor. now inversion Ha.
Qed.

Lemma row_chain x y f b q a c :
  Between f b q -> c <= y -> Sorted (Succ (mkBox (x :: f) (y :: b))) (map (fun z => z :: q) (zrange a c)).
Proof.
  intros Hq Hc. remember (Z.to_nat (c - a + 1)) as n eqn:Hn.
  revert a Hn. induction n as [|n IH]; intros a Hn.
  - rewrite zrange_empty by lia. constructor.
  - rewrite zrange_cons by lia. cbn [map]. constructor; [apply IH; lia|].
    destruct (Z.eq_dec a c) as [->|Hne]; [rewrite zrange_empty by lia; constructor|].
    rewrite zrange_cons by lia. constructor. apply advance_in_row; auto. lia.
Qed.

Lemma app_tail_inj {A} (l1 l2 : list A) a b : l1 ++ [a] = l2 ++ [b] -> a = b.
Proof. intros H. now apply app_inj_tail in H. Qed.

Lemma positions_chain f b : NonEmpty f b -> Sorted (Succ (mkBox f b)) (positions f b).
Proof.
  induction 1 as [|x y f b Hxy H IH]; [repeat constructor|]. cbn [positions].
  assert (Hin : forall q, In q (positions f b) -> Between f b q) by (intros q; apply In_positions).
  induction IH as [|q L HL IHL Hq]; [constructor|]. cbn [flat_map]. apply Sorted_app.
  - apply row_chain; [apply Hin; now left | lia].
  - apply IHL. intros; apply Hin. now right.
  - intros l' p p' r' E1 E2. rewrite zrange_snoc, map_app in E1 by auto. cbn [map] in E1.
    apply app_tail_inj in E1. subst p.
    destruct L as [|q' L]; [discriminate|]. cbn [flat_map] in E2. rewrite zrange_cons in E2 by auto.
    injection E2 as <- _. inversion Hq; subst. apply advance_next_row; [lia | assumption].
Qed.

(** The loop. *)
Inductive Walk (b : box) : list Z -> list (list Z) -> Prop :=
| Walk_last : forall p, p = bback b -> Walk b p [p]
| Walk_step : forall p q L, p <> bback b -> advance b p = Ok q -> Walk b q L -> Walk b p (p :: L).

Lemma boxLoop_S n b e cur :
  boxLoop (S n) b e cur =
  if veqb cur e then Some (Ok [])
  else match next b cur with
       | Ok c' => match boxLoop n b e c' with Some (Ok l) => Some (Ok (cur :: l)) | r => r end
       | Throw x => Some (Throw x)
       | UB => Some UB
       end.
Proof. reflexivity. Qed.

Lemma Walk_loop b e p L k :
  Walk b p L -> decr0 (bfront b) = Ok e -> (forall q, In q L -> q <> e) ->
  boxLoop (S (length L) + k) b e p = Some (Ok L).
Proof.
  intros HW He. induction HW as [p Hp | p q L Hp Hadv HW IH]; intros Hne; cbn [length plus]; rewrite boxLoop_S.
  - rewrite veqb_false by (apply Hne; now left). unfold next. rewrite (proj2 (veqb_spec _ _) Hp), He.
    rewrite boxLoop_S. now rewrite veqb_refl.
  - rewrite veqb_false by (apply Hne; now left). unfold next. rewrite veqb_false, Hadv by auto.
    cbn [length plus] in IH. rewrite IH; auto. intros; apply Hne. now right.
Qed.

Lemma chain_Walk b p L :
  Sorted (Succ b) (p :: L) -> NoDup (p :: L) -> (exists L', p :: L = L' ++ [bback b]) -> Walk b p (p :: L).
Proof.
  revert p; induction L as [|q L IH]; intros p Hs Hnd [L' HL'].
  - destruct L' as [|p' [|? L']]; try discriminate. injection HL' as Hp. now constructor.
  - inversion Hs as [|? ? Hs' Hhd]; subst. inversion Hnd as [|? ? Hp Hnd']; subst.
    destruct L' as [|p' L']; [discriminate|]. injection HL' as -> HL'.
    econstructor; [|inversion Hhd; subst; eassumption|].
    + intros ->. apply Hp. rewrite HL'. apply in_or_app. right. now left.
    + apply IH; eauto.
Qed.

Lemma positions_Walk f b : NonEmpty f b -> Walk (mkBox f b) f (positions f b).
Proof.
  intros H. destruct (positions_hd _ _ H) as [L HL]. rewrite HL.
  apply chain_Walk.
  - rewrite <- HL. now apply positions_chain.
  - rewrite <- HL. apply positions_NoDup.
  - rewrite <- HL. now apply positions_last.
Qed.

Lemma boxForeach_positions f b fuel :
  f <> [] -> NonEmpty f b -> (length (positions f b) < fuel)%nat ->
  boxForeach fuel (mkBox f b) = Some (Ok (positions f b)).
Proof.
  intros Hne H Hfuel. unfold boxForeach, endPosition, beginPosition. cbn [bfront].
  destruct f as [|x f]; [congruence|]. cbn [decr0].
  replace fuel with (S (length (positions (x :: f) b)) + (fuel - S (length (positions (x :: f) b))))%nat by lia.
  apply Walk_loop; auto using positions_Walk.
  intros q Hq. apply In_positions in Hq. inversion Hq; subst. intros [=]. lia.
Qed.

(** Empty boxes. *)
Lemma carry_ge f b c : Forall2 Z.le f c -> length b = length f -> Forall2 Z.le f (carry f b c).
Proof.
  revert b c; induction f as [|x f IH]; intros b c Hc Hb; cbn [carry]; auto.
  destruct b as [|y b]; [discriminate|]. inversion Hc as [|? z ? c' Hz Hc']; subst.
  destruct c' as [|z' c']; auto. cbn in Hb.
  destruct (y <? z); constructor; auto; try lia.
  - apply IH; [|lia]. inversion Hc'; subst. constructor; auto. lia.
Qed.

Lemma advance_ge b p q :
  length (bback b) = length (bfront b) -> Forall2 Z.le (bfront b) p -> advance b p = Ok q -> Forall2 Z.le (bfront b) q.
Proof.
  intros Hl Hp. destruct p as [|z p]; [discriminate|]. intros [= <-]. apply carry_ge; auto.
  inversion Hp; subst. constructor; auto. lia.
Qed.

Lemma empty_loop b e fuel p :
  length (bback b) = length (bfront b) -> ~ NonEmpty (bfront b) (bback b) ->
  decr0 (bfront b) = Ok e -> Forall2 Z.le (bfront b) p -> boxLoop fuel b e p = None.
Proof.
  intros Hl Hempty He. revert p; induction fuel as [|fuel IH]; intros p Hp; auto.
  cbn [boxLoop]. rewrite veqb_false.
  - unfold next. rewrite veqb_false.
    + destruct (bfront b) as [|x f] eqn:Ef; [discriminate|]. inversion Hp as [|? z ? p' Hz Hp']; subst.
      destruct (advance b (z :: p')) as [q| |] eqn:Ea; try discriminate.
      rewrite IH; auto. rewrite <- Ef. eapply advance_ge; eauto; rewrite Ef; auto.
    + intros ->. apply Hempty. exact Hp.
  - intros ->. destruct (bfront b) as [|x f]; [discriminate|]. injection He as <-.
    inversion Hp; subst. lia.
Qed.

Lemma boxForeach_empty b fuel :
  bfront b <> [] -> length (bback b) = length (bfront b) -> ~ NonEmpty (bfront b) (bback b) ->
  boxForeach fuel b = None.
Proof.
  intros Hne Hl He. unfold boxForeach, endPosition, beginPosition.
  destruct (decr0 (bfront b)) as [e| |] eqn:E; try (destruct (bfront b); [congruence | discriminate]).
  apply empty_loop; auto. clear. induction (bfront b); constructor; auto; lia.
Qed.

Lemma boxSize_prod f b : f <> [] -> length f = length b -> boxSize (mkBox f b) = prod (boxShape (mkBox f b)).
Proof.
  intros Hne Hl. unfold boxSize. apply shapeSize_prod. rewrite boxShape_map2.
  destruct f, b; cbn in *; congruence.
Qed.

Lemma boxSize_count f b :
  f <> [] -> NonEmpty f b -> boxSize (mkBox f b) = Z.of_nat (length (positions f b)).
Proof.
  intros Hne H. rewrite boxSize_prod, positions_length_nonempty; auto.
  eapply Forall2_len; eauto.
Qed.
