From Verif Require Import Res VecModel BoxModel TypesModel BallModel Spec SamplingSpec Lemmas BoxIterProofs BoxGeomProofs ContainerProofs.
From Coq Require Import Sorting.Sorted QArith Qpower Lqa Qround.
Open Scope Z_scope.

(** Paths of the box iterator *)
Inductive Path (b : box) (e : list Z) : list Z -> list (list Z) -> Prop :=
| Path_end : Path b e e []
| Path_step : forall p q L, p <> e -> next b p = Ok q -> Path b e q L -> Path b e p (p :: L).

Lemma Walk_Path b e p L : Walk b p L -> decr0 (bfront b) = Ok e -> (forall q, In q L -> q <> e) -> Path b e p L.
Proof.
  intros HW He. induction HW as [p Hp | p q L Hp Hadv HW IH]; intros Hne.
  - econstructor; [apply Hne; now left| |constructor]. unfold next. now rewrite (proj2 (veqb_spec _ _) Hp).
  - econstructor; [apply Hne; now left| |apply IH; intros; apply Hne; now right]. unfold next. now rewrite veqb_false by auto.
Qed.

Section Region.
Variables (bx : box) (out : list Z -> bool) (e : list Z).
Let keep p := negb (out p).

Lemma regionSkip_S n cur :
  regionSkip bx out (S n) e cur =
  if veqb cur e then Some (Ok cur)
  else if out cur then
    match next bx cur with Ok c' => regionSkip bx out n e c' | Throw x => Some (Throw x) | UB => Some UB end
  else Some (Ok cur).
Proof. reflexivity. Qed.

Lemma skip_spec cur L : Path bx e cur L -> forall fuel, (length L < fuel)%nat ->
  exists c L', regionSkip bx out fuel e cur = Some (Ok c) /\ Path bx e c L' /\ filter keep L = filter keep L' /\
    (length L' <= length L)%nat /\ match L' with [] => True | q :: _ => keep q = true end.
Proof.
  induction 1 as [|p q L Hp Hn HP IH]; intros [|fuel] Hf; cbn [length] in *; try lia; rewrite regionSkip_S.
  - rewrite veqb_refl. exists e, []. repeat split; auto. constructor.
  - rewrite veqb_false by auto. destruct (out p) eqn:E.
    + rewrite Hn. destruct (IH fuel ltac:(lia)) as (c & L' & H1 & H2 & H3 & H4 & H5). exists c, L'.
      split; [auto|]. split; [auto|]. split; [|split; [lia|auto]]. cbn [filter]. unfold keep at 1. now rewrite E.
    + exists p, (p :: L). split; [auto|]. split; [econstructor; eauto|]. split; [auto|]. split; [cbn; lia|]. unfold keep. now rewrite E.
Qed.

Lemma regionLoop_S n cur :
  regionLoop bx out (S n) e cur =
      if veqb cur e then Some (Ok [])
      else match regionNext bx out (S n) e cur with
           | Some (Ok c') =>
               match regionLoop bx out n e c' with
               | Some (Ok l) => Some (Ok (cur :: l))
               | r => r
               end
           | Some (Throw x) => Some (Throw x)
           | Some UB => Some UB
           | None => None
           end.
Proof. reflexivity. Qed.

Lemma loop_spec fuel : forall cur L, Path bx e cur L -> (length L < fuel)%nat ->
  match L with [] => True | q :: _ => keep q = true end -> regionLoop bx out fuel e cur = Some (Ok (filter keep L)).
Proof.
  induction fuel as [|fuel IH]; intros cur L HP Hf Hk; [lia|]. rewrite regionLoop_S.
  inversion HP as [E1 E2|p q L0 Hp Hn HP0 E1 E2]; subst.
  - now rewrite veqb_refl.
  - rewrite veqb_false by auto. unfold regionNext. rewrite Hn. cbn [length] in Hf.
    destruct (skip_spec q L0 HP0 (S fuel) ltac:(lia)) as (c & L' & H1 & H2 & H3 & H4 & H5).
    rewrite H1, (IH c L' H2 ltac:(lia) H5). cbn [filter]. now rewrite Hk, H3.
Qed.
End Region.

Lemma regionForeach_eq f k out fuel : f <> [] -> NonEmpty f k -> (length (positions f k) < fuel)%nat ->
  regionForeach (mkBox f k) out fuel = Some (Ok (filter (fun p => negb (out p)) (positions f k))).
Proof.
  intros Hc HN Hf. unfold regionForeach, endPosition, beginPosition. cbn [bfront].
  destruct (decr0 f) as [e| |] eqn:He; try (destruct f; [congruence|discriminate]).
  assert (HP : Path (mkBox f k) e f (positions f k)).
  { apply Walk_Path; [apply positions_Walk, HN|exact He|]. intros q Hq. apply In_positions in Hq.
    destruct Hq as [|x y z f0 b0 p0 Hz Hq]; [discriminate|]. cbn in He. injection He as <-. intros [=]. lia. }
  destruct (skip_spec _ out e _ _ HP fuel Hf) as (c0 & L' & H1 & H2 & H3 & H4 & H5).
  rewrite H1. rewrite (loop_spec _ out e fuel c0 L' H2 ltac:(lia) H5). now rewrite <- H3.
Qed.

Lemma centered_nonempty c k : 0 <= k -> NonEmpty (vsubs c k) (vadds c k).
Proof. intros H. unfold vsubs, vadds, NonEmpty. induction c; constructor; auto. lia. Qed.

Lemma ballBox_nonempty r c : (0 <= r)%Q -> NonEmpty (vsubs c (qtrunc r)) (vadds c (qtrunc r)).
Proof.
  intros H. rewrite qtrunc_nonneg by auto. apply centered_nonempty. change 0 with (Qfloor 0). now apply Qfloor_resp_le.
Qed.

Lemma ballForeach_eq P r c fuel : c <> [] -> (0 <= r)%Q ->
  let f := vsubs c (qtrunc r) in let k := vadds c (qtrunc r) in
  (length (positions f k) < fuel)%nat ->
  ballForeach fuel P (mkBall r c) = Some (Ok (filter (fun p => negb (ballOut P (mkBall r c) p)) (positions f k))).
Proof.
  intros Hc Hr f k Hf. apply regionForeach_eq; [|now apply ballBox_nonempty|exact Hf]. unfold f. destruct c; [congruence|discriminate].
Qed.

(** Powers of rationals *)
Lemma Qpower_pos_le a b (n : positive) : (0 <= a)%Q -> (a < b)%Q -> (0 <= Qpower_positive a n < Qpower_positive b n)%Q.
Proof.
  intros Ha Hb. induction n as [|n IH] using Pos.peano_ind.
  - cbn. split; auto.
  - rewrite <- Pos.add_1_r, !Qpower_plus_positive. cbn [Qpower_positive].
    change (Qpower_positive a 1) with a. change (Qpower_positive b 1) with b.
    revert IH. generalize (Qpower_positive a n) (Qpower_positive b n). intros x y [H1 H2]. split; [nra|]. 
    apply Qle_lt_trans with (x * b)%Q; nra.
Qed.

Lemma Qpower_le_inv a b n : 0 < n -> (0 <= b)%Q -> (Qpower a n <= Qpower b n)%Q -> (a <= b)%Q.
Proof.
  intros Hn Hb H. destruct n as [|n|n]; try lia. cbn [Qpower] in H.
  destruct (Qlt_le_dec b a) as [L|L]; auto. apply Qpower_pos_le with (n := n) in L as [_ L]; auto.
  apply Qlt_not_le in L. contradiction.
Qed.

Lemma Qpower_inject x n : 0 <= n -> (Qpower (inject_Z x) n == inject_Z (x ^ n))%Q.
Proof. intros H. symmetry. apply Zpower_Qpower, H. Qed.

Lemma ballDist_spec P p c : ballDist P p c = distancePower P p c.
Proof.
  unfold distancePower. revert c. induction p as [|x p IH]; intros [|y c]; cbn; auto. rewrite IH.
  f_equal. f_equal. lia.
Qed.

Lemma distancePower_nonneg P p c : 0 < P -> 0 <= distancePower P p c.
Proof.
  intros H. unfold distancePower. induction (combine p c) as [|[x y] l IH]; cbn; [lia|].
  assert (0 <= Z.abs (x - y) ^ P) by (apply Z.pow_nonneg; lia). lia.
Qed.

Lemma distancePower_bound P p c r : 0 < P -> (0 <= r)%Q -> length p = length c ->
  (inject_Z (distancePower P p c) <= Qpower r P)%Q -> Between (vsubs c (Qfloor r)) (vadds c (Qfloor r)) p.
Proof.
  intros HP Hr Hl H. revert c Hl H. induction p as [|x p IH]; intros [|y c] Hl H; cbn in Hl; try discriminate; [constructor|].
  assert (E : distancePower P (x :: p) (y :: c) = Z.abs (x - y) ^ P + distancePower P p c) by reflexivity.
  assert (N1 : 0 <= Z.abs (x - y) ^ P) by (apply Z.pow_nonneg; lia). assert (N2 := distancePower_nonneg P p c HP).
  cbn [vsubs vadds map]. constructor.
  - assert (B : (Qpower (inject_Z (Z.abs (x - y))) P <= Qpower r P)%Q).
    { rewrite Qpower_inject by lia. eapply Qle_trans; [|exact H]. rewrite <- Zle_Qle. lia. }
    apply Qpower_le_inv in B; auto. apply Qfloor_resp_le in B. rewrite Qfloor_Z in B. lia.
  - apply IH; [lia|]. eapply Qle_trans; [|exact H]. rewrite <- Zle_Qle. lia.
Qed.

Lemma filter_sorted {A} (R : A -> A -> Prop) f l : StronglySorted R l -> StronglySorted R (filter f l).
Proof.
  induction 1 as [|a l Hs IH Hf]; cbn; [constructor|]. destruct (f a); auto. constructor; auto.
  rewrite Forall_forall in *. intros x Hx. apply filter_In in Hx as [Hx _]. auto.
Qed.

Lemma ball_iteration P r c : 0 < P -> c <> [] -> (0 <= r)%Q ->
  exists L, (forall p, In p L <-> WithinBall P r c p) /\ NoDup L /\ StronglySorted lexLt L /\
    exists n, forall fuel, (n <= fuel)%nat -> ballForeach fuel P (mkBall r c) = Some (Ok L).
Proof.
  intros HP Hc Hr. eexists. split; [|split; [|split; [|eexists; intros fuel Hf; apply ballForeach_eq; [auto|auto|exact Hf]]]].
  - intros p. split.
    + intros H. apply filter_In in H as [H1 H2]. split.
      * apply In_positions, Between_length in H1 as [H1 _]. unfold vsubs in H1. rewrite map_length in H1. lia.
      * apply negb_true_iff in H2. unfold ballOut in H2. apply qltb_false in H2. cbn [bradius bcenter] in H2. now rewrite ballDist_spec in H2.
    + intros [H1 H2]. apply filter_In. split.
      * apply In_positions. rewrite qtrunc_nonneg by auto. now apply distancePower_bound with P.
      * apply negb_true_iff. unfold ballOut. apply qltb_false. cbn [bradius bcenter]. now rewrite ballDist_spec.
  - apply NoDup_filter, positions_NoDup.
  - apply filter_sorted, positions_sorted.
Qed.

(** A radius of at most -1: the bounding box is empty and iteration never ends. *)
Section Never.
Variables (bx : box) (out : list Z -> bool) (e : list Z).
Hypothesis Hl : length (bback bx) = length (bfront bx).
Hypothesis Hempty : ~ NonEmpty (bfront bx) (bback bx).
Hypothesis He : decr0 (bfront bx) = Ok e.
Let I p := Forall2 Z.le (bfront bx) p.

Lemma never_next p : I p -> p <> e /\ exists q, next bx p = Ok q /\ I q.
Proof.
  intros Hp. split.
  - intros ->. unfold I in Hp. destruct (bfront bx) as [|x f]; [discriminate|]. injection He as <-. inversion Hp; subst. lia.
  - unfold next. rewrite veqb_false by (intros ->; apply Hempty, Hp).
    destruct (advance bx p) as [q| |] eqn:Ea.
    + exists q. split; auto. eapply advance_ge; eauto.
    + destruct p; discriminate.
    + destruct p; [|discriminate]. unfold I in Hp. destruct (bfront bx); [discriminate|inversion Hp].
Qed.

Lemma never_skip fuel : forall p, I p -> regionSkip bx out fuel e p = None \/ exists c, regionSkip bx out fuel e p = Some (Ok c) /\ I c.
Proof.
  induction fuel as [|fuel IH]; intros p Hp; [now left|]. rewrite regionSkip_S. destruct (never_next p Hp) as (N & q & Hn & Hq).
  rewrite veqb_false by auto. destruct (out p); [|right; eauto]. rewrite Hn. auto.
Qed.

Lemma never_loop fuel : forall p, I p -> regionLoop bx out fuel e p = None.
Proof.
  induction fuel as [|fuel IH]; intros p Hp; auto. rewrite regionLoop_S. destruct (never_next p Hp) as (N & q & Hn & Hq).
  rewrite veqb_false by auto. unfold regionNext. rewrite Hn. destruct (never_skip (S fuel) q Hq) as [->|(c & -> & Hc)]; auto.
  now rewrite IH.
Qed.
End Never.

Lemma qtrunc_le_minus1 r : (r <= -1)%Q -> qtrunc r <= -1.
Proof.
  intros H. rewrite qtrunc_neg by lra. assert (H0 : (1 <= - r)%Q) by lra. apply Qfloor_resp_le in H0.
  change (Qfloor 1) with 1 in H0. lia.
Qed.

Lemma ball_negative_radius P r c : c <> [] -> (r <= -1)%Q -> forall fuel, ballForeach fuel P (mkBall r c) = None.
Proof.
  intros Hc Hr fuel. apply qtrunc_le_minus1 in Hr. unfold ballForeach, regionForeach, endPosition, beginPosition.
  destruct (decr0 (bfront (ballBox (mkBall r c)))) as [e| |] eqn:He; try (destruct c; [congruence|discriminate]).
  assert (H1 : length (bback (ballBox (mkBall r c))) = length (bfront (ballBox (mkBall r c)))).
  { unfold ballBox, fromCenter, vadds, vsubs. cbn [bback bfront bradius bcenter]. now rewrite !map_length. }
  assert (H2 : ~ NonEmpty (bfront (ballBox (mkBall r c))) (bback (ballBox (mkBall r c)))).
  { unfold ballBox, fromCenter, vadds, vsubs. cbn [bback bfront bradius bcenter]. destruct c as [|x c]; [congruence|]. cbn [map].
    intros H. inversion H; subst. lia. }
  assert (H3 : Forall2 Z.le (bfront (ballBox (mkBall r c))) (bfront (ballBox (mkBall r c)))).
  { clear. induction (bfront (ballBox (mkBall r c))); constructor; auto; lia. }
  destruct (never_skip _ (ballOut P (mkBall r c)) e H1 H2 He fuel _ H3) as [->|(p & -> & Hp)]; auto.
  apply (never_loop _ _ e H1 H2 He fuel _ Hp).
Qed.

Lemma ball_half_radius : ballForeach 10 2 (mkBall (-1 # 2) [3; 4]) = Some (Ok [[3; 4]]).
Proof. reflexivity. Qed.

(** Geometry *)
Lemma distancePower_shift P p c v : length p = length v -> length c = length v ->
  distancePower P (vadd p v) (vadd c v) = distancePower P p c.
Proof.
  unfold distancePower. revert c v. induction p as [|x p IH]; intros [|y c] [|z v] H1 H2; cbn in H1, H2; try discriminate; auto.
  cbn [vadd map2 combine map fold_right fst snd]. change (map2 Z.add) with vadd. rewrite IH by lia. f_equal. f_equal. f_equal. lia.
Qed.

Lemma distancePower_scalar P p c a : distancePower P (vadds p a) (vadds c a) = distancePower P p c.
Proof.
  unfold distancePower. revert c. induction p as [|x p IH]; intros [|y c]; auto.
  cbn [vadds map combine fold_right fst snd]. fold (vadds p a) (vadds c a). rewrite IH. f_equal. f_equal. f_equal. lia.
Qed.

Lemma distancePower_opp P p c : distancePower P (vopp p) (vopp c) = distancePower P p c.
Proof.
  unfold distancePower. revert c. induction p as [|x p IH]; intros [|y c]; auto.
  cbn [vopp map combine fold_right fst snd]. fold (vopp p) (vopp c). rewrite IH. f_equal. f_equal. lia.
Qed.

Lemma vadd_len u v : length u = length v -> length (vadd u v) = length u.
Proof. revert v. induction u as [|x u IH]; intros [|y v] H; cbn in *; try discriminate; auto; f_equal; apply IH; lia. Qed.
Lemma vsub_len u v : length u = length v -> length (vsub u v) = length u.
Proof. revert v. induction u as [|x u IH]; intros [|y v] H; cbn in *; try discriminate; auto; f_equal; apply IH; lia. Qed.

Lemma ball_translate P b v p : length (bcenter b) = length v -> length p = length v ->
  let inside b p := WithinBall P (bradius b) (bcenter b) p in
  (inside (ballShift b v) (vadd p v) <-> inside b p) /\
  (inside (ballUnshift b v) (vsub p v) <-> inside b p).
Proof.
  intros Hc Hp inside. unfold inside, WithinBall, ballShift, ballUnshift. cbn [bradius bcenter]. split.
  - rewrite distancePower_shift, !vadd_len by lia. reflexivity.
  - rewrite !vsub_len by lia. rewrite <- (distancePower_shift P (vsub p v) (vsub (bcenter b) v) v) by (rewrite vsub_len; lia).
    rewrite !vsub_vadd by lia. reflexivity.
Qed.

Lemma ball_scalar P b a p :
  let inside b p := WithinBall P (bradius b) (bcenter b) p in
  (inside (ballAdds b a) (vadds p a) <-> inside b p) /\ (inside (ballSubs b a) (vsubs p a) <-> inside b p) /\
  (inside (ballOpp b) (vopp p) <-> inside b p).
Proof.
  intros inside. unfold inside, WithinBall, ballAdds, ballSubs, ballOpp. cbn [bradius bcenter]. split; [|split].
  - rewrite distancePower_scalar. unfold vadds. rewrite !map_length. reflexivity.
  - assert (E : forall l, vsubs l a = vadds l (- a)) by (intros l; unfold vsubs, vadds; apply map_ext; intros; lia).
    rewrite !E, distancePower_scalar. unfold vadds. rewrite !map_length. reflexivity.
  - rewrite distancePower_opp. unfold vopp. rewrite !map_length. reflexivity.
Qed.

Lemma distancePower_self P c : 0 < P -> distancePower P c c = 0.
Proof.
  intros H. unfold distancePower. induction c as [|x c IH]; auto. cbn [combine map fold_right fst snd]. rewrite IH, Z.sub_diag.
  rewrite Z.pow_0_l; lia.
Qed.

Lemma distancePower_app P p1 c1 p2 c2 : length p1 = length c1 ->
  distancePower P (p1 ++ p2) (c1 ++ c2) = distancePower P p1 c1 + distancePower P p2 c2.
Proof.
  unfold distancePower. revert c1. induction p1 as [|x p1 IH]; intros [|y c1] H; cbn in H; try discriminate; auto.
  cbn [app combine map fold_right fst snd]. rewrite IH by lia. lia.
Qed.

Lemma Qpower_le a b n : 0 < n -> (0 <= a)%Q -> (a <= b)%Q -> (Qpower a n <= Qpower b n)%Q.
Proof.
  intros Hn Ha H. destruct (Qlt_le_dec a b) as [L|L].
  - destruct n as [|n|n]; try lia. cbn [Qpower]. apply Qlt_le_weak, Qpower_pos_le; auto.
  - assert (E : (a == b)%Q) by lra. rewrite E. lra.
Qed.

Lemma app_inj_len {A} (a b c d : list A) : length a = length c -> a ++ b = c ++ d -> a = c /\ b = d.
Proof.
  revert c. induction a as [|x a IH]; intros [|y c] Hl H; cbn in Hl, H; try discriminate; auto.
  injection H as -> H. destruct (IH c ltac:(lia) H) as [-> ->]. auto.
Qed.

(** box() is the smallest box which contains the ball. *)
Lemma ball_box P r c : 0 < P -> c <> [] -> (0 <= r)%Q ->
  let inside p := WithinBall P r c p in
  (forall p, inside p -> Between (bfront (ballBox (mkBall r c))) (bback (ballBox (mkBall r c))) p) /\
  (forall f b, (forall p, inside p -> Between f b p) ->
     forall p, Between (bfront (ballBox (mkBall r c))) (bback (ballBox (mkBall r c))) p -> Between f b p).
Proof.
  intros HP Hc Hr inside. unfold ballBox, fromCenter. cbn [bradius bcenter bfront bback]. rewrite qtrunc_nonneg by auto. split.
  { intros p [H1 H2]. now apply distancePower_bound with P. }
  assert (HF : 0 <= Qfloor r) by (change 0 with (Qfloor 0); now apply Qfloor_resp_le).
  assert (E : forall c1 x c2 d, c = c1 ++ x :: c2 -> Z.abs d <= Qfloor r -> inside (c1 ++ (x + d) :: c2)).
  { intros c1 x c2 d -> Hd. split; [now rewrite !app_length|].
    rewrite distancePower_app by auto. change ((x + d) :: c2) with ([x + d] ++ c2). change (x :: c2) with ([x] ++ c2).
    rewrite distancePower_app, !distancePower_self by auto.
    replace (0 + (distancePower P [x + d] [x] + 0)) with (Z.abs d ^ P).
    - rewrite Zpower_Qpower by lia. apply Qpower_le; auto.
      + change 0%Q with (inject_Z 0). rewrite <- Zle_Qle. lia.
      + apply Qle_trans with (inject_Z (Qfloor r)); [rewrite <- Zle_Qle; lia|apply Qfloor_le].
    - unfold distancePower. cbn [combine map fold_right fst snd]. replace (x + d - x) with d by lia. lia. }
  intros f b H p Hp.
  assert (G : forall c1 c2 p2 f1 b1 f2 b2, c = c1 ++ c2 -> length f1 = length c1 -> f = f1 ++ f2 -> b = b1 ++ b2 -> length b1 = length c1 ->
    Between (vsubs c2 (Qfloor r)) (vadds c2 (Qfloor r)) p2 -> Between f2 b2 p2).
  { intros c1 c2. revert c1. induction c2 as [|x c2 IH]; intros c1 p2 f1 b1 f2 b2 E1 E2 E3 E4 E5 HB; cbn in HB.
    - inversion HB; subst p2. rewrite app_nil_r in E1. subst c1.
      assert (Hin : inside c). { split; auto. rewrite distancePower_self by auto. destruct P; try lia. cbn [Qpower]. apply Qpower_pos_positive, Hr. }
      apply H, Between_length in Hin as [L1 L2]. subst f b. rewrite app_length in L1, L2.
      destruct f2; [|cbn in *; lia]. destruct b2; [|cbn in *; lia]. constructor.
    - inversion HB as [|x0 y0 z0 f0 b0 p0 Hz HB0]; subst.
      assert (A1 := E c1 x c2 (z0 - x) eq_refl ltac:(lia)). apply H in A1. replace (x + (z0 - x)) with z0 in A1 by lia.
      assert (A2 := Between_length _ _ _ A1). rewrite !app_length in A2. cbn [length] in A2.
      destruct f2 as [|u f2]; [cbn in A2; lia|]. destruct b2 as [|w b2]; [cbn in A2; lia|].
      apply Between_mid_inv in A1 as (q1 & w1 & q2 & A3 & A4 & A5 & A6); [|lia].
      apply Between_length in A4 as [A4 _]. assert (A7 : c1 = q1 /\ z0 :: c2 = w1 :: q2) by (apply app_inj_len; [lia|exact A3]).
      destruct A7 as [-> [= <- ->]].
      constructor; [exact A5|]. apply (IH (q1 ++ [x]) p0 (f1 ++ [u]) (b1 ++ [w]) f2 b2); rewrite <- ?app_assoc, ?app_length; cbn; auto; lia. }
  apply (G [] c p [] [] f b); auto.
Qed.

Lemma ball_shape r c : ballShape (length c) (mkBall r c) = boxShape (ballBox (mkBall r c)).
Proof.
  unfold ballShape, ballBox, fromCenter, boxShape. cbn [bradius bcenter bfront bback].
  unfold ballLength. cbn [bradius]. generalize (qtrunc r) as k. intros k. unfold vadds, vsub, vsubs. induction c as [|x c IH]; auto.
  cbn [length repeat map map2]. rewrite IH. f_equal. lia.
Qed.
Lemma ball_shape_dim b : ballShape (ballDim b) b = boxShape (ballBox b) /\ ballDim b = length (bcenter b).
Proof. split; [|reflexivity]. destruct b as [r c]. exact (ball_shape r c). Qed.

Lemma ball_size_bound P r c L : 0 < P -> c <> [] -> (0 <= r)%Q -> NoDup L -> (forall p, In p L <-> WithinBall P r c p) ->
  Z.of_nat (length L) <= ballSize (mkBall r c).
Proof.
  intros HP Hc Hr HN HL. unfold ballSize, ballBox, fromCenter. cbn [bradius bcenter].
  rewrite boxSize_count; [|destruct c; [congruence|discriminate]|now apply ballBox_nonempty].
  apply inj_le, NoDup_incl_length; auto. intros p Hp. apply HL in Hp as [H1 H2]. apply In_positions.
  rewrite qtrunc_nonneg by auto. now apply distancePower_bound with P.
Qed.

Lemma ball_size_bound_met : exists L, (forall p, In p L <-> WithinBall 2 (3 # 2) [0; 0] p) /\ NoDup L /\ In [1; 1] L /\ ~ In [2; 0] L.
Proof.
  destruct (ball_iteration 2 (3 # 2) [0; 0]) as (L & HL & ND & _); [lia|discriminate|now vm_compute|].
  exists L. split; [exact HL|]. split; [exact ND|]. split.
  - apply HL. split; [reflexivity|]. now vm_compute.
  - intros C. apply HL in C as (_ & C). now vm_compute in C.
Qed.

Lemma ball_size_witness : exists b L, ballForeach 10 2 b = Some (Ok L) /\ length L = 5%nat /\ ballSize b = 9.
Proof. exists (mkBall 1 [0; 0]). eexists. repeat split; reflexivity. Qed.

Lemma ball_equal a b : ballEqb a b = true <-> (bradius a == bradius b)%Q /\ bcenter a = bcenter b.
Proof. unfold ballEqb. rewrite andb_true_iff, Qeq_bool_iff, veqb_spec. reflexivity. Qed.
