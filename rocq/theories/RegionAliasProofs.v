(** Regions shifted by their own parts. *)
From Verif Require Import Res VecModel BoxModel ArithModel ArithSpec RegionAliasModel RegionAliasSpec Lemmas ArithProofs.

Definition zop (minus : bool) : Z -> Z -> Z := if minus then Z.sub else Z.add.

Lemma shiftOp_ok minus x y : shiftOp minus x y = Ok (zop minus x y).
Proof. destruct minus; reflexivity. Qed.

Lemma shiftedBy_map2 minus p s : shiftedBy minus p s = map2 (zop minus) p s.
Proof. destruct minus; reflexivity. Qed.

Lemma map2_len {A B C} (f : A -> B -> C) u : forall v, length u = length v -> length (map2 f u v) = length u.
Proof. induction u; intros [|y v] H; cbn in *; try lia. rewrite IHu by lia. reflexivity. Qed.

Lemma zget_cons {A} (x : A) l i : 0 < i -> zget (x :: l) i = zget l (i - 1).
Proof.
  intros H. unfold zget. destruct (Z.ltb_spec i 0); [lia|]. destruct (Z.ltb_spec (i - 1) 0); [lia|].
  replace (Z.to_nat i) with (S (Z.to_nat (i - 1))) by lia. reflexivity.
Qed.

Lemma zget_map2 (f : Z -> Z -> Z) u : forall v i, length u = length v -> 0 <= i < Z.of_nat (length u) ->
  zget (map2 f u v) i = (x <- zget u i ;; y <- zget v i ;; Ok (f x y)).
Proof.
  induction u as [|x u IH]; intros [|y v] i L H; cbn [length] in *; try lia.
  destruct (Z.eq_dec i 0) as [->|N]; [reflexivity|]. cbn [map2]. rewrite !zget_cons by lia. apply IH; lia.
Qed.

Lemma holds_outside mem mem' a l b n : Holds mem a l -> Frame mem mem' b n -> Apart a (length l) b n -> Holds mem' a l.
Proof.
  intros [HA H] [L F] P. split; [unfold Allocated in *; lia|]. intros i Hi. rewrite F; [auto|].
  unfold Outside. destruct (Z_lt_dec (a + i) b); [now left|]. destruct (Z_le_dec (b + Z.of_nat n) (a + i)); [now right|].
  exfalso. apply (P i (a + i - b)); lia.
Qed.

(** One position modified by another, or by itself. *)
Lemma transform_holds minus n mem a u b v :
  length u = n -> length v = n -> Holds mem a u -> Holds mem b v -> a = b \/ Apart a n b n ->
  exists mem', transform2 (shiftOp minus) n mem a b = Ok mem' /\ Frame mem mem' a n /\ Holds mem' a (shiftedBy minus u v).
Proof.
  intros Lu Lv [A1 H1] [A2 H2] D. rewrite Lu in A1, H1. rewrite Lv in A2, H2.
  destruct (transform2_spec (shiftOp minus) n mem a b) as (mem' & E & F & P); auto.
  - destruct D as [->|D]; [left; lia|right; exact D].
  - intros i Hi. rewrite H1, H2 by lia.
    destruct (zget_in_range u i) as [x ->]; [lia|]. destruct (zget_in_range v i) as [y ->]; [lia|]. cbn [bind].
    rewrite shiftOp_ok. eauto.
  - exists mem'. split; [exact E|]. split; [exact F|]. rewrite shiftedBy_map2. split.
    + rewrite map2_len by lia. rewrite Lu. unfold Allocated in *. destruct F as [-> _]. lia.
    + rewrite map2_len by lia. rewrite Lu. intros i Hi. rewrite P by lia. rewrite H1, H2 by lia. rewrite zget_map2 by lia.
      destruct (zget u i); cbn [bind]; [|reflexivity|reflexivity]. destruct (zget v i); cbn [bind]; [|reflexivity|reflexivity].
      apply shiftOp_ok.
Qed.

Lemma apart_sym a n b m : Apart a n b m -> Apart b m a n.
Proof. intros H i j Hi Hj E. apply (H j i); auto. Qed.

Lemma frame_compose mem m mem' a b n : Frame mem m a n -> Frame m mem' b n -> Frame2 mem mem' a b n.
Proof. intros [L F] [L' F']. split; [lia|]. intros j Ha Hb. rewrite F' by auto. auto. Qed.

Lemma shiftedBy_len minus p s : length p = length s -> length (shiftedBy minus p s) = length p.
Proof. intros H. rewrite shiftedBy_map2. now apply map2_len. Qed.

Lemma shift_right minus mem fa ba sa f b s :
  length b = length f -> length s = length f ->
  Holds mem fa f -> Holds mem ba b -> Holds mem sa s ->
  Apart fa (length f) ba (length f) -> Apart fa (length f) sa (length f) ->
  sa = ba \/ Apart ba (length f) sa (length f) ->
  exists mem', memShift minus (length f) mem fa ba sa = Ok mem' /\
    Holds mem' fa (shiftedBy minus f s) /\ Holds mem' ba (shiftedBy minus b s) /\ Frame2 mem mem' fa ba (length f).
Proof.
  intros Lb Ls Hf Hb Hs D Df Db. unfold memShift.
  destruct (transform_holds minus (length f) mem fa f sa s eq_refl Ls Hf Hs (or_intror Df)) as (m & E & F & H). rewrite E. cbn [bind].
  assert (Hb' : Holds m ba b) by (apply (holds_outside _ _ _ _ _ _ Hb F); rewrite Lb; now apply apart_sym).
  assert (Hs' : Holds m sa s) by (apply (holds_outside _ _ _ _ _ _ Hs F); rewrite Ls; now apply apart_sym).
  destruct (transform_holds minus (length f) m ba b sa s Lb Ls Hb' Hs') as (m' & E' & F' & H').
  { destruct Db as [->|Db]; auto. }
  exists m'. split; [exact E'|]. split; [|split; [exact H'|]].
  - apply (holds_outside _ _ _ _ _ _ H F'). rewrite shiftedBy_len by lia. exact D.
  - eapply frame_compose; eauto.
Qed.

Lemma holds_unique mem a u v : length u = length v -> Holds mem a u -> Holds mem a v -> u = v.
Proof.
  intros L [_ H] [_ H']. apply zget_ext; [lia|]. intros i. destruct (Z_lt_dec i 0).
  - unfold zget. destruct (Z.ltb_spec i 0); [reflexivity|lia].
  - destruct (Z_lt_dec i (Z.of_nat (length u))).
    + rewrite <- H, <- H' by lia. reflexivity.
    + unfold zget. destruct (Z.ltb_spec i 0); [lia|]. rewrite !(proj2 (nth_error_None _ _)) by lia. reflexivity.
Qed.

Lemma shift_own_front minus mem fa ba f b :
  length b = length f -> Holds mem fa f -> Holds mem ba b -> Apart fa (length f) ba (length f) ->
  exists mem', memShift minus (length f) mem fa ba fa = Ok mem' /\
    Holds mem' fa (shiftedBy minus f f) /\ Holds mem' ba (shiftedBy minus b (shiftedBy minus f f)) /\
    Frame2 mem mem' fa ba (length f) /\
    (Holds mem' ba (shiftedBy minus b f) <-> Forall (fun x => x = 0) f).
Proof.
  intros Lb Hf Hb D. unfold memShift.
  destruct (transform_holds minus (length f) mem fa f fa f eq_refl eq_refl Hf Hf (or_introl eq_refl)) as (m & E & F & H). rewrite E. cbn [bind].
  assert (Lff : length (shiftedBy minus f f) = length f) by (apply shiftedBy_len; reflexivity).
  assert (Hb' : Holds m ba b) by (apply (holds_outside _ _ _ _ _ _ Hb F); rewrite Lb; now apply apart_sym).
  destruct (transform_holds minus (length f) m ba b fa _ Lb Lff Hb' H (or_intror (apart_sym _ _ _ _ D))) as (m' & E' & F' & H').
  exists m'. split; [exact E'|].
  split; [apply (holds_outside _ _ _ _ _ _ H F'); rewrite Lff; exact D|].
  split; [exact H'|]. split; [eapply frame_compose; eauto|].
  assert (Q : shiftedBy minus b (shiftedBy minus f f) = shiftedBy minus b f <-> Forall (fun x => x = 0) f).
  { clear - Lb. revert b Lb. induction f as [|x f IH]; intros [|y b] Lb; cbn [length] in Lb; try lia.
    - split; intros; [constructor|destruct minus; reflexivity].
    - assert (C : forall u x v y, shiftedBy minus (u :: x) (v :: y) = zop minus u v :: shiftedBy minus x y)
        by (intros; rewrite !shiftedBy_map2; reflexivity).
      rewrite !C. split.
      + intros E. injection E as E1 E2. constructor; [destruct minus; cbn [zop] in E1; lia|]. apply (IH b); [lia|exact E2].
      + intros G. inversion G as [|? ? G1 G2]; subst. f_equal; [destruct minus; cbn [zop]; lia|]. apply IH; [lia|exact G2]. }
  rewrite <- Q. split.
  - intros K. eapply holds_unique; [|exact H'|exact K]. rewrite !shiftedBy_len; lia.
  - intros <-. exact H'.
Qed.

Lemma margin_right minus mem fa ba mf mb f b u v :
  length b = length f -> length u = length f -> length v = length f ->
  Holds mem fa f -> Holds mem ba b -> Holds mem mf u -> Holds mem mb v ->
  Apart fa (length f) ba (length f) -> Apart fa (length f) mb (length f) ->
  mf = fa \/ Apart fa (length f) mf (length f) -> mb = ba \/ Apart ba (length f) mb (length f) ->
  exists mem', memMargin minus (length f) mem fa ba mf mb = Ok mem' /\
    Holds mem' fa (shiftedBy minus f u) /\ Holds mem' ba (shiftedBy minus b v) /\ Frame2 mem mem' fa ba (length f).
Proof.
  intros Lb Lu Lv Hf Hb Hu Hv D Dv Du Dw. unfold memMargin.
  destruct (transform_holds minus (length f) mem fa f mf u eq_refl Lu Hf Hu) as (m & E & F & H).
  { destruct Du as [->|Du]; auto. }
  rewrite E. cbn [bind].
  assert (Hb' : Holds m ba b) by (apply (holds_outside _ _ _ _ _ _ Hb F); rewrite Lb; now apply apart_sym).
  assert (Hv' : Holds m mb v) by (apply (holds_outside _ _ _ _ _ _ Hv F); rewrite Lv; now apply apart_sym).
  destruct (transform_holds minus (length f) m ba b mb v Lb Lv Hb' Hv') as (m' & E' & F' & H').
  { destruct Dw as [->|Dw]; auto. }
  exists m'. split; [exact E'|]. split; [|split; [exact H'|]].
  - apply (holds_outside _ _ _ _ _ _ H F'). rewrite shiftedBy_len by lia. exact D.
  - eapply frame_compose; eauto.
Qed.

Lemma zget_app_l {A} (l r : list A) i : 0 <= i < Z.of_nat (length l) -> zget (l ++ r) i = zget l i.
Proof. intros H. unfold zget. destruct (Z.ltb_spec i 0); [lia|]. rewrite nth_error_app1 by lia. reflexivity. Qed.

Lemma zget_firstn {A} n (l : list A) i : 0 <= i < Z.of_nat n -> zget (firstn n l) i = zget l i.
Proof.
  intros H. unfold zget. destruct (Z.ltb_spec i 0); [lia|].
  assert (G : nth_error (firstn n l) (Z.to_nat i) = nth_error l (Z.to_nat i)).
  { assert (K : (Z.to_nat i < n)%nat) by lia. revert K. generalize (Z.to_nat i). clear. revert l.
    induction n as [|n IH]; intros l k K; [lia|]. destruct l as [|x l]; [now destruct k|]. destruct k as [|k]; [reflexivity|].
    cbn. apply IH. lia. }
  now rewrite G.
Qed.

Lemma holds_app mem r a l : Holds mem a l -> Holds (mem ++ r) a l.
Proof.
  intros [HA H]. split; [unfold Allocated in *; rewrite app_length; lia|]. intros i Hi. unfold Allocated in HA.
  rewrite zget_app_l by lia. auto.
Qed.

Lemma ref_holds minus n mem a u s y :
  length u = n -> Holds mem a u -> zget mem s = Ok y -> Outside s a n ->
  exists mem', transformRef (shiftOp minus) n mem a s = Ok mem' /\ Frame mem mem' a n /\
    Holds mem' a (map (fun x => zop minus x y) u).
Proof.
  intros Lu [A1 H1] Hy Ho. rewrite Lu in A1, H1.
  destruct (transformRef_spec (shiftOp minus) n mem a s A1 Ho) as (mem' & E & F & P).
  - intros i Hi. rewrite H1, Hy by lia. destruct (zget_in_range u i) as [x ->]; [lia|]. cbn [bind]. rewrite shiftOp_ok. eauto.
  - exists mem'. split; [exact E|]. split; [exact F|]. split.
    + rewrite map_length, Lu. unfold Allocated in *. destruct F as [-> _]. lia.
    + rewrite map_length, Lu. intros i Hi. rewrite P, H1, Hy by lia. rewrite zget_map.
      destruct (zget_in_range u i) as [x ->]; [lia|]. cbn [bind]. apply shiftOp_ok.
Qed.

Lemma scalar_right minus mem fa ba s y f b :
  length b = length f -> Holds mem fa f -> Holds mem ba b -> zget mem s = Ok y ->
  Apart fa (length f) ba (length f) ->
  exists mem', memScalar minus (length f) mem fa ba s = Ok mem' /\
    Holds mem' fa (if minus then vsubs f y else vadds f y) /\ Holds mem' ba (if minus then vsubs b y else vadds b y) /\
    Frame2 mem mem' fa ba (length f).
Proof.
  intros Lb Hf Hb Hy D. unfold memScalar. rewrite Hy. cbn [bind].
  assert (V : forall u, (if minus then vsubs u y else vadds u y) = map (fun x => zop minus x y) u)
    by (intros; destruct minus; reflexivity).
  rewrite !V. set (k := Z.of_nat (length mem)).
  assert (Hk : zget (mem ++ [y]) k = Ok y).
  { unfold zget, k. destruct (Z.ltb_spec (Z.of_nat (length mem)) 0); [lia|]. rewrite Nat2Z.id, nth_error_app2 by lia.
    rewrite Nat.sub_diag. reflexivity. }
  assert (Of : Outside k fa (length f)) by (right; destruct Hf as [[_ ?] _]; unfold k; lia).
  assert (Ob : Outside k ba (length f)) by (right; destruct Hb as [[_ ?] _]; unfold k; lia).
  destruct (ref_holds minus (length f) (mem ++ [y]) fa f k y eq_refl (holds_app _ _ _ _ Hf) Hk Of) as (m & E & F & H). rewrite E. cbn [bind].
  assert (Hb' : Holds m ba b) by (apply (holds_outside _ _ _ _ _ _ (holds_app _ [y] _ _ Hb) F); rewrite Lb; now apply apart_sym).
  assert (Hk' : zget m k = Ok y) by (destruct F as [_ F]; rewrite F; auto).
  destruct (ref_holds minus (length f) m ba b k y Lb Hb' Hk' Ob) as (m' & E' & F' & H'). rewrite E'. cbn [bind].
  assert (H1 : Holds m' fa (map (fun x => zop minus x y) f))
    by (apply (holds_outside _ _ _ _ _ _ H F'); rewrite map_length; exact D).
  assert (Lm : length m' = S (length mem)) by (destruct F as [L _], F' as [L' _]; rewrite L', L, app_length; cbn; lia).
  assert (Lk : length (firstn (length mem) m') = length mem) by (rewrite firstn_length; lia).
  eexists. split; [reflexivity|].
  assert (G : forall a u, length u = length f -> Allocated mem a (length f) -> Holds m' a u -> Holds (firstn (length mem) m') a u).
  { intros a u Lu [G1 G2] [_ K]. split; [unfold Allocated; rewrite Lk, Lu; lia|]. intros i Hi. rewrite zget_firstn by lia. auto. }
  split; [apply G; [rewrite map_length; reflexivity|apply Hf|exact H1]|].
  split; [apply G; [rewrite map_length; exact Lb|rewrite <- Lb; apply Hb|exact H']|].
  split; [exact Lk|]. intros j Ha Hb2. destruct (Z_lt_dec j 0).
  { unfold zget. destruct (Z.ltb_spec j 0); [reflexivity|lia]. }
  destruct (Z_lt_dec j k).
  - rewrite zget_firstn by lia. destruct F as [_ F], F' as [_ F']. rewrite F', F by auto. apply zget_app_l. lia.
  - unfold zget. destruct (Z.ltb_spec j 0); [lia|]. rewrite !(proj2 (nth_error_None _ _)) by lia. reflexivity.
Qed.

Lemma copy_holds mem a u : Holds mem a u -> exists m, copyNew (length u) mem a = Ok m /\
  m = mem ++ u.
Proof.
  intros [HA H]. unfold copyNew. destruct (zgetN_spec _ _ _ HA) as (l & E & L & P). rewrite E. cbn [bind]. eexists. split; [reflexivity|].
  f_equal. apply zget_ext; [lia|]. intros i. destruct (Z_lt_dec i 0).
  - unfold zget. destruct (Z.ltb_spec i 0); [reflexivity|lia].
  - destruct (Z_lt_dec i (Z.of_nat (length u))).
    + intros _. rewrite P by lia. apply H. lia.
    + unfold zget. destruct (Z.ltb_spec i 0); [lia|]. rewrite !(proj2 (nth_error_None _ _)) by lia. reflexivity.
Qed.

Lemma holds_end mem u : Holds (mem ++ u) (Z.of_nat (length mem)) u.
Proof.
  split; [unfold Allocated; rewrite app_length; lia|]. intros i Hi. unfold zget.
  destruct (Z.ltb_spec (Z.of_nat (length mem) + i) 0); [lia|]. destruct (Z.ltb_spec i 0); [lia|].
  rewrite nth_error_app2 by lia. replace (Z.to_nat (Z.of_nat (length mem) + i) - length mem)%nat with (Z.to_nat i) by lia. reflexivity.
Qed.

Lemma new_right minus mem fa ba sa f b s :
  length b = length f -> length s = length f -> Holds mem fa f -> Holds mem ba b -> Holds mem sa s ->
  memShiftNew minus (length f) mem fa ba sa = Ok (mem ++ shiftedBy minus f s ++ shiftedBy minus b s).
Proof.
  intros Lb Ls Hf Hb Hs. unfold memShiftNew.
  destruct (copy_holds _ _ _ Hf) as (m1 & -> & ->). cbn [bind].
  rewrite <- Lb. destruct (copy_holds _ _ _ (holds_app _ f _ _ Hb)) as (m2 & -> & ->). cbn [bind]. rewrite Lb.
  set (k := Z.of_nat (length mem)).
  assert (Hf2 : Holds ((mem ++ f) ++ b) k f) by (apply holds_app, holds_end).
  assert (Hb2 : Holds ((mem ++ f) ++ b) (k + Z.of_nat (length f)) b).
  { replace (k + Z.of_nat (length f)) with (Z.of_nat (length (mem ++ f))) by (rewrite app_length; unfold k; lia). apply holds_end. }
  assert (Hs2 : Holds ((mem ++ f) ++ b) sa s) by (apply holds_app, holds_app, Hs).
  assert (Bs : sa + Z.of_nat (length f) <= k) by (destruct Hs as [[_ ?] _]; rewrite Ls in *; unfold k; lia).
  destruct (shift_right minus _ _ _ _ _ _ _ Lb Ls Hf2 Hb2 Hs2) as (m' & E & H1 & H2 & L & F).
  - intros i j; lia.
  - intros i j; lia.
  - right. intros i j; lia.
  - rewrite E. f_equal. rewrite !app_length in L.
    assert (L1 := shiftedBy_len minus f s ltac:(lia)). assert (L2 := shiftedBy_len minus b s ltac:(lia)).
    apply zget_ext; [rewrite L, !app_length; lia|]. intros i. destruct (Z_lt_dec i 0).
    { unfold zget. destruct (Z.ltb_spec i 0); [reflexivity|lia]. }
    destruct (Z_lt_dec i k).
    { rewrite F by (left; lia). rewrite !zget_app_l by (rewrite ?app_length; lia). reflexivity. }
    destruct (Z_lt_dec i (k + Z.of_nat (length f))).
    { destruct H1 as [_ H1]. specialize (H1 (i - k)). replace (k + (i - k)) with i in H1 by lia. rewrite H1 by lia.
      pose proof (holds_end mem (shiftedBy minus f s)) as Q. apply (holds_app _ (shiftedBy minus b s)) in Q.
      destruct Q as [_ Q]. specialize (Q (i - k)). fold k in Q. replace (k + (i - k)) with i in Q by lia.
      rewrite app_assoc, Q by lia. reflexivity. }
    destruct (Z_lt_dec i (k + Z.of_nat (length f) + Z.of_nat (length f))).
    { destruct H2 as [_ H2]. specialize (H2 (i - k - Z.of_nat (length f))).
      replace (k + Z.of_nat (length f) + (i - k - Z.of_nat (length f))) with i in H2 by lia. rewrite H2 by lia.
      pose proof (holds_end (mem ++ shiftedBy minus f s) (shiftedBy minus b s)) as [_ Q].
      specialize (Q (i - k - Z.of_nat (length f))).
      replace (Z.of_nat (length (mem ++ shiftedBy minus f s)) + (i - k - Z.of_nat (length f))) with i in Q by (rewrite app_length; unfold k; lia).
      rewrite app_assoc, Q by lia. reflexivity. }
    unfold zget. destruct (Z.ltb_spec i 0); [lia|]. rewrite !(proj2 (nth_error_None _ _)) by (rewrite ?L, ?app_length; lia). reflexivity.
Qed.

Lemma ball_right minus mem ca sa c s :
  length s = length c -> Holds mem ca c -> Holds mem sa s -> sa = ca \/ Apart ca (length c) sa (length c) ->
  exists mem', memBallShift minus (length c) mem ca sa = Ok mem' /\ Holds mem' ca (shiftedBy minus c s) /\ Frame mem mem' ca (length c).
Proof.
  intros L Hc Hs D. unfold memBallShift.
  destruct (transform_holds minus (length c) mem ca c sa s eq_refl L Hc Hs) as (m & E & F & H).
  { destruct D as [->|D]; auto. }
  exists m. auto.
Qed.

Lemma holds_here u r : Holds (u ++ r) 0 u.
Proof. exact (holds_app _ r _ _ (holds_end [] u)). Qed.

Lemma own_front_refuted :
  Holds [3; 4; 5; 6] 0 [3; 4] /\ Holds [3; 4; 5; 6] 2 [5; 6] /\
  memShift true 2 [3; 4; 5; 6] 0 2 0 = Ok [0; 0; 5; 6] /\ vsub [5; 6] [3; 4] = [2; 2] /\
  memShiftNew true 2 [3; 4; 5; 6] 0 2 0 = Ok [3; 4; 5; 6; 0; 0; 2; 2].
Proof.
  split; [apply (holds_here [3; 4] [5; 6])|]. split; [apply (holds_end [3; 4] [5; 6])|]. repeat split.
Qed.
