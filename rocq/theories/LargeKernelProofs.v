(** Proofs about ND kernels whose window does not fit in the raster. *)
From Verif Require Import Res VecModel BoxModel RasterModel SamplingModel LineKernelModel SeparableModel KernelModel TypedKernelModel
  Spec BoxSpec RasterSpec KernelSpec TypedKernelSpec LargeKernelSpec Lemmas IndexProofs BoxIterProofs BoxGeomProofs AccessProofs ContainerProofs SamplingProofs
  SeparableProofs KernelProofs TypedKernelProofs InPlaceOrderProofs.
Open Scope Z_scope.

(** Boxes along which no length is negative *)
Definition Weak (f b : list Z) : Prop := Forall2 (fun x y => x <= y + 1) f b.
Definition Legal (bx : box) : Prop := NonEmpty (bfront bx) (bback bx) \/ boxSize bx = 0.

Lemma prod_zero f b : Forall2 (fun x y => x <= y + 1) f b -> NonEmpty f b \/ prod (map2 (fun x y => y - x + 1) f b) = 0.
Proof.
  induction 1 as [|x y f b H1 H2 [IH|IH]]; cbn [map2]; rewrite ?prod_cons.
  - left. constructor.
  - destruct (Z.eq_dec x (y + 1)) as [->|N]; [right; replace (y - (y + 1) + 1) with 0 by lia; lia|]. left. constructor; [lia|auto].
  - right. rewrite IH. lia.
Qed.

Lemma size_prod f b : f <> [] -> length f = length b -> boxSize (mkBox f b) = prod (map2 (fun x y => y - x + 1) f b).
Proof.
  intros Hne Hl. rewrite boxSize_prod by auto. now rewrite boxShape_map2.
Qed.

Lemma legal_weak f b : f <> [] -> Weak f b -> Legal (mkBox f b).
Proof.
  intros Hne H. destruct (prod_zero f b H) as [N|N]; [now left|right]. rewrite size_prod; auto. now apply Forall2_len in H.
Qed.

Lemma weak_inner s f b : length f = length s -> Forall2 (fun x y => x <= 0 <= y) f b -> AtMostOneLonger s f b -> Weak (ifront f) (iback s b).
Proof.
  intros Hl Hw. revert s Hl. induction Hw as [|x y f b H Hw IH]; intros [|s0 s] Hl HA; cbn in Hl; try lia; [constructor|].
  unfold AtMostOneLonger in HA. cbn [combine] in HA. inversion HA as [|? ? ? ? A1 A2]; subst. cbn [fst snd map combine] in *. constructor; [lia|]. apply IH; auto.
Qed.

Lemma Between_split f1 : forall b1 f2 b2 p, length f1 = length b1 -> Between (f1 ++ f2) (b1 ++ b2) p -> exists p1 p2, p = p1 ++ p2 /\ Between f1 b1 p1 /\ Between f2 b2 p2.
Proof.
  induction f1 as [|x f1 IH]; intros [|y b1] f2 b2 p Hl H; cbn in Hl; try lia.
  - exists [], p. split; [reflexivity|]. split; [constructor|exact H].
  - cbn [app] in H. inversion H as [|? ? z ? ? p' Hz H']; subst. destruct (IH b1 f2 b2 p' ltac:(lia) H') as (p1 & p2 & -> & B1 & B2).
    exists (z :: p1), p2. split; [reflexivity|]. split; [now constructor|auto].
Qed.

Lemma Between_joined f1 b1 f2 b2 p1 p2 : Between f1 b1 p1 -> Between f2 b2 p2 -> Between (f1 ++ f2) (b1 ++ b2) (p1 ++ p2).
Proof. intros H1 H2. induction H1; cbn [app]; auto. constructor; auto. Qed.

Lemma inner_in_domain s f b p : length f = length s -> Forall2 (fun x y => x <= 0 <= y) f b -> Between (ifront f) (iback s b) p -> InDomain s p.
Proof.
  intros Hl Hw Hp. destruct (Forall2_split _ _ Hw) as (_ & Hf & Hb). apply (inner_domain s f b); auto. apply Forall2_len in Hw. congruence.
Qed.

(** The boxes of the axes from a given one on *)
Lemma surroundLoop_wide f b mf2 : forall mb2 s2 mf1 mb1 (s1 : list Z) f1 b1 out, f = mf1 ++ mf2 -> b = mb1 ++ mb2 ->
  length mf1 = length s1 -> length mb1 = length s1 -> length f1 = length s1 -> length b1 = length s1 -> NonEmpty f1 b1 -> length mf2 = length s2 -> Positive s2 ->
  Forall2 (fun x y => x <= 0 <= y) mf2 mb2 -> AtMostOneLonger s2 mf2 mb2 ->
  exists cur new,
    surroundLoop (mkBox f b) (seq (length s1) (length s2)) (mkBox (f1 ++ ifront mf2) (b1 ++ iback s2 mb2), out) = Ok (cur, out ++ new) /\
    Forall Legal new /\ Forall (fun bx => bfront bx <> []) new /\
    (forall p1 p2, Between f1 b1 p1 -> InDomain s2 p2 -> ~ Between (ifront mf2) (iback s2 mb2) p2 -> exists a, In a new /\ InBox a (p1 ++ p2)) /\
    (forall a p, In a new -> InBox a p -> exists p1 p2, p = p1 ++ p2 /\ Between f1 b1 p1 /\ InDomain s2 p2).
Proof.
  induction mf2 as [|mf mf2 IH]; intros [|mb mb2] [|s0 s2] mf1 mb1 s1 f1 b1 out -> -> L1 L2 L3 L4 N1 L5 Hs Hw HA; cbn in L5; try lia; try (now inversion Hw).
  - eexists _, []. cbn. rewrite !app_nil_r. split; [reflexivity|]. split; [constructor|]. split; [constructor|]. split; [|intros a p []].
    intros p1 p2 _ D2 C. exfalso. apply C. inversion D2. constructor.
  - inversion Hw as [|? ? ? ? Hm Hw']; subst. inversion Hs as [|? ? Hs0 Hs']; subst. unfold AtMostOneLonger in HA. cbn [combine] in HA. inversion HA as [|? ? ? ? A1 A2]; subst. cbn [fst snd] in A1.
    cbn [map combine fst snd] in *. cbn [length seq surroundLoop]. rewrite <- L3. rewrite surroundAxis_exact by lia. cbn [bind]. rewrite L3.
    replace (- mf + mf) with 0 by lia. replace (s0 - 1 - mb + mb) with (s0 - 1) by lia. replace (s0 - 1 - mb + 1) with (s0 - mb) by lia.
    set (new := (if mf <? 0 then _ else _) ++ (if 0 <? mb then _ else _)).
    assert (A : forall (l : list Z) z r, (l ++ [z]) ++ r = l ++ z :: r) by (intros; now rewrite <- app_assoc).
    destruct (IH mb2 s2 (mf1 ++ [mf]) (mb1 ++ [mb]) (s1 ++ [s0]) (f1 ++ [0]) (b1 ++ [s0 - 1]) (out ++ new))
      as (cur & new' & E' & G1 & G4 & G2 & G3); try (now rewrite A); try (rewrite !app_length; cbn; lia); auto; try lia.
    { apply Forall2_app; auto. constructor; [lia|constructor]. }
    rewrite !A in E'. replace (length (s1 ++ [s0])) with (S (length s1)) in * by (rewrite app_length; cbn; lia).
    assert (Hwk := weak_inner s2 mf2 mb2 ltac:(lia) Hw' A2).
    assert (Nf1 : NonEmpty f1 b1 -> Weak f1 b1) by (clear; induction 1; constructor; auto; lia).
    exists cur, (new ++ new'). split; [rewrite app_assoc; exact E'|]. split; [|split; [|split]].
    2: { apply Forall_app. split; [|auto]. unfold new. apply Forall_app.
         split; [destruct (mf <? 0)|destruct (0 <? mb)]; constructor; try constructor; destruct f1; discriminate. }
    + apply Forall_app. split; [|auto]. unfold new. apply Forall_app. split.
      * destruct (mf <? 0) eqn:E; constructor; [|constructor]. apply legal_weak; [destruct f1; discriminate|]. apply Forall2_app; [now apply Nf1|]. constructor; [lia|exact Hwk].
      * destruct (0 <? mb) eqn:E; constructor; [|constructor]. apply legal_weak; [destruct f1; discriminate|]. apply Forall2_app; [now apply Nf1|]. constructor; [lia|exact Hwk].
    + intros p1 p2 B1 D2 C. inversion D2 as [|? z ? p2' Hz D2']; subst.
      assert (Dec : Between (ifront mf2) (iback s2 mb2) p2' \/ ~ Between (ifront mf2) (iback s2 mb2) p2').
      { destruct (in_dec (list_eq_dec Z.eq_dec) p2' (positions (ifront mf2) (iback s2 mb2))) as [I|I]; [left; now apply In_positions|right; now rewrite <- In_positions]. }
      destruct Dec as [I|I].
      * assert (Hz' : z < - mf \/ s0 - 1 - mb < z). { destruct (Z_lt_le_dec z (- mf)); auto. destruct (Z_lt_le_dec (s0 - 1 - mb) z); auto. exfalso. apply C. constructor; auto. }
        destruct Hz' as [Hz'|Hz'].
        -- exists (mkBox (f1 ++ 0 :: ifront mf2) (b1 ++ (- mf - 1) :: iback s2 mb2)). split.
           ++ apply in_or_app. left. unfold new. replace (mf <? 0) with true by lia. now left.
           ++ apply Between_joined; auto. constructor; [lia|auto].
        -- exists (mkBox (f1 ++ (s0 - mb) :: ifront mf2) (b1 ++ (s0 - 1) :: iback s2 mb2)). split.
           ++ apply in_or_app. left. unfold new. replace (0 <? mb) with true by lia. apply in_or_app. right. now left.
           ++ apply Between_joined; auto. constructor; [lia|auto].
      * destruct (G2 (p1 ++ [z]) p2') as (a & Ha & Hp); auto.
        { apply Between_joined; auto. constructor; [lia|constructor]. }
        exists a. split; [apply in_or_app; now right|]. now rewrite A in Hp.
    + intros a p Ha Hp. apply in_app_or in Ha as [Ha|Ha].
      * assert (K : forall u v, a = mkBox (f1 ++ u :: ifront mf2) (b1 ++ v :: iback s2 mb2) -> 0 <= u -> v <= s0 - 1 -> exists p1 p2, p = p1 ++ p2 /\ Between f1 b1 p1 /\ InDomain (s0 :: s2) p2).
        { intros u v -> Hu Hv'. apply Between_split in Hp as (p1 & p2 & -> & B1 & B2); [|lia]. exists p1, p2. split; [auto|]. split; [auto|].
          inversion B2 as [|? ? z ? ? p2' Hz B2']; subst. constructor; [lia|]. apply (inner_in_domain s2 mf2 mb2); auto. }
        unfold new in Ha. apply in_app_or in Ha as [Ha|Ha].
        -- destruct (mf <? 0) eqn:E; [|destruct Ha]. destruct Ha as [<-|[]]. apply (K _ _ eq_refl); lia.
        -- destruct (0 <? mb) eqn:E; [|destruct Ha]. destruct Ha as [<-|[]]. apply (K _ _ eq_refl); lia.
      * destruct (G3 a p Ha Hp) as (q1 & q2 & -> & B1 & D2). apply Between_split in B1 as (r1 & r2 & -> & B1 & B2); [|lia].
        inversion B2 as [|? ? z ? ? r3 Hz B3]; subst. inversion B3; subst. exists r1, (z :: q2). split; [apply A|]. split; [auto|]. constructor; [lia|auto].
Qed.

(** Boxes without positions are skipped *)
Lemma size_zero_positions bx : Legal bx -> bfront bx <> [] -> boxSize bx = 0 \/ Nonempty bx /\ boxSize bx <> 0.
Proof.
  intros [N|E] Hne; [|now left]. destruct bx as [u v]. cbn [bfront bback] in *. right. split; [now apply Nonempty_iff|].
  rewrite boxSize_count by auto. destruct (positions_hd _ _ N) as [L ->]. cbn. lia.
Qed.

Section Typed.
Context {X V : Type} (zero : V) (inner : V -> V -> X -> res V) (border : V -> V -> V -> res V) (store : X -> res V) (back : V -> res X).

Lemma exts_skip n values window ext L : Forall Legal L -> Forall (fun bx => bfront bx <> []) L ->
  exists L', (forall bx, In bx L' <-> In bx L /\ Nonempty bx /\ boxSize bx <> 0) /\
    forall fuel out, correlateExtsG zero border store back fuel n values window ext L out = correlateExtsG zero border store back fuel n values window ext L' (out : raster X).
Proof.
  induction L as [|bx L IH]; intros H1 H2.
  - exists []. split; [|reflexivity]. intros bx. split; [intros []|intros ([] & _)].
  - inversion H1 as [|? ? G1 G2]; inversion H2 as [|? ? F1 F2]; subst. destruct IH as (L' & I1 & I2); auto. destruct (Z.eq_dec (boxSize bx) 0) as [E|E].
    + exists L'. split.
      * intros c. rewrite I1. split; [intros (K & K'); split; [now right|auto]|]. intros ([<-|K] & K1 & K2); [contradiction|auto].
      * intros fuel out. cbn [correlateExtsG]. unfold correlateExtG. rewrite E. cbn [Z.eqb obind]. apply I2.
    + exists (bx :: L'). split.
      * intros c. cbn [In]. rewrite I1. split.
        -- intros [<-|(K & K')]; [|split; [now right|auto]]. split; [now left|]. destruct (size_zero_positions bx G1 F1); [contradiction|auto].
        -- intros ([<-|K] & K'); auto.
      * intros fuel out. cbn [correlateExtsG]. destruct (correlateExtG _ _ _ _ _ _ _ _ _ _ _) as [[o| |]|]; cbn [obind]; auto.
Qed.

(** Writes of the values of a function, possibly several times *)
Lemma writes_value (val : list Z -> res X) s : forall ps vs mem, Forall (InDomain s) ps -> Z.of_nat (length mem) = prod s -> mapRes val ps = Ok vs ->
  forall p, In p ps -> zget (writes mem (map (rank s) ps) vs) (rank s p) = val p.
Proof.
  induction ps as [|q ps IH]; intros vs mem HD Hm E p Hp; [destruct Hp|]. inversion HD as [|? ? D1 D2]; subst. cbn [mapRes] in E.
  destruct (val q) as [v| |] eqn:Ev; cbn [bind] in E; try discriminate. destruct (mapRes val ps) as [ws| |] eqn:Ew; cbn [bind] in E; try discriminate. injection E as <-.
  cbn [map writes]. destruct (in_dec (list_eq_dec Z.eq_dec) p ps) as [I|I].
  - apply IH; auto. now rewrite replace_length.
  - destruct Hp as [->|Hp]; [|contradiction]. rewrite writes_other.
    + rewrite Ev. eapply zset_get_eq. apply zset_ok. rewrite Hm. now apply rank_bounds.
    + intros C. apply in_map_iff in C as (r & Er & Hr). apply I. rewrite Forall_forall in D2. replace p with r; auto. apply (rank_inj s); auto.
    + apply Forall_forall. intros a Ha. apply in_map_iff in Ha as (r & <- & Hr). rewrite replace_length, Hm. apply rank_bounds. rewrite Forall_forall in D2. auto.
Qed.

Section Assembly.
Variables (n s0 : Z) (s' : list Z) (f0 : Z) (f' : list Z) (b0 : Z) (b' : list Z) (values : list V) (data : list X) (ext : list Z -> res X) (image : list Z -> X).
Let s := s0 :: s'.
Let f := f0 :: f'.
Let b := b0 :: b'.
Hypothesis Hn : n = Z.of_nat (length s).
Hypothesis Hs : Positive s.
Hypothesis HL : LargeWindow s0 s' f0 f' b0 b'.
Hypothesis Hv : Z.of_nat (length values) = windowSize f b.
Hypothesis Hext : forall q, length q = length s -> ext q = Ok (image q).

Lemma large_window : Forall2 (fun x y => x <= 0 <= y) f b /\ length f = length s /\ length b = length s.
Proof.
  destruct HL as (H1 & H2 & H3 & _). split; [now constructor|]. unfold f, b, s. cbn [length]. apply Forall2_len in H2. split; congruence.
Qed.

Lemma one_longer_empty : OneLonger s' f' b' -> ~ NonEmpty (ifront f') (iback s' b').
Proof.
  intros (i & Hi & E) N. assert (L' : length f' = length s' /\ length b' = length s') by (destruct large_window as (_ & L1 & L2); cbn in L1, L2; lia). clear - Hi E N L'.
  destruct L' as (L1 & L2). revert s' f' b' Hi E N L1 L2. induction i as [|i IH]; intros [|u s] [|x f] [|y b] Hi E N L1 L2; cbn in *; try lia.
  - inversion N; subst. cbn in *. lia.
  - inversion N; subst. apply (IH s f b); auto; lia.
Qed.

(** The first axis: the boxes of which nothing is out of the domain *)
Lemma large_no_inner : ~ NonEmpty (ifront f) (iback s b).
Proof.
  intros N. unfold f, s, b in N. cbn [map combine fst snd] in N. inversion N as [|? ? ? ? N1 N2]; subst. destruct HL as (H1 & _ & _ & _ & [H|[H|H]]); [|lia|lia].
  now apply one_longer_empty in H.
Qed.

Lemma large_inner fuel out : WF out -> rshape out = s -> (length (positions (- f0 :: ifront f') (- f0 :: iback s' b')) < fuel)%nat ->
  correlateInnerG zero inner back fuel n values (mkBox f b) (mkRaster s data) (mkBox (ifront f) (iback s b)) out = Some (Ok (out : raster X)).
Proof.
  intros Hwf Hshape Hfuel. destruct large_window as (Hw & Hlen & Hlb). assert (NI := large_no_inner). unfold correlateInnerG.
  destruct (boxSize (mkBox (ifront f) (iback s b)) =? 0) eqn:Esz; [reflexivity|].
  assert (Lfi : length (ifront f) = length (iback s b)) by (rewrite !map_length, combine_length; lia).
  rewrite size_prod in Esz by (try discriminate; auto).
  destruct HL as (H1 & H2 & H3 & H4 & H5). assert (Hwk := weak_inner s' f' b' H3 H2 H4).
  unfold f, b, s in Esz. cbn [map combine fst snd map2] in Esz. rewrite prod_cons in Esz.
  destruct (prod_zero _ _ Hwk) as [N'|N']; [|rewrite N' in Esz; lia].
  assert (Hneg : s0 - 1 - b0 - - f0 + 1 <= 0).
  { destruct (Z_le_gt_dec (s0 - 1 - b0 - - f0 + 1) 0); auto. exfalso. apply NI. unfold f, b, s. cbn [map combine fst snd]. constructor; [lia|auto]. }
  unfold f, b, s. cbn [map combine fst snd]. unfold boxLength, project. cbn [bfront bback rshape rdata]. rewrite !zget_cons_0. cbn [bind].
  rewrite zset_ok by (cbn [length]; lia). cbn [bind lift obind Z.to_nat replace bfront bback].
  replace (b0 - f0 + 1 =? 0) with false by lia. rewrite Hshape. rewrite rindex_rank; [|discriminate|unfold s; cbn [length]; rewrite map_length; lia]. cbn [lift obind].
  rewrite boxForeach_positions; [|discriminate|constructor; [lia|auto]|auto]. cbn [obind].
  replace (Z.to_nat (s0 - 1 - b0 - - f0 + 1)) with O by lia.
  assert (HP : Forall (fun p => length s = length p) (positions (- f0 :: ifront f') (- f0 :: iback s' b'))).
  { apply Forall_forall. intros p Hp. apply In_positions, Between_length in Hp. cbn [length] in Hp. rewrite map_length in Hp. unfold s. cbn [length]. lia. }
  generalize 0 at 1 as i0. intros i0.
  assert (G : forall ps inIt d, Forall (fun p => length s = length p) ps ->
    rowsLoopG zero inner back n s ps 0 values data (Z.to_nat (Z.quot (boxSize (mkBox (f0 :: f') (b0 :: b'))) (b0 - f0 + 1))) (b0 - f0 + 1) s0 (rank s (- f0 :: ifront f')) inIt d = Ok d).
  { induction ps as [|p ps IH]; intros inIt d Hp; cbn [rowsLoopG]; auto. inversion Hp; subst. rewrite rindex_rank by (auto; discriminate). cbn [bind rowLoopG fst snd]. auto. }
  rewrite G by auto. cbn [lift obind]. destruct out. cbn in *. now rewrite Hshape.
Qed.

(** The boxes around the inner box *)
Lemma large_boxes : exists L, surround (mkBox (ifront f) (iback s b)) (mkBox f b) = Ok L /\ Forall Legal L /\ Forall (fun bx => bfront bx <> []) L /\
  (forall p, InDomain s p -> exists bx, In bx L /\ InBox bx p) /\ (forall bx p, In bx L -> InBox bx p -> InDomain s p).
Proof.
  destruct large_window as (Hw & Hlen & Hlb). destruct HL as (H1 & H2 & H3 & H4 & H5). inversion Hs as [|? ? Hs0 Hs']; subst.
  assert (Hwk := weak_inner s' f' b' H3 H2 H4).
  assert (No : OneLonger s' f' b' -> forall p, ~ Between (ifront f') (iback s' b') p).
  { intros H p Hp. apply one_longer_empty in H. apply H. now apply (Between_NonEmpty _ _ p). }
  set (fb := if f0 <? 0 then [mkBox (0 :: ifront f') (- f0 - 1 :: iback s' b')] else []).
  set (bb := if 0 <? b0 then [mkBox (s0 - b0 :: ifront f') (s0 - 1 :: iback s' b')] else []).
  destruct (surroundLoop_wide f b f' b' s' [f0] [b0] [s0] [0] [s0 - 1] (fb ++ bb)) as (cur & new & E & G1 & G4 & G2 & G3); auto.
  { constructor; [lia|constructor]. }
  exists ((fb ++ bb) ++ new).
  assert (Hfront : forall bx, In bx (fb ++ bb) -> exists u v, bx = mkBox (u :: ifront f') (v :: iback s' b') /\ u <= v + 1 /\ (OneLonger s' f' b' \/ (0 <= u /\ v <= s0 - 1))).
  { intros bx Hbx. apply in_app_or in Hbx as [Hbx|Hbx]; unfold fb, bb in Hbx.
    - destruct (f0 <? 0) eqn:E1; [|destruct Hbx]. destruct Hbx as [<-|[]]. eexists _, _. split; [reflexivity|]. split; [lia|]. destruct H5 as [H5|[H5|H5]]; [now left|right; lia|right; lia].
    - destruct (0 <? b0) eqn:E1; [|destruct Hbx]. destruct Hbx as [<-|[]]. eexists _, _. split; [reflexivity|]. split; [lia|]. destruct H5 as [H5|[H5|H5]]; [now left|right; lia|right; lia]. }
  assert (Hne : forall bx p, In bx new -> InBox bx p -> InDomain s p).
  { intros bx p Hbx Hp. destruct (G3 bx p Hbx Hp) as (p1 & p2 & -> & B1 & D2). inversion B1 as [|? ? z ? ? q Hz B']; subst. inversion B'; subst. cbn [app]. constructor; [lia|auto]. }
  split; [|split; [|split; [|split]]].
  - unfold surround, boxDim, f, s, b. cbn [bfront map combine fst snd length seq surroundLoop]. 
    assert (Ax := surroundAxis_exact [] f0 f' [] b0 b' [] (- f0) (ifront f') [] (s0 - 1 - b0) (iback s' b') [] eq_refl eq_refl eq_refl H1).
    cbn [app length] in Ax. rewrite Ax. cbn [bind]. replace (- f0 + f0) with 0 by lia. replace (s0 - 1 - b0 + b0) with (s0 - 1) by lia. replace (s0 - 1 - b0 + 1) with (s0 - b0) by lia.
    fold fb bb. rewrite map_length, H3. unfold f, b in E. cbn [app length] in E. rewrite E. reflexivity.
  - apply Forall_app. split; [|auto]. apply Forall_forall. intros bx Hbx. destruct (Hfront bx Hbx) as (u & v & -> & Huv & _). apply legal_weak; [discriminate|]. constructor; auto.
  - apply Forall_app. split; apply Forall_forall; intros bx Hbx.
    + destruct (Hfront bx Hbx) as (u & v & -> & _). discriminate.
    + rewrite Forall_forall in G4. auto.
  - intros p Hp. inversion Hp as [|? z ? p' Hz Hp']; subst.
    destruct (in_dec (list_eq_dec Z.eq_dec) p' (positions (ifront f') (iback s' b'))) as [I|I]; rewrite In_positions in I.
    + assert (Hc : z <= - f0 - 1 \/ s0 - b0 <= z).
      { destruct H5 as [H5|H5]; [destruct (No H5 p' I)|]. lia. }
      destruct Hc as [Hc|Hc].
      * exists (mkBox (0 :: ifront f') (- f0 - 1 :: iback s' b')). split; [apply in_or_app; left; apply in_or_app; left|].
        -- unfold fb. replace (f0 <? 0) with true by lia. now left.
        -- constructor; [lia|auto].
      * exists (mkBox (s0 - b0 :: ifront f') (s0 - 1 :: iback s' b')). split; [apply in_or_app; left; apply in_or_app; right|].
        -- unfold bb. replace (0 <? b0) with true by lia. now left.
        -- constructor; [lia|auto].
    + destruct (G2 [z] p') as (bx & Hbx & Hpx); auto. { constructor; [lia|constructor]. }
      exists bx. split; [apply in_or_app; now right|auto].
  - intros bx p Hbx Hp. apply in_app_or in Hbx as [Hbx|Hbx]; [|eauto]. destruct (Hfront bx Hbx) as (u & v & -> & _ & Huv).
    inversion Hp as [|? ? z ? ? p' Hz Hp']; subst. destruct Huv as [Huv|Huv]; [destruct (No Huv p' Hp')|]. constructor; [lia|]. apply (inner_in_domain s' f' b'); auto.
Qed.

Lemma large_exact out : (forall a k x, NoThrow (inner a k x)) -> (forall a k x, NoThrow (border a k x)) -> (forall x, NoThrow (store x)) -> (forall v, NoThrow (back v)) ->
  WF out -> rshape out = s ->
  exists r enough, (forall fuel, (enough <= fuel)%nat -> correlateToG zero inner border store back fuel n values (mkBox f b) (mkRaster s data) ext out = Some r) /\
    ((r = UB /\ exists p, InDomain s p /\ borderResult zero border store back values (windowPixels f b image p) = UB) \/
     exists out', r = Ok out' /\ WF out' /\ rshape out' = s /\
       forall p, InDomain s p -> exists v, borderResult zero border store back values (windowPixels f b image p) = Ok v /\ zget (rdata out') (rank s p) = Ok v).
Proof.
  intros N1 N2 N3 N4 Hwf Hshape. destruct large_window as (Hw & Hlen & Hlb). destruct (inner_box n s f b Hn Hlen Hlb) as (I1 & I2 & I3).
  destruct large_boxes as (L & EL & LL & NL & CL & DL).
  set (value := fun p => borderResult zero border store back values (windowPixels f b image p)).
  assert (GL : exists L', (forall bx, In bx L' <-> In bx L /\ Nonempty bx /\ boxSize bx <> 0) /\
    forall fuel (o : raster X), correlateExtsG zero border store back fuel n values (mkBox f b) ext L o = correlateExtsG zero border store back fuel n values (mkBox f b) ext L' o).
  { destruct (exts_skip n values (mkBox f b) ext L LL NL) as (L' & A & B). eauto. }
  destruct GL as (L' & HL' & EE). set (Q := boxesPositions L').
  assert (HQ : forall p, In p Q <-> InDomain s p).
  { intros p. unfold Q, boxesPositions. rewrite in_flat_map. split.
    - intros (bx & Hbx & Hp). apply HL' in Hbx as (Hbx & _). apply (DL bx); auto. apply In_positions in Hp. exact Hp.
    - intros Hp. destruct (CL p Hp) as (bx & Hbx & Hpx). exists bx. split; [|now apply In_positions]. apply HL'. split; [auto|].
      rewrite Forall_forall in LL, NL. assert (Nb : NonEmpty (bfront bx) (bback bx)) by (now apply (Between_NonEmpty _ _ p)).
      destruct bx as [u v]. cbn [bfront bback] in *. split; [now apply Nonempty_iff|]. rewrite boxSize_count by (auto; now apply (NL (mkBox u v))).
      destruct (positions_hd _ _ Nb) as [l ->]. cbn. lia. }
  assert (Hout := Hwf). destruct Hout as (W1 & W2 & W3). rewrite Hshape in W3.
  exists (vs <- mapRes value Q ;; Ok (mkRaster s (writes (rdata out) (map (rank s) Q) vs))),
    (S (length (positions (- f0 :: ifront f') (- f0 :: iback s' b')) + (length values + length Q))). split.
  - intros fuel Hfuel. unfold correlateToG. cbn [rshape]. rewrite I1. cbn [lift obind]. rewrite I2, EL. cbn [lift obind].
    rewrite large_inner by (auto; lia). cbn [obind]. rewrite EE. rewrite (ext_boxesG zero inner border store back n values f b ext image); auto.
    + now rewrite Hshape.
    + discriminate.
    + now destruct (Forall2_split _ _ Hw).
    + rewrite Hlen. exact Hext.
    + apply Forall_forall. intros bx Hbx. now apply HL' in Hbx.
    + intros bx p Hbx Hp. rewrite Hshape. apply HL' in Hbx as (Hbx & _). eauto.
    + rewrite Hshape. lia.
    + fold Q. lia.
  - destruct (mapRes_cases value Q) as [(vs & E)|(E & p & Hp & Ep)].
    { intros p _. now apply (borderResult_nothrow zero inner). }
    + right. rewrite E. cbn [bind]. eexists. split; [reflexivity|]. cbn [rshape rdata]. split; [|split; [reflexivity|]].
      { split; [discriminate|]. cbn [rshape rdata]. split; [rewrite <- Hshape; auto|]. now rewrite writes_length. }
      intros p Hp. assert (Hv' := writes_value value s Q vs (rdata out) ltac:(apply Forall_forall; intros q; apply HQ) W3 E p (proj2 (HQ p) Hp)).
      assert (Hok : exists v, value p = Ok v).
      { apply mapRes_Forall2 in E. apply HQ in Hp. clear - E Hp. induction E as [|x y l l' Hxy E IH]; [destruct Hp|]. destruct Hp as [->|Hp]; eauto. }
      destruct Hok as (v & Ev). exists v. split; [exact Ev|congruence].
    + left. rewrite E. split; [reflexivity|]. exists p. split; [now apply HQ|exact Ep].
Qed.
End Assembly.

(** One axis, and a window which goes out of the raster on one side by more than its length *)
Section Outside.
Variables (s f0 b0 : Z) (values : list V) (data : list X) (ext : list Z -> res X) (image : list Z -> X).
Hypothesis Hs : 0 < s.
Hypothesis Hw : f0 <= 0 <= b0.
Hypothesis Hv : Z.of_nat (length values) = b0 - f0 + 1.
Hypothesis Hext : forall z, ext [z] = Ok (image [z]).

Let value p := borderResult zero border store back values (windowPixels [f0] [b0] image p).

Lemma positions_1 x y : positions [x] [y] = map (fun z => [z]) (zrange x y).
Proof. cbn [positions flat_map]. now rewrite app_nil_r. Qed.

Lemma out_pixel z out buffer fuel : rshape out = [s] -> length buffer = length values -> (length values < fuel)%nat ->
  exists buffer', length buffer' = length values /\
    extPixelG zero border store back fuel 1 values (mkBox [f0] [b0]) ext [z] out buffer =
    Some (v <- value [z] ;; o <- rset 1 out [z] v ;; Ok (o, buffer')).
Proof.
  intros Hshape Hb Hf. assert (Hfb : NonEmpty [f0] [b0]) by (constructor; [lia|constructor]). unfold extPixelG, boxShift. cbn [bfront bback].
  assert (Elen : length (positions [f0] [b0]) = length values) by (rewrite positions_1, map_length; assert (L := zrange_length f0 b0); lia).
  rewrite boxForeach_positions; [|discriminate|now apply NonEmpty_shift|rewrite positions_shift, map_length by auto; lia].
  rewrite positions_shift by auto. cbn [obind lift].
  assert (EM : mapRes (fun q => x <- ext q ;; store x) (map (fun q => vadd q [z]) (positions [f0] [b0])) = mapRes store (windowPixels [f0] [b0] image [z])).
  { unfold windowPixels. rewrite !mapRes_map. apply mapRes_ext. intros q Hq. apply In_positions in Hq. inversion Hq as [|? ? y ? ? q' Hy Hq']; subst. inversion Hq'; subst.
    cbn [vadd map2 combine map fst snd]. rewrite Hext. cbn [bind]. now rewrite (Z.add_comm y z). }
  rewrite EM. unfold value, borderResult. change (@converted X V) with (@mapRes X V). destruct (mapRes store (windowPixels [f0] [b0] image [z])) as [vs|e|] eqn:E; cbn [obind bind].
  - assert (Lvs : length vs = length values) by (apply mapRes_length in E; unfold windowPixels in E; rewrite map_length in E; lia).
    rewrite Hb, Lvs. rewrite Nat.ltb_irrefl. rewrite <- Hb, skipn_all, app_nil_r, Hb. exists vs. split; [auto|].
    rewrite (innerLoopG_spec border values vs (length values) 0 0 zero values vs).
    + destruct (weighted border zero (combine values vs)) as [w| |]; cbn [obind bind]; auto. destruct (back w) as [v| |]; cbn [obind bind lift]; auto.
      destruct (rset 1 out [z] v); reflexivity.
    + rewrite Z.add_0_l. apply mapRes_all.
    + rewrite Z.add_0_l, <- Lvs. apply mapRes_all.
  - exists buffer. split; [auto|reflexivity].
  - exists buffer. split; [auto|reflexivity].
Qed.

Lemma rset_1 (out : raster X) z v : WF out -> rshape out = [s] ->
  (0 <= z < s /\ exists o, rset 1 out [z] v = Ok o /\ WF o /\ rshape o = [s]) \/ (~ 0 <= z < s /\ rset 1 out [z] v = UB).
Proof.
  intros (W1 & W2 & W3) Hshape. unfold rset. rewrite Hshape in *. rewrite rindex_rank by (auto; discriminate). cbn [bind]. unfold rank. cbn [rankFrom].
  replace (z * 1 + 0) with z by lia. replace (prod [s]) with s in W3 by (cbn; lia). destruct (Z_le_gt_dec 0 z) as [H1|H1]; [destruct (Z_lt_le_dec z s) as [H2|H2]|].
  - left. split; [lia|]. rewrite zset_ok by lia. cbn [bind]. eexists. split; [reflexivity|]. cbn [rshape]. split; [|auto]. split; [auto|]. split; [auto|]. cbn [rshape rdata].
    rewrite replace_length, W3. unfold prod. cbn [fold_right]. lia.
  - right. split; [lia|]. unfold zset. replace ((z <? 0) || (Z.of_nat (length (rdata out)) <=? z)) with true by lia. reflexivity.
  - right. split; [lia|]. unfold zset. replace ((z <? 0) || (Z.of_nat (length (rdata out)) <=? z)) with true by lia. reflexivity.
Qed.

Lemma out_loop zs : (forall p, NoThrow (value p)) -> forall out buffer fuel, WF out -> rshape out = [s] -> length buffer = length values -> (length values < fuel)%nat ->
  (exists z, In z zs /\ ~ 0 <= z < s) ->
  extLoopG zero border store back fuel 1 values (mkBox [f0] [b0]) ext (map (fun z => [z]) zs) out buffer = Some UB.
Proof.
  intros NT. induction zs as [|z zs IH]; intros out buffer fuel Hwf Hshape Hb Hf (y & Hy & Ny); [destruct Hy|].
  cbn [map extLoopG]. destruct (out_pixel z out buffer fuel Hshape Hb Hf) as (buffer' & B' & ->). assert (N := NT [z]).
  destruct (value [z]) as [v|e|]; cbn [bind obind]; [|now destruct (N e)|reflexivity].
  destruct (rset_1 out z v Hwf Hshape) as [(Hz & o & -> & Ho & So)|(_ & ->)]; cbn [bind obind fst snd]; [|reflexivity].
  apply IH; auto. destruct Hy as [->|Hy]; [contradiction|eauto].
Qed.

Lemma in_loop zs : (forall p, NoThrow (value p)) -> forall out buffer fuel, WF out -> rshape out = [s] -> length buffer = length values -> (length values < fuel)%nat ->
  extLoopG zero border store back fuel 1 values (mkBox [f0] [b0]) ext (map (fun z => [z]) zs) out buffer = Some UB \/
  exists o, extLoopG zero border store back fuel 1 values (mkBox [f0] [b0]) ext (map (fun z => [z]) zs) out buffer = Some (Ok o) /\ WF o /\ rshape o = [s].
Proof.
  intros NT. induction zs as [|z zs IH]; intros out buffer fuel Hwf Hshape Hb Hf; [right; exists out; auto|].
  cbn [map extLoopG]. destruct (out_pixel z out buffer fuel Hshape Hb Hf) as (buffer' & B' & ->). assert (N := NT [z]).
  destruct (value [z]) as [v|e|]; cbn [bind obind]; [|now destruct (N e)|now left].
  destruct (rset_1 out z v Hwf Hshape) as [(Hz & o & -> & Ho & So)|(_ & ->)]; cbn [bind obind fst snd]; [|now left]. auto.
Qed.

Lemma outside_undefined out : (forall a k x, NoThrow (inner a k x)) -> (forall a k x, NoThrow (border a k x)) -> (forall x, NoThrow (store x)) -> (forall v, NoThrow (back v)) ->
  s < - f0 \/ s < b0 -> WF out -> rshape out = [s] ->
  exists enough, forall fuel, (enough <= fuel)%nat -> correlateToG zero inner border store back fuel 1 values (mkBox [f0] [b0]) (mkRaster [s] data) ext out = Some UB.
Proof.
  intros N1 N2 N3 N4 Ho Hwf Hshape. exists (S (S (length values) + Z.to_nat (b0 - f0 + 1))). intros fuel Hfuel.
  assert (NT : forall p, NoThrow (value p)) by (intros p; now apply (borderResult_nothrow zero inner)).
  destruct (inner_box 1 [s] [f0] [b0] eq_refl eq_refl eq_refl) as (I1 & I2 & _). unfold correlateToG. cbn [rshape]. rewrite I1. cbn [lift obind]. rewrite I2. cbn [map combine fst snd].
  assert (Ax := surroundAxis_exact [] f0 [] [] b0 [] [] (- f0) [] [] (s - 1 - b0) [] [] eq_refl eq_refl eq_refl Hw).
  unfold surround, boxDim. cbn [app length bfront seq surroundLoop] in *. rewrite Ax. cbn [bind lift obind snd].
  replace (- f0 + f0) with 0 by lia. replace (s - 1 - b0 + b0) with (s - 1) by lia. replace (s - 1 - b0 + 1) with (s - b0) by lia.
  assert (EI : correlateInnerG zero inner back fuel 1 values (mkBox [f0] [b0]) (mkRaster [s] data) (mkBox [- f0] [s - 1 - b0]) out = Some (Ok out)).
  { unfold correlateInnerG. rewrite size_prod by (try discriminate; auto). cbn [map2]. rewrite prod_cons. change (prod []) with 1.
    destruct (_ =? 0) eqn:E; [reflexivity|]. unfold boxLength, project. cbn [bfront bback rshape rdata]. rewrite !zget_cons_0. cbn [bind].
    rewrite zset_ok by (cbn [length]; lia). cbn [bind lift obind Z.to_nat replace bfront bback]. replace (b0 - f0 + 1 =? 0) with false by lia.
    rewrite Hshape, rindex_rank by (auto; discriminate). cbn [lift obind]. rewrite boxForeach_positions; [|discriminate|constructor; [lia|constructor]|].
    2: { rewrite positions_1, map_length. assert (L := zrange_length (- f0) (- f0)). lia. }
    cbn [obind]. rewrite positions_1. rewrite (zrange_cons (- f0)) by lia. rewrite zrange_empty by lia. cbn [map rowsLoopG]. rewrite rindex_rank by (auto; discriminate). cbn [bind].
    replace (Z.to_nat (s - 1 - b0 - - f0 + 1)) with O by lia. cbn [rowLoopG bind lift obind fst snd]. destruct out. cbn in *. now rewrite Hshape. }
  rewrite EI. cbn [obind].
  assert (EB : forall u v o, WF o -> rshape o = [s] -> u <= v -> v - u + 1 <= b0 - f0 + 1 ->
    correlateExtG zero border store back fuel 1 values (mkBox [f0] [b0]) ext (mkBox [u] [v]) o =
    extLoopG zero border store back fuel 1 values (mkBox [f0] [b0]) ext (map (fun z => [z]) (zrange u v)) o (repeat zero (length values))).
  { intros u v o _ _ Huv Hl. unfold correlateExtG. rewrite size_prod by (try discriminate; auto). cbn [map2]. rewrite prod_cons. change (prod []) with 1.
    replace (_ =? 0) with false by lia. rewrite boxForeach_positions; [|discriminate|constructor; [lia|constructor]|].
    - cbn [obind]. now rewrite positions_1.
    - rewrite positions_1, map_length. assert (L := zrange_length u v). lia. }
  assert (Hback : forall o, WF o -> rshape o = [s] -> s < b0 ->
    correlateExtsG zero border store back fuel 1 values (mkBox [f0] [b0]) ext (if 0 <? b0 then [mkBox [s - b0] [s - 1]] else []) o = Some UB).
  { intros o Wo So Hb0. replace (0 <? b0) with true by lia. cbn [correlateExtsG]. rewrite EB by (auto; lia). rewrite (out_loop _ NT); auto; [now rewrite repeat_length|lia|].
    exists (s - b0). split; [apply In_zrange; lia|lia]. }
  destruct (f0 <? 0) eqn:Ef; cbn [app].
  - cbn [correlateExtsG]. rewrite EB by (auto; lia). destruct (Z_lt_le_dec s (- f0)) as [C|C].
    + rewrite (out_loop _ NT); auto; [now rewrite repeat_length|lia|]. exists s. split; [apply In_zrange; lia|lia].
    + destruct (in_loop (zrange 0 (- f0 - 1)) NT out (repeat zero (length values)) fuel) as [->|(o & -> & Wo & So)]; auto; [now rewrite repeat_length|lia|].
      cbn [obind]. apply Hback; auto. lia.
  - apply Hback; auto. lia.
Qed.
End Outside.

(** Windows which are longer than the raster along another axis *)
Lemma kernel_neverG n shape f b values data ext out fuel : shape <> [] -> n = Z.of_nat (length shape) -> Positive shape ->
  length f = length shape -> Forall2 (fun x y => x <= 0 <= y) f b -> rshape out = shape ->
  Forall2 (fun w s => w <> s + 1) (wshape f b) shape -> (exists i, (0 < i)%nat /\ nth i shape 0 + 1 < nth i (wshape f b) 0) ->
  correlateToG zero inner border store back fuel n values (mkBox f b) (mkRaster shape data) ext (out : raster X) = None.
Proof.
  intros Hne Hn Hs Hlen Hw Hshape Hsz (i & Hi & Hbig).
  assert (Lb : length b = length shape) by (rewrite <- Hlen; symmetry; now apply Forall2_len in Hw).
  destruct (inner_box n shape f b Hn Hlen Lb) as (I1 & I2 & I3). destruct (Forall2_split f b Hw) as (Hfb & Hf & Hb).
  unfold correlateToG. cbn [rshape]. rewrite I1. cbn [lift obind]. rewrite I2.
  assert (Hsur : exists L, surround (mkBox (ifront f) (iback shape b)) (mkBox f b) = Ok L).
  { assert (G : forall axes cur out, (forall i, In i axes -> (i < length f)%nat) -> length (bfront cur) = length f -> length (bback cur) = length f ->
      exists st, surroundLoop (mkBox f b) axes (cur, out) = Ok st).
    { clear - Hlen Lb. induction axes as [|a axes IH]; intros cur out Ha H1 H2; [eexists; reflexivity|]. cbn [surroundLoop]. unfold surroundAxis. cbn [bfront bback].
      assert (La : (a < length f)%nat) by (apply Ha; now left).
      destruct (zget_in_range f (Z.of_nat a) ltac:(lia)) as [u ->]. cbn [bind]. destruct (zget_in_range (bfront cur) (Z.of_nat a) ltac:(lia)) as [cf ->].
      destruct (zget_in_range b (Z.of_nat a) ltac:(lia)) as [v ->].
      assert (Ha' : forall i, In i axes -> (i < length f)%nat) by (intros; apply Ha; now right).
      destruct (u <? 0); cbn [bind]; [rewrite !zset_ok by lia; cbn [bind]|];
        (destruct (0 <? v); cbn [bfront bback];
          [destruct (zget_in_range (bback cur) (Z.of_nat a) ltac:(lia)) as [cb ->]; cbn [bind]; rewrite !zset_ok by (rewrite ?replace_length; lia)|]; cbn [bind];
          apply IH; auto; cbn [bfront bback]; rewrite ?replace_length; lia). }
    unfold surround, boxDim. cbn [bfront]. destruct (G (seq 0 (length (ifront f))) (mkBox (ifront f) (iback shape b)) []) as (st & ->).
    - intros j Hj. apply in_seq in Hj. rewrite map_length in Hj. lia.
    - cbn. now rewrite map_length.
    - cbn. rewrite map_length, combine_length. lia.
    - cbn [bind]. eexists. reflexivity. }
  destruct Hsur as (L & ->). cbn [lift obind].
  assert (Hzero : boxSize (mkBox (ifront f) (iback shape b)) <> 0).
  { rewrite boxSize_prod; [|destruct f; [destruct shape; [congruence|discriminate]|discriminate]|rewrite !map_length, combine_length; lia].
    rewrite boxShape_map2. clear - Hsz Hlen Lb. revert f b Hlen Lb Hsz. induction shape as [|l s IH]; intros [|x f] [|y b] H1 H2 H; cbn in H1, H2; try lia.
    - cbn. lia.
    - cbn [combine map fst snd map2]. rewrite prod_cons. cbn [combine map fst snd] in H. inversion H as [|? ? ? ? N H']; subst. specialize (IH f b ltac:(lia) ltac:(lia) H').
      apply Z.neq_mul_0. split; [lia|exact IH]. }
  assert (Ei : correlateInnerG zero inner back fuel n values (mkBox f b) (mkRaster shape data) (mkBox (ifront f) (iback shape b)) out = None); [|rewrite Ei; reflexivity].
  unfold correlateInnerG. replace (boxSize _ =? 0) with false by lia.
  destruct shape as [|s0 s']; [congruence|]. destruct f as [|f0 f']; [discriminate|]. destruct b as [|b0 b']; [discriminate|].
  unfold boxLength, project. cbn [map combine fst snd bfront bback rshape rdata]. rewrite !zget_cons_0. cbn [bind].
  rewrite zset_ok by (cbn [length]; lia). cbn [bind lift obind Z.to_nat replace bfront bback].
  assert (Hfb0 : f0 <= b0) by (inversion Hfb; auto). replace (b0 - f0 + 1 =? 0) with false by lia.
  rewrite Hshape. rewrite rindex_rank; [|discriminate|cbn [length]; rewrite map_length; cbn in Hlen; lia]. cbn [lift obind].
  rewrite boxForeach_empty; [reflexivity|discriminate|cbn; rewrite !map_length, combine_length; cbn in Hlen, Lb; lia|].
  cbn [bfront bback]. intros C. inversion C as [|? ? ? ? _ C']; subst. destruct i as [|i]; [lia|]. cbn [combine map nth fst snd] in Hbig.
  clear - C' Hbig Hlen Lb. cbn in Hlen, Lb. injection Hlen as Hlen. injection Lb as Lb. revert f' b' i Hlen Lb C' Hbig.
  induction s' as [|l s IH]; intros [|x f] [|y b] i H1 H2 C H; cbn in H1, H2; try lia.
  - destruct i; cbn in H; lia.
  - cbn [combine map fst snd] in C, H. inversion C as [|? ? ? ? N C']; subst. destruct i as [|i]; cbn [nth] in H; [lia|]. apply (IH f b i); auto; lia.
Qed.
End Typed.

(** Witnesses *)
Lemma large_met : LargeWindow 2 [3] (-1) [-1] 2 [1].
Proof.
  split; [lia|]. split; [repeat constructor; lia|]. split; [reflexivity|]. split; [constructor; [cbn; lia|constructor]|]. right. right. lia.
Qed.
