(** Proofs about ND kernels in place. *)
From Verif Require Import Res VecModel BoxModel RasterModel SamplingModel LineKernelModel SeparableModel KernelModel TypedKernelModel InterpModel InPlaceKernelModel
  Spec BoxSpec RasterSpec KernelSpec TypedKernelSpec InPlaceKernelSpec Lemmas IndexProofs BoxIterProofs BoxGeomProofs AccessProofs ContainerProofs SamplingProofs SeparableProofs KernelProofs TypedKernelProofs.
From Coq Require Import Sorting.Sorted.
Open Scope Z_scope.

(** Reads from an address on *)
Definition AgreeFrom {X} (a : Z) (m m' : list X) : Prop := forall i, a <= i -> zget m i = zget m' i.

Section Loops.
Context {X V : Type} (zero : V) (inner : V -> V -> X -> res V) (border : V -> V -> V -> res V) (store : X -> res V) (back : V -> res X)
  (view : raster X -> list Z -> res X).

Lemma innerLoop_agree values (m m' : list X) k : forall a i acc, AgreeFrom i m m' ->
  innerLoopG inner k values m a i acc = innerLoopG inner k values m' a i acc.
Proof.
  induction k as [|k IH]; intros a i acc H; cbn [innerLoopG]; auto.
  destruct (zget values a); cbn [bind]; auto. rewrite (H i) by lia. destruct (zget m' i); cbn [bind]; auto.
  destruct (inner _ _ _); cbn [bind]; auto. apply IH. intros j Hj. apply H. lia.
Qed.

Lemma rowSum_agree values (m m' : list X) kW inW rows : 0 <= inW -> forall kIt inIt acc, AgreeFrom inIt m m' ->
  rowSumG inner rows values m kIt inIt kW inW acc = rowSumG inner rows values m' kIt inIt kW inW acc.
Proof.
  intros HW. induction rows as [|rows IH]; intros kIt inIt acc H; cbn [rowSumG]; auto.
  rewrite (innerLoop_agree _ m m') by auto. destruct (innerLoopG _ _ _ _ _ _ _); cbn [bind]; auto.
  apply IH. intros j Hj. apply H. lia.
Qed.

Lemma rowLoop_same values (m0 : list X) rows kW inW : 0 <= inW -> forall pixels outIt inIt mem, AgreeFrom inIt mem m0 -> inIt <= outIt ->
  rowLoopS zero inner back pixels values rows kW inW 0 outIt inIt mem = rowLoopG zero inner back pixels values m0 rows kW inW 0 outIt inIt mem /\
  forall i mem', rowLoopG zero inner back pixels values m0 rows kW inW 0 outIt inIt mem = Ok (i, mem') -> AgreeFrom i mem' m0 /\ i <= outIt + Z.of_nat pixels.
Proof.
  intros HW. induction pixels as [|pixels IH]; intros outIt inIt mem HA HI; cbn [rowLoopS rowLoopG].
  - split; [reflexivity|]. intros i mem' [= <- <-]. split; [auto|lia].
  - rewrite (rowSum_agree values mem m0) by auto. destruct (rowSumG _ _ _ _ _ _ _ _ _) as [s| |]; cbn [bind]; try (split; [reflexivity|discriminate]).
    destruct (back s) as [v| |]; cbn [bind]; try (split; [reflexivity|discriminate]).
    destruct (zset mem outIt v) as [mem1| |] eqn:E; cbn [bind]; try (split; [reflexivity|discriminate]).
    destruct (IH (outIt + 1) (outIt + 1 - 0) mem1) as (E1 & E2); [|lia|].
    + intros j Hj. rewrite (zset_get_neq mem mem1 outIt j v) by (auto; lia). apply HA. lia.
    + split; [exact E1|]. intros i mem' E'. destruct (E2 i mem' E'). split; [auto|lia].
Qed.

Lemma rowsLoop_same n shape values (m0 : list X) rows kW inW pixels : shape <> [] -> 0 <= inW -> forall ps inIt mem, AgreeFrom inIt mem m0 ->
  Forall (fun p => length shape = length p) ps -> Forall (fun p => inIt <= rank shape p) ps -> StronglySorted (fun p q => rank shape p + Z.of_nat pixels <= rank shape q) ps ->
  rowsLoopS zero inner back n shape ps pixels values rows kW inW 0 inIt mem = rowsLoopG zero inner back n shape ps pixels values m0 rows kW inW 0 inIt mem.
Proof.
  intros Hs HW. induction ps as [|p ps IH]; intros inIt mem HA HL HI HS; cbn [rowsLoopS rowsLoopG]; auto.
  inversion HL as [|? ? L1 L2]; subst. inversion HI as [|? ? I1 I2]; subst. inversion HS as [|? ? S1 S2]; subst.
  rewrite rindex_rank by auto. cbn [bind]. destruct (rowLoop_same values m0 rows kW inW HW pixels (rank shape p) inIt mem HA I1) as (E1 & E2). rewrite E1.
  destruct (rowLoopG _ _ _ _ _ _ _ _ _ _ _ _ _) as [[i mem']| |]; cbn [bind fst snd]; auto.
  destruct (E2 i mem' eq_refl) as (A1 & A2). apply IH; auto. rewrite Forall_forall in S2 |- *. intros q Hq. specialize (S2 q Hq). lia.
Qed.

(** Borders *)
Lemma ext_pixel_inv fuel n values window ext p out buffer out' buffer' :
  extPixelG zero border store back fuel n values window ext p out buffer = Some (Ok (out', buffer')) -> exists v : X, rset n out p v = Ok out'.
Proof.
  unfold extPixelG. destruct (boxForeach fuel (boxShift window p)) as [[qs| |]|]; cbn [obind]; try discriminate.
  destruct (mapRes _ qs) as [xs| |]; cbn [lift obind]; try discriminate. destruct (Nat.ltb _ _); [discriminate|].
  destruct (innerLoopG _ _ _ _ _ _ _) as [s| |]; cbn [lift obind]; try discriminate.
  destruct (back s) as [v| |]; cbn [bind lift obind]; try discriminate. destruct (rset n out p v) as [o| |] eqn:E; cbn [lift obind]; try discriminate.
  intros [= <- _]. eauto.
Qed.

Lemma mapRes_ext_in {A B} (f g : A -> res B) l : (forall a, In a l -> f a = g a) -> mapRes f l = mapRes g l.
Proof.
  induction l as [|a l IH]; intros H; cbn [mapRes]; auto. rewrite (H a) by (now left). rewrite IH; auto. intros; apply H. now right.
Qed.

Lemma ext_pixel_same fuel n values f b ext ext' p (out : raster X) buffer : p <> [] -> NonEmpty f b -> length p = length f -> (length (positions f b) < fuel)%nat ->
  Forall (fun x => 0 <= x) f -> (forall q, AtOrAfter p q -> ext q = ext' q) ->
  extPixelG zero border store back fuel n values (mkBox f b) ext p out buffer = extPixelG zero border store back fuel n values (mkBox f b) ext' p out buffer.
Proof.
  intros Hp Hfb Lp Hfuel Hf H. unfold extPixelG, boxShift. cbn [bfront bback].
  assert (Lb : length b = length f) by (symmetry; now apply Forall2_len in Hfb).
  assert (N : NonEmpty (vadd f p) (vadd b p)).
  { clear - Hfb Lp. unfold vadd. revert p Lp. induction Hfb as [|x y f b Hxy Hfb IH]; intros [|z p] Lp; cbn in *; try discriminate; constructor; [lia|]. apply IH. lia. }
  rewrite boxForeach_positions; auto.
  - cbn [obind]. rewrite (mapRes_ext_in (fun q => x <- ext q ;; store x) (fun q => x <- ext' q ;; store x)); auto.
    intros q Hq. rewrite H; auto. apply In_positions in Hq. clear - Hf Lp Hq. unfold vadd in Hq. unfold AtOrAfter. revert p b q Lp Hq.
    induction Hf as [|x f Hx Hf IH]; intros [|z p] [|y b] q Lp Hq; cbn in *; try discriminate; inversion Hq; subst; constructor; [lia|]. apply (IH p b); auto.
  - destruct f as [|x f], p as [|z p]; cbn in *; try congruence; discriminate.
  - eapply Nat.le_lt_trans; [|exact Hfuel]. clear - Lp Hfb. unfold vadd. revert p Lp. induction Hfb as [|x y f b Hxy Hfb IH]; intros [|z p] Lp; cbn in *; try discriminate; [lia|].
    specialize (IH p ltac:(lia)).
    assert (G : forall u v (L : list (list Z)), length (flat_map (fun q => map (fun z => z :: q) (zrange u v)) L) = (Z.to_nat (v - u + 1) * length L)%nat).
    { clear. intros u v L. induction L as [|q L IH]; cbn [flat_map length]; [lia|]. rewrite app_length, map_length, IH. assert (Zl := zrange_length u v). nia. }
    rewrite !G. replace (y + z - (x + z) + 1) with (y - x + 1) by lia. nia.
Qed.

Lemma ext_loop_same fuel n values f b r (done : list Z -> Prop) : rshape r <> [] -> WF r -> NonEmpty f b -> length (rshape r) = length f -> (length (positions f b) < fuel)%nat ->
  Forall (fun x => 0 <= x) f -> LooksAhead n (rshape r) view -> forall ps out buffer, WF out -> rshape out = rshape r ->
  Forall (InDomain (rshape r)) ps -> StronglySorted lexLt ps ->
  forall prev : list (list Z), (forall p q, In p prev -> In q ps -> lexLt p q) ->
  (forall y, InDomain (rshape r) y -> ~ done y -> ~ In y prev -> rget n out y = rget n r y) ->
  (forall p y, In p ps -> AtOrAfter p y -> ~ done y) ->
  extLoopS zero border store back view fuel n values (mkBox f b) ps out buffer = extLoopG zero border store back fuel n values (mkBox f b) (view r) ps out buffer /\
  forall out', extLoopG zero border store back fuel n values (mkBox f b) (view r) ps out buffer = Some (Ok out') ->
    WF out' /\ rshape out' = rshape r /\ forall y, InDomain (rshape r) y -> ~ done y -> ~ In y prev -> ~ In y ps -> rget n out' y = rget n r y.
Proof.
  intros Hne Wr Hfb Lf Hfuel Hf HV. induction ps as [|p ps IH]; intros out buffer Wo So HD HS prev HP HG HA; cbn [extLoopS extLoopG].
  - split; [reflexivity|]. intros out' [= <-]. auto.
  - inversion HD as [|? ? D1 D2]; subst. inversion HS as [|? ? S1 S2]; subst.
    assert (Lp : length p = length f) by (apply InDomain_length in D1; lia).
    assert (Hp : p <> []) by (destruct p; [|discriminate]; destruct f; [|discriminate]; destruct (rshape r); [congruence|discriminate]).
    rewrite (ext_pixel_same fuel n values f b (view out) (view r) p out buffer); auto.
    + destruct (extPixelG _ _ _ _ _ _ _ _ _ _ _ _) as [[[out1 buffer1]| |]|] eqn:E; cbn [obind fst snd]; try (split; [reflexivity|discriminate]).
      apply ext_pixel_inv in E as (v & E). destruct (rset_domain n out p v Wo) as (o & Eo & W1 & Sh1 & _ & Ho); [now rewrite So|].
      rewrite Eo in E. injection E as <-. rewrite So in Sh1, Ho.
      destruct (IH o buffer1 W1 Sh1 D2 S1 (p :: prev)) as (E1 & E2).
      * intros q q' [<-|Hq] Hq'; [rewrite Forall_forall in S2; auto|]. apply HP; [auto|now right].
      * intros y Hy Hd Hpr. rewrite Ho; auto; [|intros ->; apply Hpr; now left]. apply HG; auto. intros C. apply Hpr. now right.
      * intros p' y Hp'. apply HA. now right.
      * split; [exact E1|]. intros out' E'. destruct (E2 out' E') as (W2 & Sh2 & G2). split; [auto|]. split; [auto|].
        intros y Hy Hd Hpr Hps. apply G2; auto; [|intros C; apply Hps; now right]. intros [<-|C]; [apply Hps; now left|contradiction].
    + intros q Hq. apply (HV out r p q); auto. intros y Hy Hpy. apply HG; auto.
      * apply (HA p y); [now left|auto].
      * intros C. specialize (HP y p C (or_introl eq_refl)). clear - HP Hpy. unfold AtOrAfter in Hpy. induction Hpy as [|a c p y Hac Hpy IHp]; cbn [lexLt] in HP; [auto|].
        destruct HP as [HP|(_ & HP)]; [auto|lia].
Qed.

(** No position at or after one of a box is in a former box *)
Fixpoint Ahead (done : list Z -> Prop) (bs : list box) : Prop :=
  match bs with
  | [] => True
  | b :: bs' => (forall p y, InBox b p -> AtOrAfter p y -> ~ done y) /\ Ahead (fun y => done y \/ InBox b y) bs'
  end.

Lemma ext_boxes_same fuel n values f b r : rshape r <> [] -> WF r -> NonEmpty f b -> length (rshape r) = length f -> (length (positions f b) < fuel)%nat ->
  Forall (fun x => 0 <= x) f -> LooksAhead n (rshape r) view -> forall bs (done : list Z -> Prop) out, WF out -> rshape out = rshape r -> Ahead done bs ->
  Forall Nonempty bs -> (forall bx p, In bx bs -> InBox bx p -> InDomain (rshape r) p) -> (length (boxesPositions bs) < fuel)%nat ->
  (forall y, InDomain (rshape r) y -> ~ done y -> rget n out y = rget n r y) ->
  correlateExtsS zero border store back view fuel n values (mkBox f b) bs out = correlateExtsG zero border store back fuel n values (mkBox f b) (view r) bs out.
Proof.
  intros Hne Wr Hfb Lf Hfuel Hf HV. induction bs as [|bx bs IH]; intros done out Wo So HA HN HD HF HG; cbn [correlateExtsS correlateExtsG]; auto.
  destruct HA as (A1 & A2). inversion HN as [|? ? N1 N2]; subst. unfold boxesPositions in HF. cbn [flat_map] in HF. rewrite app_length in HF.
  unfold correlateExtS, correlateExtG. destruct bx as [cf cb]. cbn [bfront bback] in HF.
  destruct (boxSize (mkBox cf cb) =? 0) eqn:E0.
  - exfalso. apply Nonempty_iff in N1. cbn [bfront bback] in N1. assert (cf <> []).
    { intros ->. inversion N1; subst. assert (I : InBox (mkBox [] []) []) by constructor. apply HD in I; [|now left]. apply InDomain_length in I.
      destruct (rshape r); [congruence|discriminate]. }
    rewrite boxSize_count in E0 by auto. destruct (positions_hd _ _ N1) as [L EL]. rewrite EL in E0. cbn in E0. lia.
  - apply Nonempty_iff in N1. cbn [bfront bback] in N1. assert (Hcf : cf <> []).
    { intros ->. inversion N1; subst. assert (I : InBox (mkBox [] []) []) by constructor. apply HD in I; [|now left]. apply InDomain_length in I.
      destruct (rshape r); [congruence|discriminate]. }
    rewrite boxForeach_positions by (auto; lia). cbn [obind].
    destruct (ext_loop_same fuel n values f b r done Hne Wr Hfb Lf Hfuel Hf HV (positions cf cb) out (repeat zero (length values)) Wo So) with (prev := @nil (list Z)) as (E1 & E2); auto.
    + apply Forall_forall. intros p Hp. apply In_positions in Hp. apply (HD (mkBox cf cb)); [now left|exact Hp].
    + apply positions_sorted.
    + intros p q [].
    + intros p y Hp Hy. apply In_positions in Hp. apply (A1 p y); auto.
    + rewrite E1. destruct (extLoopG _ _ _ _ _ _ _ _ _ _ _ _) as [[out'| |]|]; cbn [obind]; auto.
      destruct (E2 out' eq_refl) as (W' & S' & G'). apply (IH (fun y => done y \/ InBox (mkBox cf cb) y)); auto; try lia.
      * intros bx p Hbx. apply HD. now right.
      * unfold boxesPositions. lia.
      * intros y Hy Hd. apply G'; auto. intros C. apply Hd. right. now apply In_positions in C.
Qed.
End Loops.

Lemma Ahead_mono bs : forall d d' : list Z -> Prop, (forall y, d' y -> d y) -> Ahead d bs -> Ahead d' bs.
Proof.
  induction bs as [|b bs IH]; intros d d' H; cbn [Ahead]; auto. intros (A1 & A2). split.
  - intros p y Hp Hy Hd. apply (A1 p y); auto.
  - eapply IH; [|exact A2]. cbn. intros y [Hy|Hy]; auto.
Qed.

Lemma Ahead_app bs bs' : forall d : list Z -> Prop, Ahead d bs -> Ahead (fun y => d y \/ exists a, In a bs /\ InBox a y) bs' -> Ahead d (bs ++ bs').
Proof.
  induction bs as [|b bs IH]; intros d A1 A2; cbn [Ahead app] in *.
  - eapply Ahead_mono; [|exact A2]. cbn. auto.
  - destruct A1 as (B1 & B2). split; [auto|]. apply IH; [auto|]. eapply Ahead_mono; [|exact A2]. cbn. intros y [[H|H]|(a & Ha & H)]; eauto.
Qed.

Lemma Forall2_after_mid f1 : forall b1 z f2 b2 x y p q, length f1 = length b1 -> Between (f1 ++ x :: f2) (b1 ++ y :: b2) q -> Forall2 Z.le p q ->
  forall p1 p2, p = p1 ++ z :: p2 -> length p1 = length f1 -> z <= y.
Proof.
  induction f1 as [|u f1 IH]; intros [|w b1] z f2 b2 x y p q L B F p1 p2 -> Lp; cbn in *; try discriminate.
  - destruct p1; [|discriminate]. cbn in F. inversion F; subst. inversion B; subst. lia.
  - destruct p1 as [|a p1]; [discriminate|]. cbn in F. inversion F; subst. inversion B; subst. eapply (IH b1); eauto.
Qed.

Lemma surroundLoop_ahead mf2 : forall mb2 f2 b2 mf1 mb1 f1 b1 out,
  length mf1 = length f1 -> length mb1 = length f1 -> length b1 = length f1 ->
  length mf2 = length f2 -> length mb2 = length f2 -> length b2 = length f2 ->
  Forall (fun x => x = 0) mf2 -> Forall (fun x => 0 <= x) mb2 -> NonEmpty f1 b1 -> NonEmpty f2 b2 ->
  exists cur new,
    surroundLoop (mkBox (mf1 ++ mf2) (mb1 ++ mb2)) (seq (length f1) (length f2)) (mkBox (f1 ++ f2) (b1 ++ b2), out) = Ok (cur, out ++ new) /\
    Ahead (InBox (mkBox (f1 ++ f2) (b1 ++ b2))) new.
Proof.
  induction mf2 as [|mf mf2 IH]; intros [|mb mb2] [|x f2] [|y b2] mf1 mb1 f1 b1 out Hmf1 Hmb1 Hb1 Hmf Hmb Hb Hneg Hpos Hne1 Hne2;
    cbn in Hmf, Hmb, Hb; try lia.
  - eexists _, []. cbn. rewrite !app_nil_r. auto.
  - inversion Hneg as [|? ? Hmf0 Hneg']; subst. inversion Hpos as [|? ? Hmb0 Hpos']; subst.
    inversion Hne2 as [|? ? ? ? Hxy Hne2']; subst.
    destruct (surroundAxis_spec mf1 0 mf2 mb1 mb mb2 f1 x f2 b1 y b2 out) as (new & E & N & D & C & L); auto; [lia|].
    cbn [length seq surroundLoop]. rewrite E. cbn [bind].
    destruct (IH mb2 f2 b2 (mf1 ++ [0]) (mb1 ++ [mb]) (f1 ++ [x + 0]) (b1 ++ [y + mb]) (out ++ new))
      as (cur & new' & E' & A'); try (rewrite ?app_length; cbn; lia); auto.
    { apply Forall2_app; auto. repeat constructor. lia. }
    assert (A : forall (l : list Z) z r, (l ++ [z]) ++ r = l ++ z :: r) by (intros; now rewrite <- app_assoc).
    rewrite !(A mf1), !(A mb1), !(A f1), !(A b1) in E'. rewrite !(A f1), !(A b1) in A'.
    replace (length (f1 ++ [x + 0])) with (S (length f1)) in E' by (rewrite app_length; cbn; lia).
    exists cur, (new ++ new'). split; [rewrite E'; now rewrite app_assoc|].
    apply Ahead_app; [|eapply Ahead_mono; [|exact A']; cbn; intros q Hq; now apply C].
    assert (K : forall a p q, In a new -> InBox a p -> AtOrAfter p q -> ~ InBox (mkBox (f1 ++ x :: f2) (b1 ++ y :: b2)) q).
    { intros a p q Ha Hp Hq Hc.
      assert (Hg : InBox (mkBox (f1 ++ (x + 0) :: f2) (b1 ++ (y + mb) :: b2)) p) by (apply C; eauto).
      apply Between_mid_inv in Hg as (p1 & z & p2 & -> & H1 & Hz & H2); auto.
      assert (z <= y). { eapply (Forall2_after_mid f1 b1 z); eauto. apply Between_length in H1. lia. }
      inversion D as [|? ? D1 D2]; subst. rewrite Forall_forall in D1. apply (D1 a Ha (p1 ++ z :: p2)); auto. apply Between_mid; auto. lia. }
    unfold sides in L. replace (0 <? 0) with false in L by reflexivity. destruct new as [|a [|a' new]]; cbn [Ahead].
    + exact I.
    + split; [|exact I]. intros p q Hp. eapply K; [now left|exact Hp].
    + exfalso. destruct (0 <? mb); cbn in L; lia.
Qed.

Lemma surround_ahead f b mf mb L : length mf = length f -> length mb = length f -> NonEmpty f b ->
  Forall (fun x => x = 0) mf -> Forall (fun x => 0 <= x) mb -> surround (mkBox f b) (mkBox mf mb) = Ok L -> Ahead (InBox (mkBox f b)) L.
Proof.
  intros Hmf Hmb Hne Hz Hpos E. pose proof (Forall2_len _ _ _ Hne) as Hlen.
  destruct (surroundLoop_ahead mf mb f b [] [] [] [] []) as (cur & new & E' & A); auto; try constructor.
  cbn [app length] in E', A. unfold surround, boxDim in E. cbn [bfront] in E. rewrite E' in E. cbn [bind snd] in E. injection E as <-. exact A.
Qed.

Lemma rows_apart s0 s' pixels x ps : 0 < s0 -> Z.of_nat pixels <= s0 -> Forall (fun p => InDomain (s0 :: s') p /\ nth 0 p 0 = x) ps -> StronglySorted lexLt ps ->
  StronglySorted (fun p q => rank (s0 :: s') p + Z.of_nat pixels <= rank (s0 :: s') q) ps.
Proof.
  intros H0 Hp HF HS. induction HS as [|p ps HS IH HL]; [constructor|]. inversion HF as [|? ? (D & Ex) HF']; subst. constructor; [auto|].
  rewrite Forall_forall in *. intros q Hq. specialize (HL q Hq). destruct (HF' q Hq) as (D' & Ex').
  assert (R := rank_lexLt _ _ _ D D' HL). inversion D; subst. inversion D'; subst. cbn [nth] in *. subst. rewrite !rank_cons in *.
  match goal with |- _ + s0 * ?a + _ <= _ + s0 * ?c => assert (a < c) by nia; assert (s0 * (a + 1) <= s0 * c) by nia; nia end.
Qed.

Section Whole.
Context {X V : Type} (zero : V) (inner : V -> V -> X -> res V) (border : V -> V -> V -> res V) (store : X -> res V) (back : V -> res X)
  (view : raster X -> list Z -> res X).

Lemma inner_same n s f b values data fuel : s <> [] -> Positive s -> Z.of_nat (length data) = prod s -> length f = length s -> Forall2 (fun x y => x = 0 /\ 0 <= y) f b ->
  NonEmpty (ifront f) (iback s b) -> (length (positions (ifront f) (iback s b)) < fuel)%nat ->
  correlateInnerS zero inner back fuel n values (mkBox f b) (mkBox (ifront f) (iback s b)) (mkRaster s data) =
  correlateInnerG zero inner back fuel n values (mkBox f b) (mkRaster s data) (mkBox (ifront f) (iback s b)) (mkRaster s data).
Proof.
  intros Hne Hs Hd Hlen Hw Hin Hfuel. unfold correlateInnerS, correlateInnerG.
  destruct (boxSize (mkBox (ifront f) (iback s b)) =? 0); auto.
  destruct s as [|s0 s']; [congruence|]. destruct f as [|f0 f']; [discriminate|]. destruct b as [|b0 b']; [inversion Hw|].
  inversion Hw as [|? ? ? ? (-> & Hb0) Hw']; subst.
  assert (Efi : ifront (0 :: f') = 0 :: ifront f') by reflexivity. assert (Ebi : iback (s0 :: s') (b0 :: b') = s0 - 1 - b0 :: iback s' b') by reflexivity.
  assert (E0 : ifront f' = repeat 0 (length f')).
  { clear - Hw'. induction Hw' as [|x y f b (-> & _) _ IH]; cbn in *; auto. now f_equal. }
  rewrite Efi, Ebi in Hfuel |- *. rewrite Efi, Ebi in Hin. unfold boxLength, project. cbn [bfront bback rshape rdata].
  rewrite !zget_cons_0. cbn [bind]. rewrite zset_ok by (cbn [length]; lia). cbn [bind lift obind Z.to_nat replace bfront bback].
  destruct (b0 - 0 + 1 =? 0); auto.
  rewrite rindex_rank; [|discriminate|cbn [length]; rewrite map_length; cbn in Hlen; lia]. cbn [lift obind].
  assert (ER : rank (s0 :: s') (0 :: ifront f') = 0).
  { rewrite rank_cons, E0. assert (G : forall k s, rank s (repeat 0 k) = 0). { clear. induction k as [|k IH]; intros [|z s]; cbn [repeat]; auto. rewrite rank_cons, IH. lia. } rewrite G. lia. }
  rewrite ER. assert (Hbx : NonEmpty (0 :: ifront f') (0 :: iback s' b')) by (constructor; [lia|]; inversion Hin; auto).
  assert (Lb : length (b0 :: b') = length (s0 :: s')) by (rewrite <- Hlen; symmetry; now apply Forall2_len in Hw).
  assert (Dom : forall p, Between (0 :: ifront f') (0 :: iback s' b') p -> InDomain (s0 :: s') p /\ nth 0 p 0 = 0).
  { intros p Hp. destruct p as [|z p]; [inversion Hp|]. assert (z = 0) by (apply Between_cons_iff in Hp; lia). subst. split; [|reflexivity].
    apply (inner_domain (s0 :: s') (0 :: f') (b0 :: b')); auto.
    - clear - Hw. remember (0 :: f') as f. clear Heqf. induction Hw as [|x y f b (-> & _)]; constructor; auto. lia.
    - clear - Hw. remember (0 :: f') as f. clear Heqf. induction Hw as [|x y f b (_ & H)]; constructor; auto.
    - rewrite Efi, Ebi. apply Between_cons_iff in Hp as (_ & Hp). apply Between_cons_iff. split; [|auto]. inversion Hin; subst. lia. }
  rewrite boxForeach_positions; [|discriminate|auto|].
  - cbn [obind]. rewrite rowsLoop_same with (m0 := data); auto; try discriminate.
    + inversion Hs; lia.
    + intros i _. reflexivity.
    + apply Forall_forall. intros p Hp. apply In_positions, Dom in Hp as (Hp & _). now apply InDomain_length in Hp.
    + apply Forall_forall. intros p Hp. apply In_positions, Dom in Hp as (Hp & _). now apply rank_bounds in Hp.
    + apply rows_apart with (x := 0).
      * inversion Hs; lia.
      * inversion Hs; lia.
      * apply Forall_forall. intros p Hp. apply In_positions in Hp. auto.
      * apply positions_sorted.
  - eapply Nat.le_lt_trans; [|exact Hfuel]. cbn [positions].
    assert (G : forall x y y' (L : list (list Z)), y <= y' -> (length (flat_map (fun q => map (fun z => z :: q) (zrange x y)) L) <= length (flat_map (fun q => map (fun z => z :: q) (zrange x y')) L))%nat).
    { clear. intros x y y' L H. induction L as [|q L IH]; cbn [flat_map]; [lia|]. rewrite !app_length, !map_length. assert (Z1 := zrange_length x y). assert (Z2 := zrange_length x y'). lia. }
    apply G. inversion Hin; auto.
Qed.

Lemma self_same n s f b values data : n = Z.of_nat (length s) -> s <> [] -> Positive s -> Z.of_nat (length data) = prod s -> length f = length s ->
  Forall2 (fun x y => x = 0 /\ 0 <= y) f b -> (exists p, length p = length s /\ Inner s f b p) -> LooksAhead n s view ->
  exists enough, forall fuel, (enough <= fuel)%nat ->
    correlateSelfG zero inner border store back view fuel n values (mkBox f b) (mkRaster s data) =
    correlateToG zero inner border store back fuel n values (mkBox f b) (mkRaster s data) (view (mkRaster s data)) (mkRaster s data).
Proof.
  intros Hn Hne Hs Hd Hlen Hw (c & Lc & Hc) HV.
  assert (Hw' : Forall2 (fun x y => x <= 0 <= y) f b) by (clear - Hw; induction Hw as [|x y f b (-> & H) _ IH]; constructor; auto; lia).
  assert (Lb : length b = length s) by (rewrite <- Hlen; symmetry; now apply Forall2_len in Hw).
  assert (Hin : NonEmpty (ifront f) (iback s b)) by (apply (Between_NonEmpty _ _ c); now apply inner_iff).
  destruct (inner_box n s f b Hn Hlen Lb) as (I1 & I2 & I3). destruct (Forall2_split _ _ Hw') as (Hfb & Hf & Hb).
  assert (Hf0 : Forall (fun x => x = 0) f) by (clear - Hw; induction Hw as [|x y f b (-> & _)]; constructor; auto).
  assert (Hfp : Forall (fun x => 0 <= x) f) by (eapply Forall_impl; [|exact Hf0]; cbn; intros; lia).
  destruct (surround_partition (ifront f) (iback s b) f b) as (L & EL & NL & DL & CL & _); try (rewrite map_length; lia); auto.
  { now apply Nonempty_iff. }
  rewrite I3 in CL.
  assert (HA := surround_ahead (ifront f) (iback s b) f b L ltac:(rewrite map_length; lia) ltac:(rewrite map_length; lia) Hin Hf0 Hb EL).
  assert (Wr : WF (mkRaster s data)) by (split; [auto|]; cbn [rshape rdata]; split; [eapply Forall_impl; [|exact Hs]; cbn; intros; lia|auto]).
  exists (S (length (positions (ifront f) (iback s b)) + (length (positions f b) + length (boxesPositions L)))). intros fuel Hfuel.
  unfold correlateSelfG, correlateToG. cbn [rshape]. rewrite I1. cbn [lift obind]. rewrite I2, EL. cbn [lift obind].
  rewrite inner_same by (auto; lia).
  destruct data as [|x data'] eqn:Ed.
  { exfalso. cbn in Hd. assert (P := prod_pos s Hs). lia. }
  rewrite <- Ed in *. destruct s as [|s0 s']; [congruence|]. destruct f as [|f0 f']; [discriminate|]. destruct b as [|b0 b']; [discriminate|].
  rewrite (inner_specG zero inner border store back n s0 s' f0 f' b0 b' values data (fun _ => Ok x) (fun _ => x)); auto; try lia.
  destruct (mapRes _ _) as [vs| |]; cbn [bind obind]; auto.
  apply (ext_boxes_same zero inner border store back view) with (done := InBox (mkBox (ifront (f0 :: f')) (iback (s0 :: s') (b0 :: b')))); cbn [rshape]; auto; try lia.
  - split; [auto|]. cbn [rshape rdata]. split; [apply Wr|]. now rewrite writes_length.
  - intros bx p Hbx Hp. apply InBox_domain. apply CL. eauto.
  - intros y Hy Hdn. unfold rget. cbn [rshape rdata]. rewrite rindex_rank by (auto; now apply InDomain_length in Hy). cbn [bind].
    assert (DP : forall p, In p (positions (ifront (f0 :: f')) (iback (s0 :: s') (b0 :: b'))) -> InDomain (s0 :: s') p).
    { intros p Hp. apply In_positions in Hp. now apply (inner_domain _ _ _ _ Hlen Lb Hf Hb). }
    apply writes_other.
    + intros C. apply in_map_iff in C as (p & Ep & Hp). assert (p = y) by (eapply rank_inj; eauto). subst. apply Hdn. now apply In_positions in Hp.
    + apply Forall_forall. intros a Ha. apply in_map_iff in Ha as (q & <- & Hq). rewrite Hd. apply rank_bounds. auto.
Qed.
End Whole.

(** Extrapolations *)
Lemma nearest_ahead {X} n shape : shape <> [] -> Positive shape -> LooksAhead (X := X) n shape (nearestAt n).
Proof.
  intros Hne Hs r r' p q W W' E E' Hp Hq H. unfold nearestAt. rewrite E, E'. destruct (Nat.eqb (length q) (length shape)) eqn:El; auto.
  apply H.
  - clear - Hs Hp Hq El. unfold vclamp. revert p q Hp Hq El. induction Hs as [|s shape Hs0 Hs IH]; intros p q Hp Hq El; inversion Hp; subst; inversion Hq; subst; cbn [map2]; constructor.
    + unfold clampZ. repeat match goal with |- context [?u <? ?w] => destruct (Z.ltb_spec u w) end; lia.
    + eapply IH; eauto.
  - clear - Hp Hq. unfold vclamp, AtOrAfter in *. revert q Hq. induction Hp as [|s x shape p Hx Hp IH]; intros q Hq; inversion Hq; subst; cbn [map2]; constructor; auto.
    unfold clampZ. repeat match goal with |- context [?u <? ?w] => destruct (Z.ltb_spec u w) end; lia.
Qed.

Lemma constant_ahead {X} n shape (value : X) : LooksAhead n shape (constantAt n value).
Proof.
  intros r r' p q W W' E E' Hp Hq H. unfold constantAt.
  assert (Lq : length q = length shape) by (apply InDomain_length in Hp; apply Forall2_len in Hq; congruence).
  assert (EC : contains r q = contains r' q) by (unfold contains; now rewrite E, E').
  rewrite EC. destruct (containsLoop_spec shape q Lq) as (c & Ec & Hiff). unfold contains in EC |- *. rewrite E' in *. rewrite Ec. cbn [bind].
  destruct c; auto. apply H; [|auto]. now apply Hiff.
Qed.

Lemma self_nearest_same {X V} (zero : V) (inner : V -> V -> X -> res V) border store back n s f b values data :
  n = Z.of_nat (length s) -> s <> [] -> Positive s -> Z.of_nat (length data) = prod s -> length f = length s ->
  Forall2 (fun x y => x = 0 /\ 0 <= y) f b -> (exists p, length p = length s /\ Inner s f b p) ->
  exists enough, forall fuel, (enough <= fuel)%nat ->
    correlateSelfG zero inner border store back (nearestAt n) fuel n values (mkBox f b) (mkRaster s data) =
    correlateToG zero inner border store back fuel n values (mkBox f b) (mkRaster s data) (nearestAt n (mkRaster s data)) (mkRaster s data).
Proof. intros. apply self_same; auto. now apply nearest_ahead. Qed.

Lemma self_constant_same {X V} (zero : V) (inner : V -> V -> X -> res V) border store back n s f b values data c :
  n = Z.of_nat (length s) -> s <> [] -> Positive s -> Z.of_nat (length data) = prod s -> length f = length s ->
  Forall2 (fun x y => x = 0 /\ 0 <= y) f b -> (exists p, length p = length s /\ Inner s f b p) ->
  exists enough, forall fuel, (enough <= fuel)%nat ->
    correlateSelfG zero inner border store back (constantAt n c) fuel n values (mkBox f b) (mkRaster s data) =
    correlateToG zero inner border store back fuel n values (mkBox f b) (mkRaster s data) (constantAt n c (mkRaster s data)) (mkRaster s data).
Proof. intros. apply self_same; auto. apply constant_ahead. Qed.

(** Any other output *)
Lemma other_output {X V} (zero : V) (inner : V -> V -> X -> res V) border store back :
  (forall a k x, NoThrow (inner a k x)) -> (forall a k x, NoThrow (border a k x)) -> (forall x, NoThrow (store x)) -> (forall v, NoThrow (back v)) ->
  forall n shape f b values data ext image out out', n = Z.of_nat (length shape) -> Applies shape f b values data ext image ->
  WF out -> rshape out = shape -> WF out' -> rshape out' = shape ->
  exists enough, forall fuel, (enough <= fuel)%nat ->
    correlateToG zero inner border store back fuel n values (mkBox f b) (mkRaster shape data) ext out =
    correlateToG zero inner border store back fuel n values (mkBox f b) (mkRaster shape data) ext out'.
Proof.
  intros N1 N2 N3 N4 n shape f b values data ext image out out' Hn HA W S W' S'.
  destruct (typed_spec zero inner border store back N1 N2 N3 N4 n shape f b values data ext image out Hn HA W S) as (r & e & E & H).
  destruct (typed_spec zero inner border store back N1 N2 N3 N4 n shape f b values data ext image out' Hn HA W' S') as (r' & e' & E' & H').
  exists (Nat.max e e'). intros fuel Hfuel. rewrite E, E' by lia. f_equal.
  assert (U : forall p v w, Gets zero inner border store back shape f b values data image p v -> Gets zero inner border store back shape f b values data image p w -> v = w).
  { intros p. apply (typed_unique zero inner border store back shape f b values data ext image p HA). }
  destruct H as [(-> & p & Hp & G)|(o & -> & Wo & So & G)], H' as [(-> & p' & Hp' & G')|(o' & -> & Wo' & So' & G')]; auto.
  - exfalso. destruct (G' p Hp) as (v & Gv & _). discriminate (U _ _ _ G Gv).
  - exfalso. destruct (G p' Hp') as (v & Gv & _). discriminate (U _ _ _ G' Gv).
  - f_equal. apply (raster_ext n); auto; [congruence|]. rewrite So. intros p Hp. destruct (G p Hp) as (v & Gv & Ev). destruct (G' p Hp) as (v' & Gv' & Ev').
    assert (v = v') by (injection (U _ _ _ Gv Gv'); auto). subst v'. destruct HA as (Hne & _).
    unfold rget. rewrite So, So', !rindex_rank by (auto; now apply InDomain_length in Hp). cbn [bind]. congruence.
Qed.

Lemma self_other {X V} (zero : V) (inner : V -> V -> X -> res V) border store back view :
  (forall a k x, NoThrow (inner a k x)) -> (forall a k x, NoThrow (border a k x)) -> (forall x, NoThrow (store x)) -> (forall v, NoThrow (back v)) ->
  forall n shape f b values data image out, n = Z.of_nat (length shape) -> Applies shape f b values data (view (mkRaster shape data)) image ->
  Forall (fun x => x = 0) f -> LooksAhead n shape view -> WF out -> rshape out = shape ->
  exists enough, forall fuel, (enough <= fuel)%nat ->
    correlateSelfG zero inner border store back view fuel n values (mkBox f b) (mkRaster shape data) =
    correlateToG zero inner border store back fuel n values (mkBox f b) (mkRaster shape data) (view (mkRaster shape data)) out.
Proof.
  intros N1 N2 N3 N4 n shape f b values data image out Hn HA Hf HV W S. assert (HA' := HA). destruct HA as (Hne & Hs & Hdata & Hlen & Hw & Hv & Hc & Hext).
  assert (Hw' : Forall2 (fun x y => x = 0 /\ 0 <= y) f b) by (clear - Hw Hf; induction Hw as [|x y f b H _ IH]; inversion Hf; subst; constructor; auto; lia).
  destruct (self_same zero inner border store back view n shape f b values data) as (e1 & E1); auto.
  destruct (other_output zero inner border store back N1 N2 N3 N4 n shape f b values data (view (mkRaster shape data)) image (mkRaster shape data) out) as (e2 & E2); auto.
  { split; [auto|]. cbn [rshape rdata]. split; [eapply Forall_impl; [|exact Hs]; cbn; intros; lia|auto]. }
  exists (Nat.max e1 e2). intros fuel Hfuel. rewrite E1 by lia. apply E2. lia.
Qed.

(** Examples *)
Lemma nine_met : LooksAhead 2 [3; 3] (nearestAt (A := Z) 2) /\ Positive [3; 3] /\ Forall2 (fun x y => x = 0 /\ 0 <= y) [0; 0] [1; 1] /\ Inner [3; 3] [0; 0] [1; 1] [0; 0] /\
  selfCorrelate (nearestAt 2) 20 2 [1; 1; 1; 1] (mkBox [0; 0] [1; 1]) ninePixels = Some (Ok (mkRaster [3; 3] [12; 16; 18; 20; 28; 30; 30; 34; 36])).
Proof.
  split; [apply nearest_ahead; [discriminate|repeat constructor]|]. split; [repeat constructor|]. split; [repeat constructor; lia|].
  split; [split; repeat constructor; cbn; lia|]. vm_compute. reflexivity.
Qed.

Lemma nine_applies : Applies [3; 3] [0; 0] [1; 1] [1; 1; 1; 1] (rdata ninePixels) (nearestAt 2 ninePixels)
    (fun p => nth (Z.to_nat (rank [3; 3] (vclamp p [3; 3]))) (rdata ninePixels) 0) /\ Forall (fun x => x = 0) [0; 0].
Proof.
  split; [|repeat constructor]. split; [discriminate|]. split; [repeat constructor|]. split; [reflexivity|]. split; [reflexivity|]. split; [repeat constructor; lia|].
  split; [reflexivity|]. split; [exists [0; 0]; split; [reflexivity|]; split; repeat constructor; cbn; lia|].
  intros q Lq. unfold nearestAt. replace (Nat.eqb (length q) (length (rshape ninePixels))) with true by (symmetry; now apply Nat.eqb_eq).
  destruct q as [|x [|y [|]]]; try discriminate. unfold vclamp, rget, ninePixels. cbn [map2 rshape rdata].
  assert (B : forall z, clampZ z 0 (3 - 1) = 0 \/ clampZ z 0 (3 - 1) = 1 \/ clampZ z 0 (3 - 1) = 2).
  { intros z. unfold clampZ. repeat match goal with |- context [?u <? ?w] => destruct (Z.ltb_spec u w) end; lia. }
  destruct (B x) as [-> |[-> | ->]], (B y) as [-> |[-> | ->]]; reflexivity.
Qed.

Lemma backward_differs :
  selfCorrelate (nearestAt 1) 20 1 [1; 1; 1] (mkBox [-1] [1]) fourPixels = Some (Ok (mkRaster [4] [8; 6; 13; 21])) /\
  otherCorrelate 20 1 [1; 1; 1] (mkBox [-1] [1]) fourPixels (nearestAt 1 fourPixels) fourPixels = Some (Ok (mkRaster [4] [4; 6; 9; 11])).
Proof. split; vm_compute; reflexivity. Qed.

Lemma rows_differ :
  selfCorrelate (nearestAt 2) 20 2 [1; 1] (mkBox [0; -1] [0; 0]) ninePixels = Some (Ok (mkRaster [3; 3] [2; 4; 6; 5; 7; 9; 12; 15; 18])) /\
  otherCorrelate 20 2 [1; 1] (mkBox [0; -1] [0; 0]) ninePixels (nearestAt 2 ninePixels) ninePixels = Some (Ok (mkRaster [3; 3] [2; 4; 6; 5; 7; 9; 11; 13; 15])).
Proof. split; vm_compute; reflexivity. Qed.

Lemma periodic_differs :
  selfCorrelate (periodicAt 1) 20 1 [1; 1] (mkBox [0] [1]) fourPixels = Some (Ok (mkRaster [4] [3; 5; 7; 7])) /\
  otherCorrelate 20 1 [1; 1] (mkBox [0] [1]) fourPixels (periodicAt 1 fourPixels) fourPixels = Some (Ok (mkRaster [4] [3; 5; 7; 5])).
Proof. split; vm_compute; reflexivity. Qed.
