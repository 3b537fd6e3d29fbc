(** Proofs about the order in which ND kernels in place replace the pixels. *)
From Coq Require Import Sorting.Sorted.
From Verif Require Import Res VecModel BoxModel RasterModel SamplingModel LineKernelModel SeparableModel KernelModel TypedKernelModel InterpModel InPlaceKernelModel
  Spec BoxSpec RasterSpec KernelSpec TypedKernelSpec InPlaceKernelSpec InPlaceOrderSpec Lemmas IndexProofs BoxIterProofs BoxGeomProofs AccessProofs ContainerProofs SamplingProofs
  SeparableProofs KernelProofs TypedKernelProofs InPlaceKernelProofs.
Open Scope Z_scope.

(** Phases *)
Lemma phase_inner s : forall i f b p, length f = length s -> length b = length s -> Between (ifront f) (iback s b) p -> phase i s f b p = 0.
Proof.
  induction s as [|s0 s IH]; intros i [|x f] [|y b] p Lf Lb Hp; cbn in Lf, Lb; try lia; [inversion Hp; reflexivity|].
  cbn [map combine] in Hp. inversion Hp as [|? ? z ? ? p' Hz Hp']; subst. cbn [phase fst snd] in *. rewrite IH by (auto; lia). cbn [Z.ltb Z.compare].
  replace (z + x <? 0) with false by lia. now replace (s0 <=? z + y) with false by lia.
Qed.

Lemma phase_app s1 : forall i f1 b1 p1 s2 f2 b2 p2, length f1 = length s1 -> length b1 = length s1 -> length p1 = length s1 ->
  0 < phase (i + Z.of_nat (length s1)) s2 f2 b2 p2 -> phase i (s1 ++ s2) (f1 ++ f2) (b1 ++ b2) (p1 ++ p2) = phase (i + Z.of_nat (length s1)) s2 f2 b2 p2.
Proof.
  induction s1 as [|s0 s1 IH]; intros i [|x f1] [|y b1] [|z p1] s2 f2 b2 p2 Lf Lb Lp H; cbn in Lf, Lb, Lp; try lia.
  - cbn [length app] in *. f_equal. lia.
  - cbn [app phase]. cbn [length] in H |- *. replace (i + Z.of_nat (S (length s1))) with (i + 1 + Z.of_nat (length s1)) in * by lia.
    rewrite IH by (auto; lia). now replace (0 <? _) with true by lia.
Qed.

(** Boxes whose positions have increasing phases *)
Fixpoint Phased (s f b : list Z) (lo : Z) (L : list box) : Prop :=
  match L with
  | [] => True
  | bx :: L' => exists c, lo < c /\ (forall p, InBox bx p -> phase 0 s f b p = c) /\ Phased s f b c L'
  end.

Lemma Phased_weaken s f b L : forall lo lo', lo' <= lo -> Phased s f b lo L -> Phased s f b lo' L.
Proof. intros lo lo' H. destruct L as [|bx L]; cbn; auto. intros (c & H1 & H2). exists c. split; [lia|auto]. Qed.

Lemma Phased_sorted s f b L : forall lo, Phased s f b lo L ->
  StronglySorted (Earlier s f b) (boxesPositions L) /\ Forall (fun p => lo < phase 0 s f b p) (boxesPositions L).
Proof.
  induction L as [|bx L IH]; intros lo H; cbn [boxesPositions flat_map].
  - split; constructor.
  - destruct H as (c & H1 & H2 & H3). destruct (IH c H3) as (S1 & S2). fold (boxesPositions L).
    assert (HP : Forall (fun p => phase 0 s f b p = c) (positions (bfront bx) (bback bx))).
    { apply Forall_forall. intros p Hp. apply H2. now apply In_positions in Hp. }
    split.
    + assert (Srt := positions_sorted (bfront bx) (bback bx)). revert Srt HP. generalize (positions (bfront bx) (bback bx)) as l.
      induction l as [|p l IHl]; intros Srt HP; cbn [app]; auto. inversion Srt as [|? ? T1 T2]; inversion HP as [|? ? U1 U2]; subst. constructor; [auto|].
      apply Forall_app. split.
      * rewrite Forall_forall in *. intros q Hq. right. rewrite (U2 q Hq). auto.
      * rewrite Forall_forall in *. intros q Hq. left. exact (S2 q Hq).
    + apply Forall_app. split; eapply Forall_impl; [|exact HP| |exact S2]; cbn; intros; lia.
Qed.

Lemma surroundAxis_exact mf1 mf mf2 mb1 mb mb2 f1 x f2 b1 y b2 out :
  length mf1 = length f1 -> length mb1 = length f1 -> length b1 = length f1 -> mf <= 0 <= mb ->
  surroundAxis (mkBox (mf1 ++ mf :: mf2) (mb1 ++ mb :: mb2)) (mkBox (f1 ++ x :: f2) (b1 ++ y :: b2), out) (length f1) =
  Ok (mkBox (f1 ++ (x + mf) :: f2) (b1 ++ (y + mb) :: b2),
      out ++ (if mf <? 0 then [mkBox (f1 ++ (x + mf) :: f2) (b1 ++ (x - 1) :: b2)] else []) ++
             (if 0 <? mb then [mkBox (f1 ++ (y + 1) :: f2) (b1 ++ (y + mb) :: b2)] else [])).
Proof.
  intros Hmf1 Hmb1 Hb1 Hm. assert (Hf1b1 : length f1 = length b1) by lia. unfold surroundAxis. cbn [bfront bback]. rewrite !zget_mid' by lia. cbn [bind].
  destruct (mf <? 0) eqn:Emf, (0 <? mb) eqn:Emb; run; rewrite ?app_nil_r, <- ?app_assoc; cbn [app]; auto;
    repeat match goal with |- context [?u + ?w] => first [constr_eq w mf; replace (u + w) with u by lia | constr_eq w mb; replace (u + w) with u by lia] end; auto.
Qed.

Lemma surroundLoop_phased s f b mf2 : forall mb2 s2 mf1 mb1 s1 f1 b1 out, f = mf1 ++ mf2 -> b = mb1 ++ mb2 -> s = s1 ++ s2 ->
  length mf1 = length s1 -> length mb1 = length s1 -> length f1 = length s1 -> length b1 = length s1 ->
  length mf2 = length s2 -> length mb2 = length s2 -> Forall2 (fun x y => x <= 0 <= y) mf2 mb2 -> NonEmpty (ifront mf2) (iback s2 mb2) ->
  exists cur new,
    surroundLoop (mkBox f b) (seq (length s1) (length s2)) (mkBox (f1 ++ ifront mf2) (b1 ++ iback s2 mb2), out) = Ok (cur, out ++ new) /\
    Phased s f b (2 * Z.of_nat (length s1)) new.
Proof.
  induction mf2 as [|mf mf2 IH]; intros [|mb mb2] [|s0 s2] mf1 mb1 s1 f1 b1 out -> -> -> L1 L2 L3 L4 L5 L6 Hw Hne; cbn in L5, L6; try lia.
  - eexists _, []. cbn. rewrite !app_nil_r. auto.
  - inversion Hw as [|? ? ? ? Hm Hw']; subst. cbn [map combine fst snd] in Hne |- *. inversion Hne as [|? ? ? ? Hxy Hne']; subst.
    cbn [length seq surroundLoop]. rewrite <- L3. rewrite surroundAxis_exact by lia. cbn [bind]. rewrite L3.
    set (new := (if mf <? 0 then _ else _) ++ (if 0 <? mb then _ else _)).
    assert (A : forall (l : list Z) z r, (l ++ [z]) ++ r = l ++ z :: r) by (intros; now rewrite <- app_assoc).
    destruct (IH mb2 s2 (mf1 ++ [mf]) (mb1 ++ [mb]) (s1 ++ [s0]) (f1 ++ [- mf + mf]) (b1 ++ [s0 - 1 - mb + mb]) (out ++ new))
      as (cur & new' & E' & A'); try (now rewrite A); try (rewrite !app_length; cbn; lia); auto; try lia.
    rewrite !A in E'. replace (length (s1 ++ [s0])) with (S (length s1)) in * by (rewrite app_length; cbn; lia).
    exists cur, (new ++ new'). split; [rewrite app_assoc; exact E'|].
    assert (K : forall u v p, InBox (mkBox (f1 ++ u :: ifront mf2) (b1 ++ v :: iback s2 mb2)) p ->
              exists p1 z p2, p = p1 ++ z :: p2 /\ length p1 = length s1 /\ u <= z <= v /\
              forall i, phase i (s0 :: s2) (mf :: mf2) (mb :: mb2) (z :: p2) = if z + mf <? 0 then 2 * i + 1 else if s0 <=? z + mb then 2 * i + 2 else 0).
    { intros u v p Hp. apply Between_mid_inv in Hp as (p1 & z & p2 & -> & H1 & Hz & H2); [|lia]. exists p1, z, p2. split; [auto|]. apply Between_length in H1.
      split; [lia|]. split; [auto|]. intros i. cbn [phase]. now rewrite phase_inner by (auto; lia). }
    assert (Hafter : Phased (s1 ++ s0 :: s2) (mf1 ++ mf :: mf2) (mb1 ++ mb :: mb2) (2 * Z.of_nat (length s1) + 1)
              ((if 0 <? mb then [mkBox (f1 ++ (s0 - 1 - mb + 1) :: ifront mf2) (b1 ++ (s0 - 1 - mb + mb) :: iback s2 mb2)] else []) ++ new')).
    { destruct (0 <? mb) eqn:Emb; cbn [app Phased].
      - exists (2 * Z.of_nat (length s1) + 2). split; [lia|]. split.
        + intros p Hp. destruct (K _ _ _ Hp) as (p1 & z & p2 & -> & Lp & Hz & Hph). specialize (Hph (0 + Z.of_nat (length s1))).
          replace (z + mf <? 0) with false in Hph by lia. replace (s0 <=? z + mb) with true in Hph by lia.
          rewrite phase_app by (auto; rewrite Hph; lia). rewrite Hph. lia.
        + eapply Phased_weaken; [|exact A']. lia.
      - eapply Phased_weaken; [|exact A']. lia. }
    unfold new. destruct (mf <? 0) eqn:Emf; cbn [app Phased].
    + exists (2 * Z.of_nat (length s1) + 1). split; [lia|]. split; [|exact Hafter].
      intros p Hp. destruct (K _ _ _ Hp) as (p1 & z & p2 & -> & Lp & Hz & Hph). specialize (Hph (0 + Z.of_nat (length s1))).
      replace (z + mf <? 0) with true in Hph by lia.
      rewrite phase_app by (auto; rewrite Hph; lia). rewrite Hph. lia.
    + eapply Phased_weaken; [|exact Hafter]. lia.
Qed.

Lemma surround_phased s f b L : length f = length s -> length b = length s -> Forall2 (fun x y => x <= 0 <= y) f b -> NonEmpty (ifront f) (iback s b) ->
  surround (mkBox (ifront f) (iback s b)) (mkBox f b) = Ok L -> Phased s f b 0 L.
Proof.
  intros Lf Lb Hw Hne E. destruct (surroundLoop_phased s f b f b s [] [] [] [] [] []) as (cur & new & E' & A); auto.
  cbn [app length] in E'. unfold surround, boxDim in E. cbn [bfront] in E. rewrite map_length, Lf in E. rewrite E' in E. cbn [bind snd] in E. injection E as <-. exact A.
Qed.

(** The loops replace the pixels in this order *)
Section Runs.
Context {X V : Type} (zero : V) (inner : V -> V -> X -> res V) (border : V -> V -> V -> res V) (store : X -> res V) (back : V -> res X)
  (view : raster X -> list Z -> res X) (image : raster X -> list Z -> X).

Section Flat.
Variables (values : list V) (rows : nat) (kW inW distance : Z).

Fixpoint flatLoopS (L : list Z) (inIt : Z) (mem : list X) : res (Z * list X) :=
  match L with
  | [] => Ok (inIt, mem)
  | a :: L' => v <- fromAddress zero inner back values mem rows kW inW inIt ;; mem' <- zset mem a v ;; flatLoopS L' (a + 1 - distance) mem'
  end.

Lemma rowLoop_flatS pixels : forall outIt inIt mem,
  rowLoopS zero inner back pixels values rows kW inW distance outIt inIt mem = flatLoopS (map (fun k => outIt + k) (zrange 0 (Z.of_nat pixels - 1))) inIt mem.
Proof.
  induction pixels as [|pixels IH]; intros outIt inIt mem.
  - cbn [rowLoopS]. rewrite zrange_empty by lia. reflexivity.
  - cbn [rowLoopS]. rewrite (zrange_cons 0) by lia. cbn [map flatLoopS]. rewrite Z.add_0_r. unfold fromAddress.
    destruct (rowSumG inner rows values mem 0 inIt kW inW zero) as [s| |]; cbn [bind]; auto. destruct (back s) as [v| |]; cbn [bind]; auto.
    destruct (zset mem outIt v); cbn [bind]; auto.
    rewrite IH. f_equal. replace (zrange (0 + 1) (Z.of_nat (S pixels) - 1)) with (map (fun z => z + 1) (zrange 0 (Z.of_nat pixels - 1)))
      by (rewrite <- zrange_shift; f_equal; lia). rewrite map_map. apply map_ext. intros. lia.
Qed.

Lemma flatLoopS_app L M : forall inIt mem, flatLoopS (L ++ M) inIt mem = (st <- flatLoopS L inIt mem ;; flatLoopS M (fst st) (snd st)).
Proof.
  induction L as [|a L IH]; intros inIt mem; cbn [app flatLoopS]; auto.
  destruct (fromAddress _ _ _ _ _ _ _ _ _) as [v| |]; cbn [bind]; auto. destruct (zset mem a v); cbn [bind]; auto.
Qed.

Lemma rowsLoop_flatS n shape x y ps : shape <> [] -> Forall (fun p => length p = length shape /\ nth 0 p 0 = x) ps -> forall inIt mem,
  rowsLoopS zero inner back n shape ps (Z.to_nat (y - x + 1)) values rows kW inW distance inIt mem =
  (st <- flatLoopS (map (rank shape) (flat_map (fun p => map (fun z => replace p 0 z) (zrange x y)) ps)) inIt mem ;; Ok (snd st)).
Proof.
  intros Hs. induction 1 as [|p ps (Hl & Hx) Hps IH]; intros inIt mem; cbn [rowsLoopS flat_map map flatLoopS bind]; auto.
  rewrite rindex_rank by auto. cbn [bind]. rewrite rowLoop_flatS, map_app, flatLoopS_app.
  assert (E : map (fun k => rank shape p + k) (zrange 0 (Z.of_nat (Z.to_nat (y - x + 1)) - 1)) = map (rank shape) (map (fun z => replace p 0 z) (zrange x y))).
  { rewrite map_map. destruct (Z_lt_le_dec y x) as [Q|Q]; [now rewrite !zrange_empty by lia|].
    replace (zrange x y) with (map (fun z => z + x) (zrange 0 (Z.of_nat (Z.to_nat (y - x + 1)) - 1))) by (rewrite <- zrange_shift; f_equal; lia).
    rewrite map_map. apply map_ext. intros k. destruct p as [|a p], shape as [|s shape]; cbn in Hl; try congruence; try lia.
    cbn [nth] in Hx. subst. cbn [replace]. rewrite !rank_cons. lia. }
  rewrite E. destruct (flatLoopS (map (rank shape) (map (fun z => replace p 0 z) (zrange x y))) inIt mem) as [[i o]| |]; cbn [bind fst snd]; auto.
Qed.
End Flat.

Section Assembly.
Variables (n s0 : Z) (s' : list Z) (f0 : Z) (f' : list Z) (b0 : Z) (b' : list Z) (values : list V).
Let s := s0 :: s'.
Let f := f0 :: f'.
Let b := b0 :: b'.
Hypothesis Hs : Positive s.
Hypothesis Hlen : length f = length s.
Hypothesis Hw : Forall2 (fun x y => x <= 0 <= y) f b.
Hypothesis Hin : NonEmpty (ifront f) (iback s b).
Hypothesis Hv : Z.of_nat (length values) = prod (wshape f b).
Hypothesis Hview : forall r q, WF r -> rshape r = s -> length q = length s -> view r q = Ok (image r q).

Let P := positions (ifront f) (iback s b).
Let rows := Z.to_nat (prod (wshape f' b')).
Let kW := b0 - f0 + 1.
Let d := rank s (ifront f).
Let S1 := starts d (map (rank s) P) 0.
Notation RP := (Replaced zero inner border store back s f b values image).

Lemma run_Lb : length b = length s.
Proof. rewrite <- Hlen. symmetry. now apply Forall2_len in Hw. Qed.
Lemma run_domain p : Between (ifront f) (iback s b) p -> InDomain s p.
Proof. destruct (Forall2_split _ _ Hw) as (_ & Hf & Hb). exact (inner_domain s f b p Hlen run_Lb Hf Hb). Qed.

Lemma replaced_app l1 l2 r r1 o : RP l1 r (Ok r1) -> RP l2 r1 o -> RP (l1 ++ l2) r o.
Proof.
  intros H1 H2. remember (Ok r1) as o1. revert r1 H2 Heqo1. induction H1 as [r|p ps r v r' o' G W H IH|p ps r e G|p ps r G]; intros r1 H2 E; try discriminate; cbn [app].
  - injection E as ->. auto.
  - eapply replaced_pixel; eauto.
Qed.
Lemma replaced_stop l1 l2 r o : RP l1 r o -> (forall r1, o <> Ok r1) -> RP (l1 ++ l2) r o.
Proof.
  induction 1 as [r|p ps r v r' o' G W H IH|p ps r e G|p ps r G]; intros N; cbn [app].
  - now destruct (N r).
  - eapply replaced_pixel; eauto.
  - now apply replaced_throw.
  - now apply replaced_ub.
Qed.
Lemma replaced_wf l r o : RP l r o -> WF r -> rshape r = s -> forall r1, o = Ok r1 -> WF r1 /\ rshape r1 = s.
Proof.
  induction 1 as [r|p ps r v r' o' G W H IH|p ps r e G|p ps r G]; intros Wr Sr r1 E; try discriminate.
  - injection E as <-. auto.
  - destruct W as (W1 & W2 & W3 & W4). apply IH; auto; [|congruence]. destruct Wr as (A1 & A2 & A3). split; [now rewrite W1|]. split; [now rewrite W1|]. now rewrite W1, W2.
Qed.

Lemma with_pixel (mem : list X) p v : Z.of_nat (length mem) = prod s -> InDomain s p -> WithPixel s (mkRaster s mem) p v (mkRaster s (replace mem (Z.to_nat (rank s p)) v)).
Proof.
  intros Hm Hp. assert (E := zset_ok mem (rank s p) v ltac:(rewrite Hm; now apply rank_bounds)).
  split; [reflexivity|]. cbn [rdata]. split; [apply replace_length|]. split; [eapply zset_get_eq; eauto|].
  intros y Hy Hne. eapply zset_get_neq; [eauto|]. intros C. apply Hne. symmetry. eapply rank_inj; eauto.
Qed.

Lemma gets_from (r : raster X) p st : Z.of_nat (length (rdata r)) = prod s -> In (p, st) (combine P S1) ->
  Gets zero inner border store back s f b values (rdata r) (image r) p (fromAddress zero inner back values (rdata r) rows kW s0 st).
Proof.
  intros Hd H. apply gets_same; auto.
  apply (gets_iff zero inner border store back s0 s' f0 f' b0 b' values (rdata r) (fun q => Ok (image r q)) (image r)); auto.
  right. exists st. split; [exact H|reflexivity].
Qed.
Lemma gets_outside (r : raster X) p : Z.of_nat (length (rdata r)) = prod s -> InDomain s p -> ~ Between (ifront f) (iback s b) p ->
  Gets zero inner border store back s f b values (rdata r) (image r) p (borderResult zero border store back values (windowPixels f b (image r) p)).
Proof.
  intros Hd Hp H. apply gets_same; auto.
  apply (gets_iff zero inner border store back s0 s' f0 f' b0 b' values (rdata r) (fun q => Ok (image r q)) (image r)); auto.
Qed.

Lemma with_pixel_unique (r r1 r2 : raster X) p v : WF r -> rshape r = s -> WithPixel s r p v r1 -> WithPixel s r p v r2 -> r1 = r2.
Proof.
  intros (A1 & A2 & A3) Sr (B1 & B2 & B3 & B4) (C1 & C2 & C3 & C4). assert (G : forall x : raster X, rshape x = rshape r -> length (rdata x) = length (rdata r) -> WF x).
  { intros x E1 E2. split; [now rewrite E1|]. split; [now rewrite E1|]. now rewrite E1, E2. }
  apply (raster_ext 0); auto; [congruence|]. rewrite B1, Sr. intros y Hy. unfold rget. rewrite B1, C1, Sr. rewrite rindex_rank by (try discriminate; now apply InDomain_length). cbn [bind].
  destruct (list_eq_dec Z.eq_dec y p) as [->|Ne]; [congruence|]. rewrite B4, C4; auto.
Qed.

Lemma gets_once (r : raster X) p v w : Z.of_nat (length (rdata r)) = prod s ->
  Gets zero inner border store back s f b values (rdata r) (image r) p v -> Gets zero inner border store back s f b values (rdata r) (image r) p w -> v = w.
Proof.
  intros Hd G1 G2. apply gets_same in G1; auto. apply gets_same in G2; auto.
  eapply (gets_unique zero inner border store back s0 s' f0 f' b0 b' values (rdata r) (fun q => Ok (image r q)) (image r)); eauto.
Qed.

Lemma replaced_unique l r o : RP l r o -> WF r -> rshape r = s -> forall o', RP l r o' -> o = o'.
Proof.
  induction 1 as [r|p ps r v r' o1 G W H IH|p ps r e G|p ps r G]; intros Wr Sr o' H'.
  - inversion H'. reflexivity.
  - assert (Hd : Z.of_nat (length (rdata r)) = prod s) by (destruct Wr as (_ & _ & E); congruence).
    inversion H' as [|? ? ? v2 r2 ? G2 W2 H2|? ? ? ? G2|? ? ? G2]; subst; assert (E := gets_once r p _ _ Hd G G2); try discriminate.
    injection E as <-. assert (r' = r2) by (eapply with_pixel_unique; eauto). subst r2. apply IH; auto.
    + destruct W as (W1 & W2' & _). destruct Wr as (A1 & A2 & A3). split; [now rewrite W1|]. split; [now rewrite W1|]. now rewrite W1, W2'.
    + destruct W as (W1 & _). congruence.
  - assert (Hd : Z.of_nat (length (rdata r)) = prod s) by (destruct Wr as (_ & _ & E); congruence).
    inversion H' as [|? ? ? v2 r2 ? G2 W2 H2|? ? ? ? G2|? ? ? G2]; subst; assert (E := gets_once r p _ _ Hd G G2); try discriminate. congruence.
  - assert (Hd : Z.of_nat (length (rdata r)) = prod s) by (destruct Wr as (_ & _ & E); congruence).
    inversion H' as [|? ? ? v2 r2 ? G2 W2 H2|? ? ? ? G2|? ? ? G2]; subst; assert (E := gets_once r p _ _ Hd G G2); try discriminate. reflexivity.
Qed.

Lemma flat_replaced B : forall inIt mem, Z.of_nat (length mem) = prod s -> Forall (InDomain s) B ->
  (forall x, In x (combine B (starts d (map (rank s) B) inIt)) -> In x (combine P S1)) ->
  RP B (mkRaster s mem) (st <- flatLoopS values rows kW s0 d (map (rank s) B) inIt mem ;; Ok (mkRaster s (snd st))).
Proof.
  induction B as [|p B IH]; intros inIt mem Hm HD HI; cbn [map flatLoopS].
  - cbn [bind snd]. constructor.
  - inversion HD as [|? ? D1 D2]; subst. cbn [map starts combine] in HI.
    assert (G := gets_from (mkRaster s mem) p inIt Hm (HI _ (or_introl eq_refl))). cbn [rdata] in G.
    destruct (fromAddress zero inner back values mem rows kW s0 inIt) as [v|e|] eqn:E; cbn [bind].
    + rewrite zset_ok by (rewrite Hm; now apply rank_bounds). cbn [bind].
      eapply replaced_pixel; [exact G|apply with_pixel; auto|]. apply IH; auto.
      * now rewrite replace_length.
      * intros x Hx. apply HI. now right.
    + now apply replaced_throw.
    + now apply replaced_ub.
Qed.

Lemma inner_specS mem fuel : Z.of_nat (length mem) = prod s -> (length P < fuel)%nat ->
  correlateInnerS zero inner back fuel n values (mkBox f b) (mkBox (ifront f) (iback s b)) (mkRaster s mem) =
  Some (st <- flatLoopS values rows kW s0 d (map (rank s) P) 0 mem ;; Ok (mkRaster s (snd st))).
Proof.
  intros Hm Hfuel. assert (Hlb := run_Lb). destruct (Forall2_split _ _ Hw) as (Hfb & _).
  assert (Hfb' : NonEmpty f' b' /\ f0 <= b0) by (inversion Hfb; auto). destruct Hfb' as (Hfb' & Hfb0).
  assert (Epw : prod (wshape f b) = (b0 - f0 + 1) * prod (wshape f' b')) by reflexivity.
  assert (Efi : ifront f = - f0 :: ifront f') by reflexivity. assert (Ebi : iback s b = s0 - 1 - b0 :: iback s' b') by reflexivity.
  assert (Hne : ifront f <> []) by discriminate.
  unfold correlateInnerS.
  assert (Hsz : boxSize (mkBox (ifront f) (iback s b)) <> 0) by (rewrite boxSize_count by auto; destruct (positions_hd _ _ Hin) as [L ->]; cbn; lia).
  replace (boxSize (mkBox (ifront f) (iback s b)) =? 0) with false by lia.
  rewrite (boxSize_window f b) by (auto; discriminate). rewrite Epw.
  assert (Ed : d = rank s (- f0 :: ifront f')) by reflexivity. clearbody d.
  rewrite Efi, Ebi. unfold boxLength, project. cbn [bfront bback rshape rdata].
  assert (Gf : zget f 0 = Ok f0) by reflexivity. assert (Gb : zget b 0 = Ok b0) by reflexivity. assert (Gs : zget s 0 = Ok s0) by reflexivity.
  rewrite Gf, Gb, Gs, !zget_cons_0. cbn [bind]. rewrite zset_ok by (cbn [length]; lia). cbn [bind lift obind Z.to_nat replace bfront bback].
  replace (b0 - f0 + 1 =? 0) with false by lia.
  rewrite rindex_rank; [|discriminate|unfold s; cbn [length]; rewrite map_length; cbn in Hlen; lia]. cbn [lift obind]. rewrite <- Ed.
  assert (Hbx : NonEmpty (- f0 :: ifront f') (- f0 :: iback s' b')) by (constructor; [lia|]; rewrite Efi, Ebi in Hin; inversion Hin; auto).
  rewrite boxForeach_positions; [|discriminate|auto|].
  - cbn [obind].
    assert (Eq : Z.quot ((b0 - f0 + 1) * prod (wshape f' b')) (b0 - f0 + 1) = prod (wshape f' b')) by (rewrite Z.mul_comm; apply Z.quot_mul; lia).
    rewrite Eq. replace (Z.to_nat (s0 - 1 - b0 - - f0 + 1)) with (Z.to_nat ((s0 - 1 - b0) - (- f0) + 1)) by lia.
    rewrite rowsLoop_flatS; [|discriminate|].
    + rewrite positions_flat. rewrite <- Efi, <- Ebi. fold P kW. fold rows. destruct (flatLoopS _ _ _ _ _ _ _ _); reflexivity.
    + apply Forall_forall. intros p Hp. apply In_positions in Hp. split.
      * apply Between_length in Hp. cbn [length] in Hp. rewrite map_length in Hp. unfold s. cbn [length]. cbn in Hlen. lia.
      * destruct p as [|z p]; [inversion Hp|]. apply Between_cons_iff in Hp. cbn. lia.
  - eapply Nat.le_lt_trans; [|exact Hfuel]. unfold P. rewrite Efi, Ebi. cbn [positions].
    assert (G : forall x y y' (L : list (list Z)), y <= y' -> (length (flat_map (fun q => map (fun z => z :: q) (zrange x y)) L) <= length (flat_map (fun q => map (fun z => z :: q) (zrange x y')) L))%nat).
    { clear. intros x y y' L H. induction L as [|q L IH]; cbn [flat_map]; [lia|]. rewrite !app_length, !map_length. assert (Z1 := zrange_length x y). assert (Z2 := zrange_length x y'). lia. }
    apply G. rewrite Efi, Ebi in Hin. inversion Hin; auto.
Qed.

Lemma ext_loop_replaced ps : forall r buffer fuel, WF r -> rshape r = s -> Forall (fun p => InDomain s p /\ ~ Between (ifront f) (iback s b) p) ps ->
  length buffer = length values -> (length values < fuel)%nat ->
  exists o, extLoopS zero border store back view fuel n values (mkBox f b) ps r buffer = Some o /\ RP ps r o.
Proof.
  induction ps as [|p ps IH]; intros r buffer fuel Wr Sr HD Hb Hf; cbn [extLoopS].
  - eexists. split; [reflexivity|constructor].
  - inversion HD as [|? ? (D1 & N1) D2]; subst. destruct (Forall2_split _ _ Hw) as (Hfb & _).
    assert (Wl : Z.of_nat (length (rdata r)) = prod s) by (destruct Wr as (_ & _ & E); congruence).
    assert (Er : r = mkRaster s (rdata r)) by (destruct r; cbn in *; congruence).
    assert (G := gets_outside r p Wl D1 N1).
    destruct (ext_pixelG zero inner border store back n values f b (view r) (image r)) with (p := p) (out := r) (buffer := buffer) (fuel := fuel) as (buffer' & B' & ->); auto.
    { discriminate. }
    { intros q Hq. apply Hview; auto. congruence. }
    { now rewrite Sr. }
    { apply InDomain_length in D1. congruence. }
    destruct (borderResult zero border store back values (windowPixels f b (image r) p)) as [v|e|]; cbn [bind obind fst snd].
    + rewrite Sr. set (r1 := mkRaster s _). assert (W : WithPixel s r p v r1) by (rewrite Er; cbn [rdata]; apply with_pixel; auto).
      destruct (IH r1 buffer' fuel) as (o & -> & Ho); auto.
      * destruct Wr as (A1 & A2 & A3). rewrite Sr in *. split; [auto|]. split; [auto|]. unfold r1. cbn [rshape rdata]. now rewrite replace_length.
      * exists o. split; [auto|]. eapply replaced_pixel; eauto.
    + eexists. split; [reflexivity|]. now apply replaced_throw.
    + eexists. split; [reflexivity|]. now apply replaced_ub.
Qed.

Lemma ext_boxes_replaced L : forall r fuel, Forall Nonempty L -> (forall bx p, In bx L -> InBox bx p -> InDomain s p /\ ~ Between (ifront f) (iback s b) p) -> WF r -> rshape r = s ->
  (length values + length (boxesPositions L) < fuel)%nat ->
  exists o, correlateExtsS zero border store back view fuel n values (mkBox f b) L r = Some o /\ RP (boxesPositions L) r o.
Proof.
  induction L as [|bx L IH]; intros r fuel HN HD Wr Sr Hfuel.
  - eexists. split; [reflexivity|constructor].
  - inversion HN as [|? ? N1 N2]; subst. destruct bx as [xf xb]. assert (Hi := N1). apply Nonempty_iff in Hi. cbn [bfront bback] in Hi.
    assert (Hxf : xf <> []).
    { assert (H := HD _ xf ltac:(now left) ltac:(now apply NonEmpty_front)). destruct H as (H & _). apply InDomain_length in H. intros ->. discriminate. }
    unfold boxesPositions in *. cbn [flat_map bfront bback] in *. rewrite app_length in Hfuel. cbn [correlateExtsS]. unfold correlateExtS.
    assert (Hsz : boxSize (mkBox xf xb) <> 0) by (rewrite (boxSize_count xf xb) by auto; destruct (positions_hd _ _ Hi) as [M ->]; cbn; lia).
    replace (boxSize _ =? 0) with false by lia. rewrite boxForeach_positions by (auto; lia). cbn [obind].
    destruct (ext_loop_replaced (positions xf xb) r (repeat zero (length values)) fuel) as (o & -> & Ho); auto; try lia.
    { apply Forall_forall. intros p Hp. apply (HD (mkBox xf xb)); [now left|]. apply In_positions in Hp. exact Hp. }
    { apply repeat_length. }
    destruct o as [r1|e|]; cbn [obind].
    + destruct (replaced_wf _ _ _ Ho Wr Sr r1 eq_refl) as (W1 & Sh1). destruct (IH r1 fuel) as (o & -> & Ho'); auto; try lia.
      { intros bx p Hbx. apply HD. now right. }
      exists o. split; [auto|]. eapply replaced_app; eauto.
    + eexists. split; [reflexivity|]. apply replaced_stop; [auto|discriminate].
    + eexists. split; [reflexivity|]. apply replaced_stop; [auto|discriminate].
Qed.

Lemma self_replaced data : n = Z.of_nat (length s) -> Z.of_nat (length data) = prod s ->
  exists order o enough, VisitOrder s f b order /\ RP order (mkRaster s data) o /\
    forall fuel, (enough <= fuel)%nat -> correlateSelfG zero inner border store back view fuel n values (mkBox f b) (mkRaster s data) = Some o.
Proof.
  intros Hn Hd. assert (Hlb := run_Lb). destruct (Forall2_split _ _ Hw) as (Hfb & Hf & Hb). destruct (inner_box n s f b Hn Hlen Hlb) as (I1 & I2 & I3).
  destruct (surround_partition (ifront f) (iback s b) f b) as (L & EL & NL & DL & CL & _); try (rewrite map_length; lia); auto.
  { now apply Nonempty_iff. }
  rewrite I3 in CL. assert (HPh := surround_phased s f b L Hlen Hlb Hw Hin EL). destruct (Phased_sorted _ _ _ _ _ HPh) as (Q1 & Q2).
  set (Q := boxesPositions L) in *.
  assert (HQ : forall p, In p Q <-> exists bx, In bx L /\ InBox bx p).
  { intros p. unfold Q, boxesPositions. rewrite in_flat_map. split; intros (bx & H1 & H2); exists bx; (split; [auto|]); apply In_positions; exact H2. }
  assert (HB : forall bx p, In bx L -> InBox bx p -> InDomain s p /\ ~ Between (ifront f) (iback s b) p).
  { intros bx p Hbx Hp. split; [apply InBox_domain, CL; eauto|]. intros C. inversion DL as [|? ? D1 D2]; subst. rewrite Forall_forall in D1. apply (D1 bx Hbx p); auto. }
  assert (Wr : WF (mkRaster s data)) by (split; [discriminate|]; cbn [rshape rdata]; split; [eapply Forall_impl; [|exact Hs]; cbn; intros; lia|auto]).
  assert (FR : RP P (mkRaster s data) (st <- flatLoopS values rows kW s0 d (map (rank s) P) 0 data ;; Ok (mkRaster s (snd st)))).
  { apply flat_replaced; auto. apply Forall_forall. intros p Hp. apply run_domain. now apply In_positions in Hp. }
  assert (HO : VisitOrder s f b (P ++ Q)).
  { split.
    - intros p. rewrite in_app_iff, HQ. unfold P. rewrite In_positions. rewrite <- (InBox_domain s p). rewrite CL. unfold InBox. cbn [bfront bback]. tauto.
    - assert (Srt := positions_sorted (ifront f) (iback s b)). fold P in Srt.
      assert (P0 : Forall (fun p => phase 0 s f b p = 0) P) by (apply Forall_forall; intros p Hp; apply phase_inner; auto; now apply In_positions in Hp).
      clearbody P. clear - Srt P0 Q1 Q2. induction Srt as [|p l Srt IH HL]; cbn [app]; auto. inversion P0 as [|? ? U1 U2]; subst. constructor; [auto|].
      apply Forall_app. split; rewrite Forall_forall in *; intros q Hq; [right|left; rewrite U1; auto]. rewrite (U2 q Hq). auto. }
  destruct (flatLoopS values rows kW s0 d (map (rank s) P) 0 data) as [[i mem]|e|] eqn:E; cbn [bind snd] in FR.
  - destruct (replaced_wf _ _ _ FR Wr eq_refl _ eq_refl) as (W1 & _).
    destruct (ext_boxes_replaced L (mkRaster s mem) (S (length values + length Q)) NL HB W1 eq_refl ltac:(fold Q; lia)) as (o & _ & Ho). fold Q in Ho.
    exists (P ++ Q), o, (S (length P + (length values + length Q))). split; [exact HO|]. split; [eapply replaced_app; eauto|].
    intros fuel Hfuel. unfold correlateSelfG. cbn [rshape]. rewrite I1. cbn [lift obind]. rewrite I2, EL. cbn [lift obind].
    rewrite inner_specS by (auto; lia). rewrite E. cbn [bind snd obind].
    destruct (ext_boxes_replaced L (mkRaster s mem) fuel NL HB W1 eq_refl ltac:(fold Q; lia)) as (o' & -> & Ho'). f_equal. fold Q in Ho'.
    eapply replaced_unique; [exact Ho'|exact W1|reflexivity|exact Ho].
  - exists (P ++ Q), (Throw e), (S (length P)). split; [exact HO|]. split; [apply replaced_stop; [auto|discriminate]|].
    intros fuel Hfuel. unfold correlateSelfG. cbn [rshape]. rewrite I1. cbn [lift obind]. rewrite I2, EL. cbn [lift obind].
    rewrite inner_specS by (auto; lia). rewrite E. reflexivity.
  - exists (P ++ Q), UB, (S (length P)). split; [exact HO|]. split; [apply replaced_stop; [auto|discriminate]|].
    intros fuel Hfuel. unfold correlateSelfG. cbn [rshape]. rewrite I1. cbn [lift obind]. rewrite I2, EL. cbn [lift obind].
    rewrite inner_specS by (auto; lia). rewrite E. reflexivity.
Qed.
End Assembly.
End Runs.

Lemma applies_parts {X V} shape f b (values : list V) (data : list X) view image : AppliesInPlace shape f b values data view image ->
  exists s0 s' f0 f' b0 b', shape = s0 :: s' /\ f = f0 :: f' /\ b = b0 :: b' /\ NonEmpty (ifront f) (iback shape b).
Proof.
  intros (H1 & H2 & H3 & H4 & H5 & H6 & (c & Lc & Hc) & H7). assert (Lb : length b = length shape) by (rewrite <- H4; symmetry; now apply Forall2_len in H5).
  assert (Hin : NonEmpty (ifront f) (iback shape b)) by (apply (Between_NonEmpty _ _ c); now apply inner_iff).
  destruct shape as [|s0 s']; [congruence|]. destruct f as [|f0 f']; [discriminate|]. destruct b as [|b0 b']; [discriminate|]. repeat eexists; eauto.
Qed.

Theorem in_place_order {X V} (zero : V) (inner : V -> V -> X -> res V) border store back view image n shape f b values data :
  n = Z.of_nat (length shape) -> AppliesInPlace shape f b values data view image ->
  exists order outcome enough, VisitOrder shape f b order /\ Replaced zero inner border store back shape f b values image order (mkRaster shape data) outcome /\
    forall fuel, (enough <= fuel)%nat -> correlateSelfG zero inner border store back view fuel n values (mkBox f b) (mkRaster shape data) = Some outcome.
Proof.
  intros Hn HA. destruct (applies_parts _ _ _ _ _ _ _ HA) as (s0 & s' & f0 & f' & b0 & b' & -> & -> & -> & Hin).
  destruct HA as (H1 & H2 & H3 & H4 & H5 & H6 & _ & H7). apply self_replaced; auto.
Qed.

Lemma Earlier_asym shape f b p q : InDomain shape p -> InDomain shape q -> Earlier shape f b p q -> ~ Earlier shape f b q p.
Proof.
  intros Dp Dq [H|(H1 & H2)] [K|(K1 & K2)]; try lia. assert (R1 := rank_lexLt shape p q Dp Dq H2). assert (R2 := rank_lexLt shape q p Dq Dp K2). lia.
Qed.

Lemma order_unique shape f b l : forall m, StronglySorted (Earlier shape f b) l -> StronglySorted (Earlier shape f b) m ->
  (forall p, In p l -> InDomain shape p) -> (forall p, In p l <-> In p m) -> l = m.
Proof.
  induction l as [|p l IH]; intros m Sl Sm HD HE.
  - destruct m as [|q m]; [reflexivity|]. destruct (proj2 (HE q) (or_introl eq_refl)).
  - destruct m as [|q m]; [destruct (proj1 (HE p) (or_introl eq_refl))|].
    inversion Sl as [|? ? L1 L2]; inversion Sm as [|? ? M1 M2]; subst. rewrite Forall_forall in L2, M2.
    assert (Dq : InDomain shape q) by (apply HD, HE; now left). assert (Dp : InDomain shape p) by (apply HD; now left).
    assert (p = q).
    { destruct (proj1 (HE p) (or_introl eq_refl)) as [->|Hp]; auto. destruct (proj2 (HE q) (or_introl eq_refl)) as [->|Hq]; auto.
      exfalso. apply (Earlier_asym shape f b p q); auto. }
    subst q. f_equal. apply IH; auto; [intros; apply HD; now right|]. intros r. split; intros Hr.
    + destruct (proj1 (HE r) (or_intror Hr)) as [<-|H]; auto. exfalso. specialize (L2 p Hr). now apply (Earlier_asym shape f b p p Dp Dp).
    + destruct (proj2 (HE r) (or_intror Hr)) as [<-|H]; auto. exfalso. specialize (M2 p Hr). now apply (Earlier_asym shape f b p p Dp Dp).
Qed.

Theorem in_place_unique {X V} (zero : V) (inner : V -> V -> X -> res V) border store back (view : raster X -> list Z -> res X) image shape f b values data order order' outcome outcome' :
  AppliesInPlace shape f b values data view image -> VisitOrder shape f b order -> VisitOrder shape f b order' ->
  Replaced zero inner border store back shape f b values image order (mkRaster shape data) outcome ->
  Replaced zero inner border store back shape f b values image order' (mkRaster shape data) outcome' -> order = order' /\ outcome = outcome'.
Proof.
  intros HA (O1 & O2) (P1 & P2) R1 R2. assert (order = order').
  { apply (order_unique shape f b); auto; [intros p Hp; now apply O1|]. intros p. rewrite O1, P1. tauto. }
  subst order'. split; [auto|]. destruct (applies_parts _ _ _ _ _ _ _ HA) as (s0 & s' & f0 & f' & b0 & b' & -> & -> & -> & Hin).
  destruct HA as (H1 & H2 & H3 & H4 & H5 & H6 & _ & H7).
  eapply (replaced_unique zero inner border store back image s0 s' f0 f' b0 b' values); eauto.
  split; [discriminate|]. cbn [rshape rdata]. split; [eapply Forall_impl; [|exact H2]; cbn; intros; lia|auto].
Qed.

(** Examples *)
Lemma nearest_image shape (r : raster Z) q : Positive shape -> WF r -> rshape r = shape -> length q = length shape ->
  nearestAt (Z.of_nat (length shape)) r q = Ok (nth (Z.to_nat (rank shape (vclamp q shape))) (rdata r) 0).
Proof.
  intros Hs (W1 & W2 & W3) E Lq. unfold nearestAt. rewrite E in *. rewrite Lq, Nat.eqb_refl.
  assert (D : InDomain shape (vclamp q shape)).
  { clear - Hs Lq. revert q Lq. induction Hs as [|s shape H Hs IH]; intros [|x q] Lq; cbn in Lq; try lia; unfold vclamp in *; cbn [map2]; constructor; [|apply IH; lia].
    unfold clampZ. repeat match goal with |- context [?u <? ?w] => destruct (Z.ltb_spec u w) end; lia. }
  unfold rget. rewrite E. rewrite rindex_rank by (auto; now apply InDomain_length). cbn [bind]. assert (B := rank_bounds _ _ D).
  apply zget_ok. split; [lia|]. apply nth_error_nth'. lia.
Qed.

Lemma nine_order :
  AppliesInPlace [3; 3] [-1; -1] [1; 1] (repeat 1 9) (rdata ninePixels) (nearestAt 2) (fun r q => nth (Z.to_nat (rank [3; 3] (vclamp q [3; 3]))) (rdata r) 0) /\
  VisitOrder [3; 3] [-1; -1] [1; 1] [[1; 1]; [0; 1]; [2; 1]; [0; 0]; [1; 0]; [2; 0]; [0; 2]; [1; 2]; [2; 2]].
Proof.
  split.
  - split; [discriminate|]. split; [repeat constructor|]. split; [reflexivity|]. split; [reflexivity|]. split; [repeat constructor; lia|]. split; [reflexivity|].
    split; [exists [1; 1]; split; [reflexivity|]; split; repeat constructor; cbn; lia|].
    intros r q W E Lq. apply (nearest_image [3; 3]); auto. repeat constructor.
  - split.
    + intros p. split.
      * intros H. repeat (destruct H as [<-|H]; [repeat constructor; lia|]). destruct H.
      * intros H. inversion H as [|? x ? p1 Hx H1]; subst. inversion H1 as [|? y ? p2 Hy H2]; subst. inversion H2; subst.
        assert (Ex : x = 0 \/ x = 1 \/ x = 2) by lia. assert (Ey : y = 0 \/ y = 1 \/ y = 2) by lia. cbn. destruct Ex as [-> |[-> | ->]], Ey as [-> |[-> | ->]]; auto 12.
    + repeat (first [apply SSorted_nil | apply SSorted_cons | apply Forall_nil | apply Forall_cons]);
        first [left; vm_compute; reflexivity | right; split; [reflexivity|]; cbn; first [right; split; [reflexivity|lia] | left; right; split; [reflexivity|lia]]].
Qed.
