(** C116: windows which go beyond the current position by more than the length of the raster along the first axis, in any dimension. *)
From Verif Require Import Res VecModel BoxModel RasterModel SamplingModel LineKernelModel SeparableModel KernelModel TypedKernelModel WidthModel TypedMedianModel MixedModel
  Spec BoxSpec RasterSpec KernelSpec TypedKernelSpec Lemmas IndexProofs BoxIterProofs BoxGeomProofs AccessProofs SamplingProofs KernelProofs
  OriginKernelProofs TypedKernelProofs TypedOriginProofs LargeKernelProofs.

(** The regions which are already found are kept *)
Lemma surroundLoop_keeps f b axes : length b = length f -> forall cur out, (forall i, In i axes -> (i < length f)%nat) -> length (bfront cur) = length f -> length (bback cur) = length f ->
  exists cur' more, surroundLoop (mkBox f b) axes (cur, out) = Ok (cur', out ++ more).
Proof.
  intros Lb. induction axes as [|a axes IH]; intros cur out Ha H1 H2; [exists cur, []; now rewrite app_nil_r|]. cbn [surroundLoop]. unfold surroundAxis. cbn [bfront bback].
  assert (La : (a < length f)%nat) by (apply Ha; now left).
  destruct (zget_in_range f (Z.of_nat a) ltac:(lia)) as [u ->]. cbn [bind]. destruct (zget_in_range (bfront cur) (Z.of_nat a) ltac:(lia)) as [cf ->].
  destruct (zget_in_range b (Z.of_nat a) ltac:(lia)) as [v ->].
  assert (Ha' : forall i, In i axes -> (i < length f)%nat) by (intros; apply Ha; now right).
  assert (G : forall cur1 extra, length (bfront cur1) = length f -> length (bback cur1) = length f ->
    exists cur' more, surroundLoop (mkBox f b) axes (cur1, out ++ extra) = Ok (cur', out ++ more)).
  { intros cur1 extra L1 L2. destruct (IH cur1 (out ++ extra) Ha' L1 L2) as (c & m & ->). exists c, (extra ++ m). now rewrite app_assoc. }
  destruct (u <? 0); cbn [bind]; [rewrite !zset_ok by lia; cbn [bind]|];
    (destruct (0 <? v); cbn [bfront bback];
      [destruct (zget_in_range (bback cur) (Z.of_nat a) ltac:(lia)) as [cb ->]; cbn [bind]; rewrite !zset_ok by (rewrite ?replace_length; lia)|]; cbn [bind];
      rewrite <- ?app_assoc; try (apply G; cbn [bfront bback]; rewrite ?replace_length; lia); apply IH; auto).
Qed.

(** The first regions *)
Lemma surround_first s0 s' f0 f' b0 b' : length f' = length s' -> length b' = length s' ->
  exists more, surround (mkBox (ifront (f0 :: f')) (iback (s0 :: s') (b0 :: b'))) (mkBox (f0 :: f') (b0 :: b')) =
    Ok (((if f0 <? 0 then [mkBox (0 :: ifront f') (- f0 - 1 :: iback s' b')] else []) ++
         (if 0 <? b0 then [mkBox (s0 - b0 :: ifront f') (s0 - 1 :: iback s' b')] else [])) ++ more).
Proof.
  intros Lf Lb. unfold surround, boxDim. cbn [bfront map length seq surroundLoop combine fst snd]. unfold surroundAxis at 1. cbn [bfront bback Z.of_nat].
  rewrite !zget_cons_0. cbn [bind].
  assert (Hseq : forall i, In i (seq 1 (length (ifront f'))) -> (i < length (f0 :: f'))%nat) by (intros i Hi; apply in_seq in Hi; rewrite map_length in Hi; cbn [length]; lia).
  assert (Li : length (iback s' b') = length f') by (rewrite map_length, combine_length; lia). assert (Lo : length (ifront f') = length f') by apply map_length.
  destruct (f0 <? 0) eqn:Q1; cbn [bind]; [rewrite !zset_ok by (cbn [length]; lia); cbn [bind Z.to_nat replace bfront bback]|]; destruct (0 <? b0) eqn:Q2;
    cbn [bind bfront bback]; rewrite ?zget_cons_0; cbn [bind]; rewrite ?zset_ok by (cbn [length]; lia); cbn [bind Z.to_nat replace bfront bback app].
  all: match goal with |- context [surroundLoop ?m ?a (?c, ?o)] => destruct (surroundLoop_keeps (f0 :: f') (b0 :: b') a ltac:(cbn [length]; lia) c o Hseq ltac:(cbn [bfront length]; lia) ltac:(cbn [bback length]; lia)) as (c' & more & ->) end;
    cbn [bind snd app]; exists more; rewrite ?(Z.add_opp_diag_l f0), ?(Z.sub_add b0 (s0 - 1)); try (replace (s0 - 1 - b0 + 1) with (s0 - b0) by lia); reflexivity.
Qed.

Section Typed.
Context {X V : Type} (zero : V) (inner : V -> V -> X -> res V) (border : V -> V -> V -> res V) (store : X -> res V) (back : V -> res X).

(** No pixel is inner if the window is longer than the raster along the first axis *)
Lemma wide_inner n s0 s' f0 f' b0 b' values data fuel (out : raster X) : length f' = length s' -> length b' = length s' -> NonEmpty (ifront f') (iback s' b') ->
  f0 <= b0 -> s0 < b0 - f0 + 1 -> rshape out = s0 :: s' -> (length (positions (- f0 :: ifront f') (- f0 :: iback s' b')) < fuel)%nat ->
  correlateInnerG zero inner back fuel n values (mkBox (f0 :: f') (b0 :: b')) (mkRaster (s0 :: s') data) (mkBox (ifront (f0 :: f')) (iback (s0 :: s') (b0 :: b'))) out = Some (Ok out).
Proof.
  intros Hlen Hlb N' H1 H2 Hshape Hfuel. unfold correlateInnerG.
  destruct (boxSize _ =? 0) eqn:Esz; [reflexivity|]. clear Esz.
  cbn [map combine fst snd]. unfold boxLength, project. cbn [bfront bback rshape rdata]. rewrite !zget_cons_0. cbn [bind].
  rewrite zset_ok by (cbn [length]; lia). cbn [bind lift obind Z.to_nat replace bfront bback].
  replace (b0 - f0 + 1 =? 0) with false by lia. rewrite Hshape. rewrite rindex_rank; [|discriminate|cbn [length]; rewrite map_length; lia]. cbn [lift obind].
  rewrite boxForeach_positions; [|discriminate|constructor; [lia|auto]|auto]. cbn [obind].
  replace (Z.to_nat (s0 - 1 - b0 - - f0 + 1)) with O by lia.
  assert (HP : Forall (fun p => length (s0 :: s') = length p) (positions (- f0 :: ifront f') (- f0 :: iback s' b'))).
  { apply Forall_forall. intros p Hp. apply In_positions, Between_length in Hp. cbn [length] in Hp. rewrite map_length in Hp. cbn [length]. lia. }
  generalize 0 at 1 as i0. intros i0.
  assert (G : forall ps rows kW distance inIt d, Forall (fun p => length (s0 :: s') = length p) ps -> rowsLoopG zero inner back n (s0 :: s') ps 0 values data rows kW s0 distance inIt d = Ok d).
  { induction ps as [|p ps IH]; intros rows kW distance inIt d Hp; cbn [rowsLoopG]; auto. inversion Hp; subst. rewrite rindex_rank by (auto; discriminate). cbn [bind rowLoopG fst snd]. auto. }
  rewrite G by auto. cbn [lift obind]. destruct out. cbn in *. now rewrite Hshape.
Qed.

Lemma exts_prefix fuel n values w ext bs1 : forall bs2 (out : raster X), correlateExtsG zero border store back fuel n values w ext bs1 out = Some UB ->
  correlateExtsG zero border store back fuel n values w ext (bs1 ++ bs2) out = Some UB.
Proof.
  induction bs1 as [|bx bs1 IH]; intros bs2 out H; cbn [correlateExtsG app] in *; [discriminate|].
  destruct (correlateExtG _ _ _ _ _ _ _ _ _ _ out) as [[o| |]|]; cbn [obind] in *; auto; discriminate.
Qed.

Lemma beyond_undefined n s0 s' f0 f' b0 b' values data ext out :
  (forall a k x, NoThrow (inner a k x)) -> (forall a k x, NoThrow (border a k x)) -> (forall x, NoThrow (store x)) -> (forall v, NoThrow (back v)) ->
  n = Z.of_nat (length (s0 :: s')) -> Positive (s0 :: s') -> f0 <= 0 <= b0 -> length f' = length s' -> Forall2 (fun x y => x <= 0 <= y) f' b' ->
  Forall2 (fun w s => w <= s) (wshape f' b') s' -> (forall q, NoThrow (ext q)) -> WF out -> rshape out = s0 :: s' ->
  (s0 < - f0 /\ Forall (eq 0) b') \/ (s0 < b0 /\ Forall (eq 0) f') ->
  exists enough, forall fuel, (enough <= fuel)%nat ->
    correlateToG zero inner border store back fuel n values (mkBox (f0 :: f') (b0 :: b')) (mkRaster (s0 :: s') data) ext (out : raster X) = Some UB.
Proof.
  intros Hinner Hborder Hstore Hback Hn Hs H0 Lf Hw Hfit Hext Hwf Hshape Hbad.
  assert (Lb : length b' = length s') by (rewrite <- Lf; symmetry; now apply Forall2_len in Hw).
  destruct (inner_box n (s0 :: s') (f0 :: f') (b0 :: b') Hn ltac:(cbn [length]; lia) ltac:(cbn [length]; lia)) as (I1 & I2 & _).
  assert (Hin := inner_nonempty s' f' b' Lf Lb Hfit).
  destruct (surround_first s0 s' f0 f' b0 b' Lf Lb) as (more & EL).
  match type of EL with _ = Ok (?l ++ more) => set (bs := l) in EL end.
  assert (Hfb : NonEmpty (f0 :: f') (b0 :: b')) by (constructor; [lia|]; clear - Hw; induction Hw; constructor; auto; lia).
  assert (LN : Forall Nonempty bs).
  { unfold bs. apply Forall_app. split.
    - destruct (f0 <? 0) eqn:Q; constructor; [|constructor]. apply Nonempty_iff. constructor; [lia|exact Hin].
    - destruct (0 <? b0) eqn:Q; constructor; [|constructor]. apply Nonempty_iff. constructor; [lia|exact Hin]. }
  assert (LL : Forall (fun bx => length (bfront bx) = length (f0 :: f')) bs).
  { unfold bs. apply Forall_app. split; [destruct (f0 <? 0)|destruct (0 <? b0)]; constructor; try constructor; cbn [bfront length]; now rewrite map_length. }
  destruct (exts_casesG zero inner border store back Hinner Hborder Hstore Hback n values (f0 :: f') (b0 :: b') ext ltac:(discriminate) Hfb Hext bs LN LL) as (e2 & E2).
  exists (Nat.max e2 (S (length (positions (- f0 :: ifront f') (- f0 :: iback s' b'))))). intros fuel Hfuel.
  assert (H1 : s0 < b0 - f0 + 1) by lia.
  unfold correlateToG. cbn [rshape]. rewrite I1. cbn [lift obind]. rewrite I2, EL. cbn [lift obind].
  rewrite wide_inner; auto; [|lia|lia]. cbn [obind]. apply exts_prefix.
  destruct (E2 fuel out ltac:(lia) ltac:(rewrite Hshape; discriminate) ltac:(rewrite Hshape; cbn [length]; lia)) as [H|(o & _ & _ & Hval)]; [exact H|exfalso].
  destruct Hwf as (_ & _ & Hout). rewrite Hshape in Hout. unfold ValidG in Hval. rewrite Hshape, Hout in Hval.
  destruct Hbad as [(B1 & B2)|(B1 & B2)].
  - assert (Q : f0 <? 0 = true) by (inversion Hs; subst; lia). unfold bs in Hval. rewrite Q in Hval. inversion Hs as [|? ? S1 S2]; subst.
    specialize (Hval (mkBox (0 :: ifront f') (- f0 - 1 :: iback s' b')) (- f0 - 1 :: iback s' b') ltac:(apply in_or_app; left; now left)).
    assert (Hc : 0 <= rank (s0 :: s') (- f0 - 1 :: iback s' b') < prod (s0 :: s')).
    { apply Hval. apply Between_cons_iff. split; [lia|]. now apply NonEmpty_back. }
    rewrite rank_cons, prod_cons in Hc.
    assert (Er : rank s' (iback s' b') = prod s' - 1).
    { destruct s' as [|u s']; [destruct b'; reflexivity|]. rewrite rank_iback by (auto; discriminate).
      assert (Z0 : forall s l, Forall (eq 0) l -> rank s l = 0); [|rewrite Z0 by exact B2; lia].
      induction s as [|v s IH]; intros l Hl; [reflexivity|]. inversion Hl as [|? ? E Hl']; subst; [reflexivity|]. rewrite rank_cons, IH by assumption. lia. }
    rewrite Er in Hc. nia.
  - assert (Q : 0 <? b0 = true) by (inversion Hs; subst; lia). unfold bs in Hval. rewrite Q in Hval. inversion Hs as [|? ? S1 S2]; subst.
    specialize (Hval (mkBox (s0 - b0 :: ifront f') (s0 - 1 :: iback s' b')) (s0 - b0 :: ifront f') ltac:(apply in_or_app; right; now left)).
    assert (Hc : 0 <= rank (s0 :: s') (s0 - b0 :: ifront f') < prod (s0 :: s')).
    { apply Hval. apply Between_cons_iff. split; [lia|]. now apply NonEmpty_front. }
    rewrite rank_cons, rank_ifront in Hc.
    assert (Z0 : forall s l, Forall (eq 0) l -> rank s l = 0).
    { induction s as [|v s IH]; intros l Hl; [reflexivity|]. inversion Hl as [|? ? E Hl']; subst; [reflexivity|]. rewrite rank_cons, IH by assumption. lia. }
    rewrite Z0 in Hc by exact B2. lia.
Qed.
End Typed.

(** The values computed out of the rows overwrite those of the previous ones *)
Lemma beyond_overwritten : let image := fun q => 10 * nth 0 q 0 in
  exists out, intCorrelateTo int32 50 2 (repeat 1 12) (mkBox [0; -1] [3; 1]) (mkRaster [2; 4] [0; 10; 0; 10; 0; 10; 0; 10]) (fun q => Ok (image q)) (mkRaster [2; 4] (repeat 0 8)) = Some (Ok out) /\
    zget (rdata out) (rank [2; 4] [1; 1]) = Ok 60 /\
    borderResult 0 (innerStep int32 int32) (@Ok Z) (@Ok Z) (repeat 1 12) (windowPixels [0; -1] [3; 1] image [1; 1]) = Ok 300 /\
    borderResult 0 (innerStep int32 int32) (@Ok Z) (@Ok Z) (repeat 1 12) (windowPixels [0; -1] [3; 1] image [-1; 2]) = Ok 60.
Proof. vm_compute. eexists. repeat split. Qed.
