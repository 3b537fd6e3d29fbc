(** C113, C115: windows which do not contain the origin, for kernels and pixels of any types, also in place. *)
From Verif Require Import Res VecModel BoxModel RasterModel SamplingModel LineKernelModel SeparableModel TypedKernelModel InterpModel InPlaceKernelModel
  Spec BoxSpec RasterSpec TypedKernelSpec Lemmas IndexProofs BoxIterProofs BoxGeomProofs AccessProofs SamplingProofs KernelProofs OriginKernelProofs TypedKernelProofs.

Lemma innerLoopG_nothrow {V Y : Type} (step : V -> V -> Y -> res V) : (forall a k x, NoThrow (step a k x)) -> forall n k mem a b acc, NoThrow (innerLoopG step n k mem a b acc).
Proof.
  intros H. induction n as [|n IH]; intros k mem a b acc e; cbn [innerLoopG]; [discriminate|].
  destruct (zget k a) as [v| |] eqn:E1; cbn [bind]; [|now apply zget_no_throw in E1|discriminate].
  destruct (zget mem b) as [x| |] eqn:E2; cbn [bind]; [|now apply zget_no_throw in E2|discriminate].
  assert (G := H acc v x e). destruct (step acc v x); cbn [bind]; try congruence. apply IH.
Qed.

(** A corner of the regions is not valid *)
Lemma outer_corner shape f b : shape <> [] -> Positive shape -> length f = length shape -> length b = length shape -> NonEmpty (ifront f) (iback shape b) ->
  (Exists (fun x => 0 < x) f \/ Exists (fun y => y < 0) b) ->
  exists c, InBox (boxGrow (mkBox (ifront f) (iback shape b)) (mkBox (map (Z.min 0) f) (map (Z.max 0) b))) c /\ ~ 0 <= rank shape c < prod shape.
Proof.
  intros Hne Hs Hlen Lb Hin Ho.
  assert (Hg : NonEmpty (vadd (ifront f) (map (Z.min 0) f)) (vadd (iback shape b) (map (Z.max 0) b))).
    { clear - Hin Hlen Lb. revert f b Hlen Lb Hin. induction shape as [|l s IH]; intros [|x f] [|y b] H1 H2 H; cbn in H1, H2; try discriminate; [constructor|].
      cbn [combine map fst snd] in H |- *. inversion H as [|? ? ? ? W1 W2]; subst. constructor; [lia|]. apply IH; auto; lia. }
    destruct Ho as [Ho|Ho].
    - exists (vadd (ifront f) (map (Z.min 0) f)). split; [apply NonEmpty_front, Hg|].
      assert (E : vadd (ifront f) (map (Z.min 0) f) = ifront (map (Z.max 0) f)).
      { clear. induction f as [|x f IH]; cbn; [reflexivity|]. f_equal; [lia|exact IH]. }
      rewrite E, rank_ifront. destruct (rank_positive shape (map (Z.max 0) f) Hs) as (_ & P).
      + now rewrite map_length.
      + apply Forall_map, Forall_forall. intros. lia.
      + assert (E' : Exists (fun x => 0 < x) (map (Z.max 0) f)); [|specialize (P E'); lia].
        clear - Ho. induction Ho as [x l H|x l H IH]; cbn [map]; [left; lia|right; exact IH].
    - exists (vadd (iback shape b) (map (Z.max 0) b)). split; [apply NonEmpty_back, Hg|].
      assert (E : vadd (iback shape b) (map (Z.max 0) b) = iback shape (map (Z.min 0) b)).
      { clear - Lb. revert b Lb. induction shape as [|l s IH]; intros [|y b] H; cbn in H; try discriminate; cbn; [reflexivity|]. f_equal; [lia|]. apply IH. lia. }
      rewrite E, rank_iback by (auto; now rewrite map_length). assert (P := rank_negative shape (map (Z.min 0) b) Hs).
      assert (P' : rank shape (map (Z.min 0) b) < 0); [apply P|lia].
      + now rewrite map_length.
      + apply Forall_map, Forall_forall. intros. lia.
      + clear - Ho. induction Ho as [x l H|x l H IH]; cbn [map]; [left; lia|right; exact IH].
Qed.

(** The same shape and number of elements *)
Definition SameG {X} (out out' : raster X) : Prop := rshape out' = rshape out /\ length (rdata out') = length (rdata out).
Definition ValidG {X} (out : raster X) (p : list Z) : Prop := 0 <= rank (rshape out) p < Z.of_nat (length (rdata out)).

Section Typed.
Context {X V : Type} (zero : V) (inner : V -> V -> X -> res V) (border : V -> V -> V -> res V) (store : X -> res V) (back : V -> res X).
Hypothesis Hinner : forall a k x, NoThrow (inner a k x).
Hypothesis Hborder : forall a k x, NoThrow (border a k x).
Hypothesis Hstore : forall x, NoThrow (store x).
Hypothesis Hback : forall v, NoThrow (back v).

Lemma rowSumG_nothrow values mem kW inW rows : forall kIt inIt acc, NoThrow (rowSumG inner rows values mem kIt inIt kW inW acc).
Proof.
  induction rows as [|rows IH]; intros kIt inIt acc e; cbn [rowSumG]; [discriminate|].
  assert (G := innerLoopG_nothrow inner Hinner (Z.to_nat kW) values mem kIt inIt acc e). destruct (innerLoopG _ _ _ _ _ _ _); cbn [bind]; try congruence. apply IH.
Qed.

Lemma fromAddress_nothrow values mem rows kW inW start : NoThrow (fromAddress zero inner back values mem rows kW inW start).
Proof.
  intros e. unfold fromAddress. assert (G := rowSumG_nothrow values mem kW inW rows 0 start zero e). destruct (rowSumG _ _ _ _ _ _ _ _ _); cbn [bind]; try congruence. apply Hback.
Qed.

Lemma flatLoopG_cases values mem rows kW inW distance L : forall inIt out,
  flatLoopG zero inner back values mem rows kW inW distance L inIt out = UB \/
  exists i out', flatLoopG zero inner back values mem rows kW inW distance L inIt out = Ok (i, out') /\ length out' = length out /\ Forall (fun a => 0 <= a < Z.of_nat (length out)) L.
Proof.
  induction L as [|c L IH]; intros inIt out; cbn [flatLoopG]; [right; eauto|].
  assert (G := fromAddress_nothrow values mem rows kW inW inIt). destruct (fromAddress _ _ _ _ _ _ _ _ inIt) as [v|e|] eqn:E; cbn [bind]; [|now destruct (G e)|now left].
  destruct (zset_cases out c v) as [->|(out' & -> & Hl & Hc)]; cbn [bind]; [now left|].
  destruct (IH (c + 1 - distance) out') as [->|(i & o & -> & H1 & H2)]; [now left|right]. rewrite Hl in *. eauto 10.
Qed.

Section Ext.
Variables (n : Z) (values : list V) (f b : list Z) (ext : list Z -> res X).
Hypothesis Hne : f <> [].
Hypothesis Hfb : NonEmpty f b.
Hypothesis Hext : forall q, NoThrow (ext q).

Lemma extPixelG_cases p out buffer fuel : rshape out <> [] -> length p = length f -> length (rshape out) = length f -> (length (positions f b) < fuel)%nat ->
  extPixelG zero border store back fuel n values (mkBox f b) ext p out buffer = Some UB \/
  exists out' buffer', extPixelG zero border store back fuel n values (mkBox f b) ext p out buffer = Some (Ok (out', buffer')) /\ SameG out out' /\ ValidG out p.
Proof.
  intros Hs Hp Hl Hf. assert (Hlen := Forall2_len _ _ _ Hfb). unfold extPixelG, boxShift. cbn [bfront bback].
  rewrite boxForeach_positions; [|destruct f, p; cbn in *; try congruence; try lia|apply NonEmpty_shift; auto|rewrite positions_shift, map_length by lia; lia].
  cbn [obind]. match goal with |- context [mapRes ?g ?l] => assert (G := mapRes_nothrow g l); destruct (mapRes g l) as [xs|e|] end; cbn [lift obind]; [|exfalso|now left].
  2:{ refine (G _ e eq_refl). intros q _ e'. assert (Q := Hext q e'). destruct (ext q); cbn [bind]; try congruence. apply Hstore. }
  destruct (Nat.ltb _ _); [now left|].
  match goal with |- context [innerLoopG border ?a ?b ?c ?d ?e ?g] => assert (G2 := innerLoopG_nothrow border Hborder a b c d e g); destruct (innerLoopG border a b c d e g) as [v|e'|] end;
    cbn [lift obind]; [|now destruct (G2 e')|now left].
  assert (G3 := Hback v). destruct (back v) as [w|e'|]; cbn [bind lift obind]; [|now destruct (G3 e')|now left].
  unfold rset. rewrite rindex_rank by (auto; lia). cbn [bind].
  destruct (zset_cases (rdata out) (rank (rshape out) p) w) as [->|(d & -> & L1 & L2)]; cbn [bind lift obind]; [now left|right].
  eexists _, _. split; [reflexivity|]. split; [split; [reflexivity|exact L1]|exact L2].
Qed.

Lemma extLoopG_cases ps : forall out buffer fuel, rshape out <> [] -> Forall (fun p => length p = length f) ps -> length (rshape out) = length f ->
  (length (positions f b) < fuel)%nat ->
  extLoopG zero border store back fuel n values (mkBox f b) ext ps out buffer = Some UB \/ exists out', extLoopG zero border store back fuel n values (mkBox f b) ext ps out buffer = Some (Ok out') /\ SameG out out' /\ Forall (ValidG out) ps.
Proof.
  induction ps as [|p ps IH]; intros out buffer fuel Hs Hps Hl Hf; cbn [extLoopG].
  - right. exists out. repeat split. constructor.
  - inversion Hps as [|? ? P1 P2]; subst. destruct (extPixelG_cases p out buffer fuel Hs P1 Hl Hf) as [->|(o1 & b1 & -> & (S1 & S2) & HV)]; cbn [obind fst snd]; [now left|].
    destruct (IH o1 b1 fuel) as [->|(o2 & -> & (T1 & T2) & W)]; rewrite ?S1; auto. right. exists o2. split; [reflexivity|]. split; [split; congruence|].
    constructor; [exact HV|]. eapply Forall_impl; [|exact W]. intros q. unfold ValidG. now rewrite S1, S2.
Qed.

Lemma ext_casesG bx : Nonempty bx -> length (bfront bx) = length f ->
  exists enough, forall fuel out, (enough <= fuel)%nat -> rshape out <> [] -> length (rshape out) = length f ->
    correlateExtG zero border store back fuel n values (mkBox f b) ext bx out = Some UB \/ exists out', correlateExtG zero border store back fuel n values (mkBox f b) ext bx out = Some (Ok out') /\ SameG out out' /\ forall p, InBox bx p -> ValidG out p.
Proof.
  intros Hn Hl. destruct bx as [xf xb]. apply Nonempty_iff in Hn. cbn [bfront bback] in Hn, Hl.
  exists (S (Nat.max (length (positions f b)) (length (positions xf xb)))). intros fuel out Hf Hs Ho.
  assert (Hxf : xf <> []) by (destruct xf; [destruct f; [congruence|discriminate]|discriminate]).
  unfold correlateExtG. assert (Hsz : boxSize (mkBox xf xb) <> 0).
  { rewrite (boxSize_count xf xb) by auto. destruct (positions_hd _ _ Hn) as [L ->]. cbn. lia. }
  replace (boxSize _ =? 0) with false by lia. rewrite boxForeach_positions by (auto; lia). cbn [obind].
  destruct (extLoopG_cases (positions xf xb) out (repeat zero (length values)) fuel) as [->|(o & -> & S1 & HV)]; auto; [|lia|].
  - apply Forall_forall. intros p Hp. apply In_positions, Between_length in Hp. lia.
  - right. exists o. split; [reflexivity|]. split; [exact S1|]. intros p Hp. apply In_positions in Hp. now apply (proj1 (Forall_forall _ _) HV).
Qed.

Lemma exts_casesG bs : Forall Nonempty bs -> Forall (fun bx => length (bfront bx) = length f) bs ->
  exists enough, forall fuel out, (enough <= fuel)%nat -> rshape out <> [] -> length (rshape out) = length f ->
    correlateExtsG zero border store back fuel n values (mkBox f b) ext bs out = Some UB \/
    exists out', correlateExtsG zero border store back fuel n values (mkBox f b) ext bs out = Some (Ok out') /\ SameG out out' /\ forall bx p, In bx bs -> InBox bx p -> ValidG out p.
Proof.
  induction bs as [|bx bs IH]; intros Hn Hl.
  - exists O. intros. right. exists out. split; [reflexivity|]. split; [split; reflexivity|intros bx p []].
  - inversion Hn as [|? ? N1 N2]; subst. inversion Hl as [|? ? L1 L2]; subst.
    destruct (ext_casesG bx N1 L1) as (e1 & E1). destruct (IH N2 L2) as (e2 & E2). exists (Nat.max e1 e2). intros fuel out Hf Hs Ho. cbn [correlateExtsG].
    destruct (E1 fuel out ltac:(lia) Hs Ho) as [->|(o1 & -> & (S1 & S2) & V1)]; cbn [obind]; [now left|].
    destruct (E2 fuel o1 ltac:(lia) ltac:(now rewrite S1) ltac:(now rewrite S1)) as [->|(o2 & -> & (T1 & T2) & V2)]; [now left|right].
    exists o2. split; [reflexivity|]. split; [split; congruence|]. intros c p [Hc|Hc] Hp; [subst; now apply V1|].
    specialize (V2 c p Hc Hp). unfold ValidG in *. now rewrite S1, S2 in V2.
Qed.
End Ext.

Lemma inner_casesG fuel n s0 s' f0 f' b0 b' values data out : let s := s0 :: s' in let f := f0 :: f' in let b := b0 :: b' in
  length f = length s -> NonEmpty f b -> NonEmpty (ifront f) (iback s b) -> rshape out = s ->
  (S (length (positions (ifront f) (- f0 :: iback s' b'))) <= fuel)%nat ->
  correlateInnerG zero inner back fuel n values (mkBox f b) (mkRaster s data) (mkBox (ifront f) (iback s b)) out = Some UB \/
  exists out', correlateInnerG zero inner back fuel n values (mkBox f b) (mkRaster s data) (mkBox (ifront f) (iback s b)) out = Some (Ok out') /\
    SameG out out' /\ forall p, Between (ifront f) (iback s b) p -> ValidG out p.
Proof.
  intros s f b Hlen Hfb Hin Hshape Hfuel.
  assert (Hlb : length b = length s) by (rewrite <- Hlen; symmetry; now apply Forall2_len in Hfb).
  set (fi := ifront f) in *. set (bi := iback s b) in *.
  assert (Efi : fi = - f0 :: ifront f') by reflexivity.
  assert (Ebi : bi = s0 - 1 - b0 :: iback s' b') by reflexivity.
  assert (Hne : fi <> []) by (rewrite Efi; discriminate).
  assert (Hfb0 : f0 <= b0) by (inversion Hfb; auto).
  unfold correlateInnerG.
  assert (Hsz : boxSize (mkBox fi bi) <> 0) by (rewrite boxSize_count by auto; destruct (positions_hd _ _ Hin) as [L ->]; cbn; lia).
  replace (boxSize (mkBox fi bi) =? 0) with false by lia.
  rewrite Efi, Ebi. unfold boxLength, project. cbn [bfront bback rshape rdata].
  unfold f, b, s. rewrite !zget_cons_0. cbn [bind]. rewrite zset_ok by (cbn [length]; lia). cbn [bind lift obind Z.to_nat replace bfront bback].
  replace (b0 - f0 + 1 =? 0) with false by lia.
  rewrite Hshape. rewrite rindex_rank; [|discriminate|unfold s; cbn [length]; rewrite map_length; cbn in Hlen; lia]. cbn [lift obind].
  assert (Hbx : NonEmpty (- f0 :: ifront f') (- f0 :: iback s' b')) by (constructor; [lia|]; rewrite Efi, Ebi in Hin; inversion Hin; auto).
  rewrite boxForeach_positions; [|discriminate|auto|rewrite <- Efi; lia]. cbn [obind].
  replace (Z.to_nat (s0 - 1 - b0 - - f0 + 1)) with (Z.to_nat ((s0 - 1 - b0) - (- f0) + 1)) by lia.
  rewrite (rowsLoop_flatG zero inner border store back); [|discriminate|].
  - rewrite positions_flat. rewrite <- Efi, <- Ebi. fold s.
    match goal with |- context [flatLoopG _ _ _ ?v ?m ?r ?k ?i ?d ?L ?a ?o] => destruct (flatLoopG_cases v m r k i d L a o) as [->|(j & d' & -> & El & Hv)] end; cbn [bind snd lift obind]; [now left|right].
    eexists. split; [reflexivity|]. split; [split; [now rewrite Hshape|exact El]|].
    intros p Hp. unfold ValidG. rewrite Hshape. apply (proj1 (Forall_forall _ _) Hv). apply in_map, In_positions, Hp.
  - apply Forall_forall. intros p Hp. apply In_positions in Hp. split.
    + apply Between_length in Hp. cbn [length] in Hp. rewrite map_length in Hp. unfold s. cbn [length]. cbn in Hlen. lia.
    + destruct p as [|z p]; [inversion Hp|]. apply Between_cons_iff in Hp. cbn. lia.
Qed.

Lemma kernel_originG n shape f b values data ext out : shape <> [] -> n = Z.of_nat (length shape) -> Positive shape ->
  length f = length shape -> Forall2 Z.le f b -> Forall2 (fun w s => w <= s) (wshape f b) shape -> WF out -> rshape out = shape ->
  (forall q, NoThrow (ext q)) -> (Exists (fun x => 0 < x) f \/ Exists (fun y => y < 0) b) ->
  exists enough, forall fuel, (enough <= fuel)%nat ->
    correlateToG zero inner border store back fuel n values (mkBox f b) (mkRaster shape data) ext out = Some UB.
Proof.
  intros Hne Hn Hs Hlen Hfb Hw Hwf Hshape Hext Ho.
  assert (Lb : length b = length shape) by (rewrite <- Hlen; symmetry; now apply Forall2_len in Hfb).
  destruct (inner_box n shape f b Hn Hlen Lb) as (I1 & I2 & _).
  assert (Hin := inner_nonempty shape f b Hlen Lb Hw).
  destruct (surround_spec (ifront f) (iback shape b) (map (Z.min 0) f) (map (Z.max 0) b)) as (L & EL & LN & _ & LC & _).
  { now rewrite !map_length. } { rewrite !map_length. lia. } { exact Hin. }
  { apply Forall_map, Forall_forall. intros. lia. } { apply Forall_map, Forall_forall. intros. lia. }
  rewrite <- surround_clamp in EL.
  destruct (outer_corner shape f b Hne Hs Hlen Lb Hin Ho) as (c & Hc & Hbad).
  assert (Hf : f <> []) by (destruct f; [destruct shape; [congruence|discriminate]|discriminate]).
  assert (LL : Forall (fun bx => length (bfront bx) = length f) L).
  { apply Forall_forall. intros bx Hbx. destruct (proj1 (Forall_forall _ _) LN bx Hbx) as (p & Hp). assert (Hp' := proj2 (LC p) (or_intror (ex_intro _ bx (conj Hbx Hp)))).
    apply Between_length in Hp, Hp'. cbn [boxGrow bfront bback] in Hp'. unfold vadd in Hp'. rewrite map2_length in Hp' by (now rewrite !map_length). rewrite map_length in Hp'. lia. }
  destruct (exts_casesG n values f b ext Hf Hfb Hext L LN LL) as (e2 & E2).
  destruct Hwf as (_ & _ & Hout). rewrite Hshape in Hout.
  destruct shape as [|s0 s']; [congruence|]. destruct f as [|f0 f']; [congruence|]. destruct b as [|b0 b']; [discriminate|].
  exists (Nat.max e2 (S (length (positions (ifront (f0 :: f')) (- f0 :: iback s' b'))))). intros fuel Hfuel.
  unfold correlateToG. cbn [rshape]. rewrite I1. cbn [lift obind]. rewrite I2, EL. cbn [lift obind].
  destruct (inner_casesG fuel n s0 s' f0 f' b0 b' values data out Hlen Hfb Hin Hshape ltac:(lia)) as [->|(o1 & -> & (S1 & S2) & V1)]; cbn [obind]; [reflexivity|].
  destruct (E2 fuel o1 ltac:(lia) ltac:(rewrite S1, Hshape; discriminate) ltac:(rewrite S1, Hshape; now symmetry)) as [->|(o2 & _ & _ & V2)]; [reflexivity|].
  exfalso. apply Hbad. apply LC in Hc. destruct Hc as [Hc|(bx & Hbx & Hc)].
  - specialize (V1 c Hc). unfold ValidG in V1. now rewrite Hshape, Hout in V1.
  - specialize (V2 bx c Hbx Hc). unfold ValidG in V2. now rewrite S1, S2, Hshape, Hout in V2.
Qed.

(** In place *)
Section Self.
Variable view : raster X -> list Z -> res X.
Variables (n : Z) (values : list V) (f b : list Z).
Hypothesis Hne : f <> [].
Hypothesis Hfb : NonEmpty f b.
Hypothesis Hview : forall r q, NoThrow (view r q).

Lemma extLoopS_cases ps : forall out buffer fuel, rshape out <> [] -> Forall (fun p => length p = length f) ps -> length (rshape out) = length f ->
  (length (positions f b) < fuel)%nat ->
  extLoopS zero border store back view fuel n values (mkBox f b) ps out buffer = Some UB \/ exists out', extLoopS zero border store back view fuel n values (mkBox f b) ps out buffer = Some (Ok out') /\ SameG out out' /\ Forall (ValidG out) ps.
Proof.
  induction ps as [|p ps IH]; intros out buffer fuel Hs Hps Hl Hf; cbn [extLoopS].
  - right. exists out. repeat split. constructor.
  - inversion Hps as [|? ? P1 P2]; subst. destruct (extPixelG_cases n values f b (view out) Hne Hfb (Hview out) p out buffer fuel Hs P1 Hl Hf) as [->|(o1 & b1 & -> & (S1 & S2) & HV)]; cbn [obind fst snd]; [now left|].
    destruct (IH o1 b1 fuel) as [->|(o2 & -> & (T1 & T2) & W)]; rewrite ?S1; auto. right. exists o2. split; [reflexivity|]. split; [split; congruence|].
    constructor; [exact HV|]. eapply Forall_impl; [|exact W]. intros q. unfold ValidG. now rewrite S1, S2.
Qed.

Lemma ext_casesS bx : Nonempty bx -> length (bfront bx) = length f ->
  exists enough, forall fuel out, (enough <= fuel)%nat -> rshape out <> [] -> length (rshape out) = length f ->
    correlateExtS zero border store back view fuel n values (mkBox f b) bx out = Some UB \/ exists out', correlateExtS zero border store back view fuel n values (mkBox f b) bx out = Some (Ok out') /\ SameG out out' /\ forall p, InBox bx p -> ValidG out p.
Proof.
  intros Hn Hl. destruct bx as [xf xb]. apply Nonempty_iff in Hn. cbn [bfront bback] in Hn, Hl.
  exists (S (Nat.max (length (positions f b)) (length (positions xf xb)))). intros fuel out Hf Hs Ho.
  assert (Hxf : xf <> []) by (destruct xf; [destruct f; [congruence|discriminate]|discriminate]).
  unfold correlateExtS. assert (Hsz : boxSize (mkBox xf xb) <> 0).
  { rewrite (boxSize_count xf xb) by auto. destruct (positions_hd _ _ Hn) as [L ->]. cbn. lia. }
  replace (boxSize _ =? 0) with false by lia. rewrite boxForeach_positions by (auto; lia). cbn [obind].
  destruct (extLoopS_cases (positions xf xb) out (repeat zero (length values)) fuel) as [->|(o & -> & S1 & HV)]; auto; [|lia|].
  - apply Forall_forall. intros p Hp. apply In_positions, Between_length in Hp. lia.
  - right. exists o. split; [reflexivity|]. split; [exact S1|]. intros p Hp. apply In_positions in Hp. now apply (proj1 (Forall_forall _ _) HV).
Qed.

Lemma exts_casesS bs : Forall Nonempty bs -> Forall (fun bx => length (bfront bx) = length f) bs ->
  exists enough, forall fuel out, (enough <= fuel)%nat -> rshape out <> [] -> length (rshape out) = length f ->
    correlateExtsS zero border store back view fuel n values (mkBox f b) bs out = Some UB \/
    exists out', correlateExtsS zero border store back view fuel n values (mkBox f b) bs out = Some (Ok out') /\ SameG out out' /\ forall bx p, In bx bs -> InBox bx p -> ValidG out p.
Proof.
  induction bs as [|bx bs IH]; intros Hn Hl.
  - exists O. intros. right. exists out. split; [reflexivity|]. split; [split; reflexivity|intros bx p []].
  - inversion Hn as [|? ? N1 N2]; subst. inversion Hl as [|? ? L1 L2]; subst.
    destruct (ext_casesS bx N1 L1) as (e1 & E1). destruct (IH N2 L2) as (e2 & E2). exists (Nat.max e1 e2). intros fuel out Hf Hs Ho. cbn [correlateExtsS].
    destruct (E1 fuel out ltac:(lia) Hs Ho) as [->|(o1 & -> & (S1 & S2) & V1)]; cbn [obind]; [now left|].
    destruct (E2 fuel o1 ltac:(lia) ltac:(now rewrite S1) ltac:(now rewrite S1)) as [->|(o2 & -> & (T1 & T2) & V2)]; [now left|right].
    exists o2. split; [reflexivity|]. split; [split; congruence|]. intros c p [Hc|Hc] Hp; [subst; now apply V1|].
    specialize (V2 c p Hc Hp). unfold ValidG in *. now rewrite S1, S2 in V2.
Qed.
End Self.

Lemma rowLoopS_cases values rows kW inW distance pixels : forall outIt inIt mem,
  rowLoopS zero inner back pixels values rows kW inW distance outIt inIt mem = UB \/
  exists i mem', rowLoopS zero inner back pixels values rows kW inW distance outIt inIt mem = Ok (i, mem') /\ length mem' = length mem /\
    forall k, 0 <= k < Z.of_nat pixels -> 0 <= outIt + k < Z.of_nat (length mem).
Proof.
  induction pixels as [|pixels IH]; intros outIt inIt mem; cbn [rowLoopS]; [right; exists inIt, mem; repeat split; lia|].
  assert (G := rowSumG_nothrow values mem kW inW rows 0 inIt zero). destruct (rowSumG _ _ _ _ _ _ _ _ _) as [s|e|]; cbn [bind]; [|now destruct (G e)|now left].
  assert (G2 := Hback s). destruct (back s) as [v|e|]; cbn [bind]; [|now destruct (G2 e)|now left].
  destruct (zset_cases mem outIt v) as [->|(m & -> & Hl & Hc)]; cbn [bind]; [now left|].
  destruct (IH (outIt + 1) (outIt + 1 - distance) m) as [->|(i & m' & -> & H1 & H2)]; [now left|right]. exists i, m'. split; [reflexivity|]. split; [congruence|].
  intros k Hk. destruct (Z.eq_dec k 0) as [->|N]; [now rewrite Z.add_0_r|]. specialize (H2 (k - 1) ltac:(lia)). rewrite Hl in H2. lia.
Qed.

Lemma rowsLoopS_cases n shape values rows kW inW distance pixels ps : shape <> [] -> Forall (fun p => length p = length shape) ps -> forall inIt mem,
  rowsLoopS zero inner back n shape ps pixels values rows kW inW distance inIt mem = UB \/
  exists mem', rowsLoopS zero inner back n shape ps pixels values rows kW inW distance inIt mem = Ok mem' /\ length mem' = length mem /\
    forall p k, In p ps -> 0 <= k < Z.of_nat pixels -> 0 <= rank shape p + k < Z.of_nat (length mem).
Proof.
  intros Hs. induction 1 as [|p ps Hp Hps IH]; intros inIt mem; cbn [rowsLoopS]; [right; exists mem; repeat split; contradiction|].
  rewrite rindex_rank by auto. cbn [bind].
  destruct (rowLoopS_cases values rows kW inW distance pixels (rank shape p) inIt mem) as [->|(i & m & -> & Hl & Hc)]; cbn [bind fst snd]; [now left|].
  destruct (IH i m) as [->|(m' & -> & H1 & H2)]; [now left|right]. exists m'. split; [reflexivity|]. split; [congruence|].
  intros q k [Hq|Hq] Hk; [subst; auto|]. rewrite <- Hl. auto.
Qed.

Lemma inner_casesS fuel n s0 s' f0 f' b0 b' values out : let s := s0 :: s' in let f := f0 :: f' in let b := b0 :: b' in
  length f = length s -> NonEmpty f b -> NonEmpty (ifront f) (iback s b) -> rshape out = s ->
  (S (length (positions (ifront f) (- f0 :: iback s' b'))) <= fuel)%nat ->
  correlateInnerS zero inner back fuel n values (mkBox f b) (mkBox (ifront f) (iback s b)) out = Some UB \/
  exists out', correlateInnerS zero inner back fuel n values (mkBox f b) (mkBox (ifront f) (iback s b)) out = Some (Ok out') /\
    SameG out out' /\ forall p, Between (ifront f) (iback s b) p -> ValidG out p.
Proof.
  intros s f b Hlen Hfb Hin Hshape Hfuel.
  assert (Hlb : length b = length s) by (rewrite <- Hlen; symmetry; now apply Forall2_len in Hfb).
  set (fi := ifront f) in *. set (bi := iback s b) in *.
  assert (Efi : fi = - f0 :: ifront f') by reflexivity.
  assert (Ebi : bi = s0 - 1 - b0 :: iback s' b') by reflexivity.
  assert (Hne : fi <> []) by (rewrite Efi; discriminate).
  assert (Hfb0 : f0 <= b0) by (inversion Hfb; auto).
  unfold correlateInnerS. rewrite Hshape.
  assert (Hsz : boxSize (mkBox fi bi) <> 0) by (rewrite boxSize_count by auto; destruct (positions_hd _ _ Hin) as [L ->]; cbn; lia).
  replace (boxSize (mkBox fi bi) =? 0) with false by lia.
  rewrite Efi, Ebi. unfold boxLength, project. cbn [bfront bback rshape rdata].
  unfold f, b, s. rewrite !zget_cons_0. cbn [bind]. rewrite zset_ok by (cbn [length]; lia). cbn [bind lift obind Z.to_nat replace bfront bback].
  replace (b0 - f0 + 1 =? 0) with false by lia.
  rewrite rindex_rank; [|discriminate|unfold s; cbn [length]; rewrite map_length; cbn in Hlen; lia]. cbn [lift obind].
  assert (Hbx : NonEmpty (- f0 :: ifront f') (- f0 :: iback s' b')) by (constructor; [lia|]; rewrite Efi, Ebi in Hin; inversion Hin; auto).
  rewrite boxForeach_positions; [|discriminate|auto|rewrite <- Efi; lia]. cbn [obind].
  match goal with |- context [rowsLoopS _ _ _ _ _ ?ps ?px ?v ?r ?k ?i ?d ?a ?o] =>
    destruct (rowsLoopS_cases n (s0 :: s') v r k i d px ps ltac:(discriminate)) with (inIt := a) (mem := o) as [->|(m & -> & Hl & Hv)] end; cbn [bind snd lift obind].
  - apply Forall_forall. intros p Hp. apply In_positions, Between_length in Hp. cbn [length] in Hp. rewrite map_length in Hp. unfold s. cbn [length]. cbn in Hlen. lia.
  - now left.
  - right. eexists. split; [reflexivity|]. split; [split; [now rewrite Hshape|exact Hl]|].
    intros p Hp. unfold ValidG. rewrite Hshape. change (Between (- f0 :: ifront f') (s0 - 1 - b0 :: iback s' b') p) in Hp. destruct p as [|z p]; [inversion Hp|]. apply Between_cons_iff in Hp as (Hz & Hp).
    specialize (Hv (- f0 :: p) (z + f0)). unfold s in *. rewrite !rank_cons in *. replace (z + s0 * rank s' p) with (- f0 + s0 * rank s' p + (z + f0)) by lia. apply Hv; [|lia].
    apply In_positions, Between_cons_iff. split; [lia|exact Hp].
Qed.

Lemma kernel_originS view n shape f b values out : shape <> [] -> n = Z.of_nat (length shape) -> Positive shape ->
  length f = length shape -> Forall2 Z.le f b -> Forall2 (fun w s => w <= s) (wshape f b) shape -> WF out -> rshape out = shape ->
  (forall r q, NoThrow (view r q)) -> (Exists (fun x => 0 < x) f \/ Exists (fun y => y < 0) b) ->
  exists enough, forall fuel, (enough <= fuel)%nat ->
    correlateSelfG zero inner border store back view fuel n values (mkBox f b) out = Some UB.
Proof.
  intros Hne Hn Hs Hlen Hfb Hw Hwf Hshape Hview Ho.
  assert (Lb : length b = length shape) by (rewrite <- Hlen; symmetry; now apply Forall2_len in Hfb).
  destruct (inner_box n shape f b Hn Hlen Lb) as (I1 & I2 & _).
  assert (Hin := inner_nonempty shape f b Hlen Lb Hw).
  destruct (surround_spec (ifront f) (iback shape b) (map (Z.min 0) f) (map (Z.max 0) b)) as (L & EL & LN & _ & LC & _).
  { now rewrite !map_length. } { rewrite !map_length. lia. } { exact Hin. }
  { apply Forall_map, Forall_forall. intros. lia. } { apply Forall_map, Forall_forall. intros. lia. }
  rewrite <- surround_clamp in EL.
  destruct (outer_corner shape f b Hne Hs Hlen Lb Hin Ho) as (c & Hc & Hbad).
  assert (Hf : f <> []) by (destruct f; [destruct shape; [congruence|discriminate]|discriminate]).
  assert (LL : Forall (fun bx => length (bfront bx) = length f) L).
  { apply Forall_forall. intros bx Hbx. destruct (proj1 (Forall_forall _ _) LN bx Hbx) as (p & Hp). assert (Hp' := proj2 (LC p) (or_intror (ex_intro _ bx (conj Hbx Hp)))).
    apply Between_length in Hp, Hp'. cbn [boxGrow bfront bback] in Hp'. unfold vadd in Hp'. rewrite map2_length in Hp' by (now rewrite !map_length). rewrite map_length in Hp'. lia. }
  destruct (exts_casesS view n values f b Hf Hfb Hview L LN LL) as (e2 & E2).
  destruct Hwf as (_ & _ & Hout). rewrite Hshape in Hout.
  destruct shape as [|s0 s']; [congruence|]. destruct f as [|f0 f']; [congruence|]. destruct b as [|b0 b']; [discriminate|].
  exists (Nat.max e2 (S (length (positions (ifront (f0 :: f')) (- f0 :: iback s' b'))))). intros fuel Hfuel.
  unfold correlateSelfG. rewrite Hshape. rewrite I1. cbn [lift obind]. rewrite I2, EL. cbn [lift obind].
  destruct (inner_casesS fuel n s0 s' f0 f' b0 b' values out Hlen Hfb Hin Hshape ltac:(lia)) as [->|(o1 & -> & (S1 & S2) & V1)]; cbn [obind]; [reflexivity|].
  destruct (E2 fuel o1 ltac:(lia) ltac:(rewrite S1, Hshape; discriminate) ltac:(rewrite S1, Hshape; now symmetry)) as [->|(o2 & _ & _ & V2)]; [reflexivity|].
  exfalso. apply Hbad. apply LC in Hc. destruct Hc as [Hc|(bx & Hbx & Hc)].
  - specialize (V1 c Hc). unfold ValidG in V1. now rewrite Hshape, Hout in V1.
  - specialize (V2 bx c Hbx Hc). unfold ValidG in V2. now rewrite S1, S2, Hshape, Hout in V2.
Qed.
End Typed.

Lemma nearest_nothrow {X} n : n <> -1 -> forall (r : raster X) q, NoThrow (nearestAt n r q).
Proof.
  intros Hn r q e. unfold nearestAt. destruct (Nat.eqb _ _); [|discriminate]. unfold rget, rindex. replace (n =? -1) with false by lia.
  assert (G : forall s p e, indexFixed s p <> Throw e).
  { induction s as [|l s IH]; intros p e0; [destruct p; discriminate|]. cbn [indexFixed]. destruct p as [|z p]; [destruct s; discriminate|].
    destruct s, p; try discriminate; assert (I := fun p => IH p e0);
    match goal with |- context [indexFixed ?a ?b] => specialize (I b); destruct (indexFixed a b); cbn [bind]; congruence end. }
  destruct (indexFixed _ _) as [i|e'|] eqn:E; cbn [bind]; [apply zget_no_throw|now apply G in E|discriminate].
Qed.
