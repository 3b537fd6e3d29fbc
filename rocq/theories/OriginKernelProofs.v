(** C39: windows which do not contain the origin. *)
From Verif Require Import Res VecModel BoxModel RasterModel SamplingModel LineKernelModel SeparableModel KernelModel
  Spec BoxSpec RasterSpec KernelSpec Lemmas IndexProofs BoxIterProofs BoxGeomProofs AccessProofs SamplingProofs KernelProofs.

Lemma innerLoop_noThrow n : forall k mem a b stride acc e, innerLoop n k mem a b stride acc <> Throw e.
Proof.
  induction n as [|n IH]; intros k mem a b stride acc e; cbn [innerLoop]; [discriminate|].
  destruct (zget k a) eqn:E1; cbn [bind]; [|now apply zget_no_throw in E1|discriminate].
  destruct (zget mem b) eqn:E2; cbn [bind]; [|now apply zget_no_throw in E2|discriminate]. apply IH.
Qed.

Lemma rowSum_noThrow rows : forall values mem kIt inIt kW inW acc e, rowSum rows values mem kIt inIt kW inW acc <> Throw e.
Proof.
  induction rows as [|rows IH]; intros; cbn [rowSum]; [discriminate|].
  destruct (innerLoop _ _ _ _ _ _ _) eqn:E; cbn [bind]; [|now apply innerLoop_noThrow in E|discriminate]. apply IH.
Qed.

Lemma zset_cases {A} (l : list A) i a : zset l i a = UB \/ exists l', zset l i a = Ok l' /\ length l' = length l /\ 0 <= i < Z.of_nat (length l).
Proof.
  unfold zset. destruct (i <? 0) eqn:Q1; cbn [orb]; [now left|]. destruct (Z.of_nat (length l) <=? i) eqn:Q2; [now left|].
  right. eexists. split; [reflexivity|]. split; [apply replace_length|lia].
Qed.

Lemma flatLoop_cases values mem rows kW inW distance L : forall inIt out,
  flatLoop values mem rows kW inW distance L inIt out = UB \/
  exists i out', flatLoop values mem rows kW inW distance L inIt out = Ok (i, out') /\ length out' = length out /\ Forall (fun a => 0 <= a < Z.of_nat (length out)) L.
Proof.
  induction L as [|c L IH]; intros inIt out; cbn [flatLoop]; [right; eauto|].
  destruct (rowSum rows values mem 0 inIt kW inW 0) as [v| |] eqn:E; cbn [bind]; [|now apply rowSum_noThrow in E|now left].
  destruct (zset_cases out c v) as [->|(out' & -> & Hl & Hc)]; cbn [bind]; [now left|].
  destruct (IH (c + 1 - distance) out') as [->|(i & o & -> & H1 & H2)]; [now left|right]. rewrite Hl in *. eauto 10.
Qed.

Lemma mapRes_noThrow {A B} (g : A -> res B) l e : (forall a e, In a l -> g a <> Throw e) -> mapRes g l <> Throw e.
Proof.
  induction l as [|a l IH]; intros H; cbn [mapRes]; [discriminate|].
  destruct (g a) eqn:E; cbn [bind]; [|now apply H in E; [|left]|discriminate].
  destruct (mapRes g l) eqn:E2; cbn [bind]; [discriminate| |discriminate]. intros [= ->]. apply IH; [|reflexivity]. intros; apply H; now right.
Qed.

(** The same shape and number of elements *)
Definition Same (out out' : raster Z) : Prop := rshape out' = rshape out /\ length (rdata out') = length (rdata out).
Definition Valid (out : raster Z) (p : list Z) : Prop := 0 <= rank (rshape out) p < Z.of_nat (length (rdata out)).

Section Ext.
Variables (n : Z) (values f b : list Z) (ext : list Z -> res Z).
Let k := mkNkernel values (mkBox f b).
Hypothesis Hne : f <> [].
Hypothesis Hfb : NonEmpty f b.
Hypothesis Hext : forall q e, ext q <> Throw e.

Lemma extPixel_cases p out buffer fuel : rshape out <> [] -> length p = length f -> length (rshape out) = length f -> (length (positions f b) < fuel)%nat ->
  extPixel fuel n k ext p out buffer = Some UB \/
  exists out' buffer', extPixel fuel n k ext p out buffer = Some (Ok (out', buffer')) /\ Same out out' /\ Valid out p.
Proof.
  intros Hs Hp Hl Hf. assert (Hlen := Forall2_len _ _ _ Hfb). unfold extPixel, boxShift, k. cbn [kwindow kvalues bfront bback].
  rewrite boxForeach_positions; [|destruct f, p; cbn in *; try congruence; try lia|apply NonEmpty_shift; auto|rewrite positions_shift, map_length by lia; lia].
  cbn [obind]. destruct (mapRes ext _) as [xs| |] eqn:E; cbn [lift obind]; [|now apply mapRes_noThrow in E|now left].
  destruct (Nat.ltb _ _); [now left|]. destruct (innerProduct _ _ _ _ _ _ _) as [v| |] eqn:E2; cbn [lift obind];
    [|unfold innerProduct in E2; destruct (_ <? _) in E2; [discriminate|now apply innerLoop_noThrow in E2]|now left].
  unfold rset. rewrite rindex_rank by (auto; lia). cbn [bind].
  destruct (zset_cases (rdata out) (rank (rshape out) p) v) as [->|(d & -> & L1 & L2)]; cbn [bind lift obind]; [now left|right].
  eexists _, _. split; [reflexivity|]. split; [split; [reflexivity|exact L1]|exact L2].
Qed.

Lemma extLoop_cases ps : forall out buffer fuel, rshape out <> [] -> Forall (fun p => length p = length f) ps -> length (rshape out) = length f ->
  (length (positions f b) < fuel)%nat ->
  extLoop fuel n k ext ps out buffer = Some UB \/ exists out', extLoop fuel n k ext ps out buffer = Some (Ok out') /\ Same out out' /\ Forall (Valid out) ps.
Proof.
  induction ps as [|p ps IH]; intros out buffer fuel Hs Hps Hl Hf; cbn [extLoop].
  - right. exists out. repeat split. constructor.
  - inversion Hps as [|? ? P1 P2]; subst. destruct (extPixel_cases p out buffer fuel Hs P1 Hl Hf) as [->|(o1 & b1 & -> & (S1 & S2) & V)]; cbn [obind]; [now left|].
    destruct (IH o1 b1 fuel) as [->|(o2 & -> & (T1 & T2) & W)]; rewrite ?S1; auto. right. exists o2. split; [reflexivity|]. split; [split; congruence|].
    constructor; [exact V|]. eapply Forall_impl; [|exact W]. intros q. unfold Valid. now rewrite S1, S2.
Qed.

Lemma ext_cases bx : Nonempty bx -> length (bfront bx) = length f ->
  exists enough, forall fuel out, (enough <= fuel)%nat -> rshape out <> [] -> length (rshape out) = length f ->
    correlateExt fuel n k ext bx out = Some UB \/ exists out', correlateExt fuel n k ext bx out = Some (Ok out') /\ Same out out' /\ forall p, InBox bx p -> Valid out p.
Proof.
  intros Hn Hl. destruct bx as [xf xb]. apply Nonempty_iff in Hn. cbn [bfront bback] in Hn, Hl.
  exists (S (Nat.max (length (positions f b)) (length (positions xf xb)))). intros fuel out Hf Hs Ho.
  assert (Hxf : xf <> []) by (destruct xf; [destruct f; [congruence|discriminate]|discriminate]).
  unfold correlateExt. assert (Hsz : boxSize (mkBox xf xb) <> 0).
  { rewrite (boxSize_count xf xb) by auto. destruct (positions_hd _ _ Hn) as [L ->]. cbn. lia. }
  replace (boxSize _ =? 0) with false by lia. rewrite boxForeach_positions by (auto; lia). cbn [obind].
  destruct (extLoop_cases (positions xf xb) out (repeat 0 (length (kvalues k))) fuel) as [->|(o & -> & S1 & V)]; auto; [|lia|].
  - apply Forall_forall. intros p Hp. apply In_positions, Between_length in Hp. lia.
  - right. exists o. split; [reflexivity|]. split; [exact S1|]. intros p Hp. apply In_positions in Hp. now apply (proj1 (Forall_forall _ _) V).
Qed.

Lemma exts_cases bs : Forall Nonempty bs -> Forall (fun bx => length (bfront bx) = length f) bs ->
  exists enough, forall fuel out, (enough <= fuel)%nat -> rshape out <> [] -> length (rshape out) = length f ->
    correlateExts fuel n k ext bs out = Some UB \/
    exists out', correlateExts fuel n k ext bs out = Some (Ok out') /\ Same out out' /\ forall bx p, In bx bs -> InBox bx p -> Valid out p.
Proof.
  induction bs as [|bx bs IH]; intros Hn Hl.
  - exists O. intros. right. exists out. split; [reflexivity|]. split; [split; reflexivity|intros bx p []].
  - inversion Hn as [|? ? N1 N2]; subst. inversion Hl as [|? ? L1 L2]; subst.
    destruct (ext_cases bx N1 L1) as (e1 & E1). destruct (IH N2 L2) as (e2 & E2). exists (Nat.max e1 e2). intros fuel out Hf Hs Ho. cbn [correlateExts].
    destruct (E1 fuel out ltac:(lia) Hs Ho) as [->|(o1 & -> & (S1 & S2) & V1)]; cbn [obind]; [now left|].
    destruct (E2 fuel o1 ltac:(lia) ltac:(now rewrite S1) ltac:(now rewrite S1)) as [->|(o2 & -> & (T1 & T2) & V2)]; [now left|right].
    exists o2. split; [reflexivity|]. split; [split; congruence|]. intros c p [Hc|Hc] Hp; [subst; now apply V1|].
    specialize (V2 c p Hc Hp). unfold Valid in *. now rewrite S1, S2 in V2.
Qed.
End Ext.

(** Margins which do not contain the origin are clamped *)
Lemma surroundAxis_clamp f b st i : surroundAxis (mkBox f b) st i = surroundAxis (mkBox (map (Z.min 0) f) (map (Z.max 0) b)) st i.
Proof.
  unfold surroundAxis. destruct st as [cur out]. cbn [bfront bback]. rewrite !zget_map. destruct (zget f (Z.of_nat i)) as [x| |]; cbn [bind]; auto.
  replace (Z.min 0 x <? 0) with (x <? 0) by lia.
  assert (G : forall st1 : box * list box, (let (current1, out1) := st1 in
      b0 <- zget b (Z.of_nat i) ;;
      (if 0 <? b0 then cb <- zget (bback current1) (Z.of_nat i) ;; af <- zset (bfront current1) (Z.of_nat i) (cb + 1) ;;
         ab <- zset (bback current1) (Z.of_nat i) (cb + b0) ;; Ok (mkBox (bfront current1) ab, out1 ++ [mkBox af ab])
       else Ok (current1, out1))) = (let (current1, out1) := st1 in
      b0 <- (a <- zget b (Z.of_nat i) ;; Ok (Z.max 0 a)) ;;
      (if 0 <? b0 then cb <- zget (bback current1) (Z.of_nat i) ;; af <- zset (bfront current1) (Z.of_nat i) (cb + 1) ;;
         ab <- zset (bback current1) (Z.of_nat i) (cb + b0) ;; Ok (mkBox (bfront current1) ab, out1 ++ [mkBox af ab])
       else Ok (current1, out1)))).
  { intros [c o]. destruct (zget b (Z.of_nat i)) as [y| |]; cbn [bind]; auto. replace (0 <? Z.max 0 y) with (0 <? y) by lia.
    destruct (0 <? y) eqn:Q; [|reflexivity]. replace (Z.max 0 y) with y by lia. reflexivity. }
  destruct (x <? 0) eqn:Q; [replace (Z.min 0 x) with x by lia|].
  - destruct (zget (bfront cur) (Z.of_nat i)) as [cf| |]; cbn [bind]; auto. destruct (zset (bback cur) (Z.of_nat i) (cf - 1)) as [bb| |]; cbn [bind]; auto.
    destruct (zset (bfront cur) (Z.of_nat i) (cf + x)) as [bf| |]; cbn [bind]; auto.
    exact (G (mkBox bf (bback cur), out ++ [mkBox bf bb])).
  - cbn [bind]. exact (G (cur, out)).
Qed.

Lemma surround_clamp bx f b : surround bx (mkBox f b) = surround bx (mkBox (map (Z.min 0) f) (map (Z.max 0) b)).
Proof.
  unfold surround. f_equal. generalize (seq 0 (boxDim bx)) (bx, @nil box). induction l as [|i l IH]; intros st; cbn [surroundLoop]; [reflexivity|].
  rewrite surroundAxis_clamp. destruct (surroundAxis _ st i); cbn [bind]; auto.
Qed.

Lemma rank_positive s : forall f, Positive s -> length f = length s -> Forall (fun x => 0 <= x) f -> 0 <= rank s f /\ (Exists (fun x => 0 < x) f -> 0 < rank s f).
Proof.
  induction s as [|l s IH]; intros [|x f] Hs Hl Hf; cbn in Hl; try discriminate.
  - split; [cbn; lia|]. intros E. inversion E.
  - inversion Hs as [|? ? S1 S2]; subst. inversion Hf as [|? ? F1 F2]; subst. destruct (IH f S2 ltac:(lia) F2) as (I1 & I2). rewrite rank_cons.
    split; [nia|]. intros E. inversion E as [? ? E1|? ? E1]; subst; [nia|]. specialize (I2 E1). nia.
Qed.

Lemma rank_negative s : forall f, Positive s -> length f = length s -> Forall (fun x => x <= 0) f -> Exists (fun x => x < 0) f -> rank s f < 0.
Proof.
  intros f Hs Hl Hf E. assert (R := rank_ifront s f). destruct (rank_positive s (map Z.opp f) Hs) as (_ & P).
  - now rewrite map_length.
  - apply Forall_map. eapply Forall_impl; [|exact Hf]. cbn. intros. lia.
  - rewrite R in P. assert (E' : Exists (fun x => 0 < x) (map Z.opp f)); [|specialize (P E'); lia].
    clear - E. induction E as [x l H|x l H IH]; cbn [map]; [left; lia|right; exact IH].
Qed.

Lemma NonEmpty_back f b : NonEmpty f b -> Between f b b.
Proof. intros H. induction H; [constructor|]. apply Between_cons_iff. split; [lia|assumption]. Qed.

Lemma inner_nonempty s f b : length f = length s -> length b = length s -> Forall2 (fun w l => w <= l) (wshape f b) s -> NonEmpty (ifront f) (iback s b).
Proof.
  revert f b. induction s as [|l s IH]; intros [|x f] [|y b] H1 H2 H; cbn in H1, H2; try discriminate; [constructor|].
  cbn [combine map fst snd] in H |- *. inversion H as [|? ? ? ? W1 W2]; subst. constructor; [lia|]. apply IH; auto; lia.
Qed.

Lemma inner_cases fuel n s0 s' f0 f' b0 b' values data out : let s := s0 :: s' in let f := f0 :: f' in let b := b0 :: b' in
  length f = length s -> NonEmpty f b -> NonEmpty (ifront f) (iback s b) -> rshape out = s ->
  (S (length (positions (ifront f) (- f0 :: iback s' b'))) <= fuel)%nat ->
  correlateInner fuel n (mkNkernel values (mkBox f b)) (mkRaster s data) (mkBox (ifront f) (iback s b)) out = Some UB \/
  exists out', correlateInner fuel n (mkNkernel values (mkBox f b)) (mkRaster s data) (mkBox (ifront f) (iback s b)) out = Some (Ok out') /\
    Same out out' /\ forall p, Between (ifront f) (iback s b) p -> Valid out p.
Proof.
  intros s f b Hlen Hfb Hin Hshape Hfuel.
  assert (Hlb : length b = length s) by (rewrite <- Hlen; symmetry; now apply Forall2_len in Hfb).
  set (fi := ifront f) in *. set (bi := iback s b) in *.
  assert (Efi : fi = - f0 :: ifront f') by reflexivity.
  assert (Ebi : bi = s0 - 1 - b0 :: iback s' b') by reflexivity.
  assert (Hne : fi <> []) by (rewrite Efi; discriminate).
  assert (Hfb0 : f0 <= b0) by (inversion Hfb; auto).
  unfold correlateInner.
  assert (Hsz : boxSize (mkBox fi bi) <> 0) by (rewrite boxSize_count by auto; destruct (positions_hd _ _ Hin) as [L ->]; cbn; lia).
  replace (boxSize (mkBox fi bi) =? 0) with false by lia.
  cbn [kwindow kvalues]. rewrite Efi, Ebi. unfold boxLength, project. cbn [kwindow kvalues bfront bback rshape rdata].
  unfold f, b, s. rewrite !zget_cons_0. cbn [bind]. rewrite zset_ok by (cbn [length]; lia). cbn [bind lift obind Z.to_nat replace bfront bback].
  replace (b0 - f0 + 1 =? 0) with false by lia.
  rewrite Hshape. rewrite rindex_rank; [|discriminate|unfold s; cbn [length]; rewrite map_length; cbn in Hlen; lia]. cbn [lift obind].
  assert (Hbx : NonEmpty (- f0 :: ifront f') (- f0 :: iback s' b')) by (constructor; [lia|]; rewrite Efi, Ebi in Hin; inversion Hin; auto).
  rewrite boxForeach_positions; [|discriminate|auto|rewrite <- Efi; lia]. cbn [obind].
  replace (Z.to_nat (s0 - 1 - b0 - - f0 + 1)) with (Z.to_nat ((s0 - 1 - b0) - (- f0) + 1)) by lia.
  rewrite rowsLoop_flat; [|discriminate|].
  - rewrite positions_flat. rewrite <- Efi, <- Ebi. fold s.
    match goal with |- context [flatLoop ?v ?m ?r ?k ?i ?d ?L ?a ?o] => destruct (flatLoop_cases v m r k i d L a o) as [->|(j & d' & -> & El & Hv)] end; cbn [bind snd lift obind]; [now left|right].
    eexists. split; [reflexivity|]. split; [split; [now rewrite Hshape|exact El]|].
    intros p Hp. unfold Valid. rewrite Hshape. apply (proj1 (Forall_forall _ _) Hv). apply in_map, In_positions, Hp.
  - apply Forall_forall. intros p Hp. apply In_positions in Hp. split.
    + apply Between_length in Hp. cbn [length] in Hp. rewrite map_length in Hp. unfold s. cbn [length]. cbn in Hlen. lia.
    + destruct p as [|z p]; [inversion Hp|]. apply Between_cons_iff in Hp. cbn. lia.
Qed.

Lemma kernel_origin n shape f b values data ext out : shape <> [] -> n = Z.of_nat (length shape) -> Positive shape ->
  length f = length shape -> Forall2 Z.le f b -> Forall2 (fun w s => w <= s) (wshape f b) shape -> WF out -> rshape out = shape ->
  (forall q e, ext q <> Throw e) -> (Exists (fun x => 0 < x) f \/ Exists (fun y => y < 0) b) ->
  exists enough, forall fuel, (enough <= fuel)%nat ->
    correlateTo fuel n (mkNkernel values (mkBox f b)) (mkRaster shape data) ext out = Some UB.
Proof.
  intros Hne Hn Hs Hlen Hfb Hw Hwf Hshape Hext Ho.
  assert (Lb : length b = length shape) by (rewrite <- Hlen; symmetry; now apply Forall2_len in Hfb).
  destruct (inner_box n shape f b Hn Hlen Lb) as (I1 & I2 & _).
  assert (Hin := inner_nonempty shape f b Hlen Lb Hw).
  destruct (surround_spec (ifront f) (iback shape b) (map (Z.min 0) f) (map (Z.max 0) b)) as (L & EL & LN & _ & LC & _).
  { now rewrite !map_length. } { rewrite !map_length. lia. } { exact Hin. }
  { apply Forall_map, Forall_forall. intros. lia. } { apply Forall_map, Forall_forall. intros. lia. }
  rewrite <- surround_clamp in EL.
  (* a corner is not valid *)
  assert (Hbad : exists c, InBox (boxGrow (mkBox (ifront f) (iback shape b)) (mkBox (map (Z.min 0) f) (map (Z.max 0) b))) c /\ ~ 0 <= rank shape c < prod shape).
  { assert (Hg : NonEmpty (vadd (ifront f) (map (Z.min 0) f)) (vadd (iback shape b) (map (Z.max 0) b))).
    { clear - Hin Hlen Lb. revert f b Hlen Lb Hin. induction shape as [|l s IH]; intros [|x f] [|y b] H1 H2 H; cbn in H1, H2; try discriminate; [constructor|].
      cbn [combine map fst snd] in H |- *. inversion H as [|? ? ? ? W1 W2]; subst. constructor; [lia|]. apply IH; auto; lia. }
    destruct Ho as [Ho|Ho].
    - exists (vadd (ifront f) (map (Z.min 0) f)). split; [apply NonEmpty_front, Hg|].
      assert (E : vadd (ifront f) (map (Z.min 0) f) = ifront (map (Z.max 0) f)).
      { clear. induction f as [|x f IH]; cbn; [reflexivity|]. f_equal; [lia|exact IH]. }
      rewrite E, rank_ifront. destruct (rank_positive shape (map (Z.max 0) f) Hs) as (_ & P).
      + now rewrite map_length.
      + apply Forall_map, Forall_forall. intros. lia.
      + assert (E' : Exists (fun x => 0 < x) (map (Z.max 0) f)); [|specialize (P E'); lia].
        clear - Ho. induction Ho as [x l H|x l H IH]; cbn [map]; [left; lia|right; exact IH].
    - exists (vadd (iback shape b) (map (Z.max 0) b)). split; [apply NonEmpty_back, Hg|].
      assert (E : vadd (iback shape b) (map (Z.max 0) b) = iback shape (map (Z.min 0) b)).
      { clear - Lb. revert b Lb. induction shape as [|l s IH]; intros [|y b] H; cbn in H; try discriminate; cbn; [reflexivity|]. f_equal; [lia|]. apply IH. lia. }
      rewrite E, rank_iback by (auto; now rewrite map_length). assert (P := rank_negative shape (map (Z.min 0) b) Hs).
      assert (P' : rank shape (map (Z.min 0) b) < 0); [apply P|lia].
      + now rewrite map_length.
      + apply Forall_map, Forall_forall. intros. lia.
      + clear - Ho. induction Ho as [x l H|x l H IH]; cbn [map]; [left; lia|right; exact IH]. }
  destruct Hbad as (c & Hc & Hbad).
  assert (Hf : f <> []) by (destruct f; [destruct shape; [congruence|discriminate]|discriminate]).
  assert (LL : Forall (fun bx => length (bfront bx) = length f) L).
  { apply Forall_forall. intros bx Hbx. destruct (proj1 (Forall_forall _ _) LN bx Hbx) as (p & Hp). assert (Hp' := proj2 (LC p) (or_intror (ex_intro _ bx (conj Hbx Hp)))).
    apply Between_length in Hp, Hp'. cbn [boxGrow bfront bback] in Hp'. unfold vadd in Hp'. rewrite map2_length in Hp' by (now rewrite !map_length). rewrite map_length in Hp'. lia. }
  destruct (exts_cases n values f b ext Hf Hfb Hext L LN LL) as (e2 & E2).
  destruct Hwf as (_ & _ & Hout). rewrite Hshape in Hout.
  destruct shape as [|s0 s']; [congruence|]. destruct f as [|f0 f']; [congruence|]. destruct b as [|b0 b']; [discriminate|].
  exists (Nat.max e2 (S (length (positions (ifront (f0 :: f')) (- f0 :: iback s' b'))))). intros fuel Hfuel.
  unfold correlateTo. cbn [rshape kwindow]. rewrite I1. cbn [lift obind]. rewrite I2, EL. cbn [lift obind].
  destruct (inner_cases fuel n s0 s' f0 f' b0 b' values data out Hlen Hfb Hin Hshape ltac:(lia)) as [->|(o1 & -> & (S1 & S2) & V1)]; cbn [obind]; [reflexivity|].
  destruct (E2 fuel o1 ltac:(lia) ltac:(rewrite S1, Hshape; discriminate) ltac:(rewrite S1, Hshape; now symmetry)) as [->|(o2 & _ & _ & V2)]; [reflexivity|].
  exfalso. apply Hbad. apply LC in Hc. destruct Hc as [Hc|(bx & Hbx & Hc)].
  - specialize (V1 c Hc). unfold Valid in V1. now rewrite Hshape, Hout in V1.
  - specialize (V2 bx c Hbx Hc). unfold Valid in V2. now rewrite S1, S2, Hshape, Hout in V2.
Qed.

(** kernelize with an origin out of the raster. *)
Lemma kernelize_origin n ks kdata origin shape data ext out k : shape <> [] -> n = Z.of_nat (length shape) -> Positive shape -> Positive ks ->
  length ks = length shape -> length origin = length shape -> Forall2 (fun w s => w <= s) ks shape -> WF out -> rshape out = shape ->
  (forall q e, ext q <> Throw e) -> kernelizeAt n (mkRaster ks kdata) origin = Ok k -> ~ InDomain ks origin ->
  exists enough, forall fuel, (enough <= fuel)%nat -> correlateTo fuel n k (mkRaster shape data) ext out = Some UB.
Proof.
  intros Hne Hn Hs Hks Lk Lo Hw Hwf Hshape Hext Ek Ho.
  destruct (kernelize_spec n ks kdata origin ltac:(lia) ltac:(lia) Hks) as (E & _). rewrite E in Ek. injection Ek as <-.
  assert (Lko : length origin = length ks) by lia. clear Lk.
  assert (G : Forall2 Z.le (map Z.opp origin) (iback ks origin) /\ wshape (map Z.opp origin) (iback ks origin) = ks).
  { clear - Hks Lko. revert origin Lko. induction Hks as [|l ks H0 Hks IH]; intros [|o origin] L; cbn in L; try discriminate; [split; [constructor|reflexivity]|].
    destruct (IH origin ltac:(lia)) as (G1 & G2). cbn [combine map fst snd]. split; [constructor; [lia|exact G1]|f_equal; [lia|exact G2]]. }
  destruct G as (G1 & G2).
  apply kernel_origin; auto.
  - now rewrite map_length.
  - now rewrite G2.
  - clear - Ho Lko. revert origin Lko Ho. induction ks as [|w ks IH]; intros [|o origin] L Ho; cbn in L; try discriminate; [exfalso; apply Ho; constructor|].
    cbn [combine map fst snd]. destruct (Z_lt_le_dec o 0) as [Q|Q]; [left; left; lia|]. destruct (Z_lt_le_dec o w) as [Q2|Q2]; [|right; left; lia].
    destruct (IH origin ltac:(lia)) as [I|I]; [|left; now right|right; now right]. intros C. apply Ho. constructor; [lia|exact C].
Qed.

Lemma operator_line l f b values data ext X :
  0 < l -> Z.of_nat (length data) = l -> f <= 0 <= b -> Z.of_nat (length values) = b - f + 1 -> b - f + 1 <= l ->
  (forall q, length q = 1%nat -> ext q = Ok (X q)) -> (forall p, InDomain [l] p -> X p = pixel [l] data p) ->
  exists out', (exists enough, forall fuel, (enough <= fuel)%nat -> kernelApply fuel 1 (mkNkernel values (mkBox [f] [b])) (mkRaster [l] data) ext = Some (Ok out')) /\
    WF out' /\ rshape out' = [l] /\
    forall p, InDomain [l] p -> pixel [l] (rdata out') p = windowCorrelation (windowValue [f] [b] values) [f] [b] X p.
Proof.
  intros. unfold kernelApply. apply kernel_line; auto.
  split; [discriminate|]. cbn [rshape rdata]. split; [constructor; [lia|constructor]|]. rewrite repeat_length.
  rewrite shapeSize_prod by discriminate. cbn. lia.
Qed.
