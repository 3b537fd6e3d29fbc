From Coq Require Import Sorted.
From Verif Require Import Res VecModel BoxModel RasterModel SamplingModel LineKernelModel SeparableModel KernelModel TypedKernelModel
  Spec BoxSpec RasterSpec KernelSpec TypedKernelSpec Lemmas IndexProofs BoxIterProofs BoxGeomProofs AccessProofs ContainerProofs SamplingProofs
  LineKernelProofs SeparableProofs ComposeProofs KernelProofs.

Notation wshape f b := (map (fun xy : Z * Z => snd xy - fst xy + 1) (combine f b)).
Notation ifront f := (map Z.opp f).
Notation iback s b := (map (fun xy : Z * Z => fst xy - 1 - snd xy) (combine s b)).

Lemma obind_lift {A B} (x : res A) (f : A -> option (res B)) (g : A -> res B) : (forall a, f a = Some (g a)) -> obind (lift x) f = Some (bind x g).
Proof. intros H. destruct x; cbn; auto. Qed.

Lemma mapRes_split {A B} (f : A -> res B) l m r : mapRes f (l ++ m) = Ok r -> exists r1 r2, mapRes f l = Ok r1 /\ mapRes f m = Ok r2 /\ r = r1 ++ r2.
Proof.
  rewrite mapRes_app. destruct (mapRes f l) as [r1| |]; cbn [bind]; try discriminate. destruct (mapRes f m) as [r2| |]; cbn [bind]; try discriminate.
  intros [= <-]. eauto.
Qed.

Lemma mapRes_length {A B} (f : A -> res B) l r : mapRes f l = Ok r -> length r = length l.
Proof. intros H. apply mapRes_Forall2 in H. symmetry. now apply Forall2_len in H. Qed.

Lemma mapRes_map {A B C} (f : B -> res C) (g : A -> B) l : mapRes f (map g l) = mapRes (fun a => f (g a)) l.
Proof. induction l as [|a l IH]; cbn [map mapRes]; [reflexivity|]. rewrite IH. reflexivity. Qed.

Lemma converted_mapRes {X V} (store : X -> res V) l : converted store l = mapRes store l.
Proof. induction l as [|a l IH]; cbn [converted mapRes]; [reflexivity|]. rewrite IH. reflexivity. Qed.

Lemma mapRes_nothrow {A B} (f : A -> res B) l : (forall a, In a l -> NoThrow (f a)) -> NoThrow (mapRes f l).
Proof.
  induction l as [|a l IH]; intros H e; cbn [mapRes]; [discriminate|]. assert (Ha := H a ltac:(now left) e). destruct (f a) as [b| |]; cbn [bind]; try congruence.
  assert (Hl := IH ltac:(intros c Hc; apply H; now right) e). destruct (mapRes f l); cbn [bind]; congruence.
Qed.

(** Either each outcome is a value, or one of them is undefined and the whole is *)
Lemma mapRes_cases {A B} (f : A -> res B) l : (forall a, In a l -> NoThrow (f a)) ->
  (exists r, mapRes f l = Ok r) \/ (mapRes f l = UB /\ exists a, In a l /\ f a = UB).
Proof.
  induction l as [|a l IH]; intros H; cbn [mapRes]; [left; eauto|]. assert (Ha := H a ltac:(now left)). destruct (f a) as [b|e|] eqn:E; cbn [bind].
  - destruct (IH ltac:(intros; apply H; now right)) as [(r & ->)|(-> & c & Hc & Ec)]; [left; cbn; eauto|right]. split; [reflexivity|]. exists c. split; [now right|auto].
  - exfalso. now apply (Ha e).
  - right. split; [reflexivity|]. exists a. split; [now left|auto].
Qed.

Section Weighted.
Context {V Y : Type} (step : V -> V -> Y -> res V).

Lemma weighted_app l m : forall acc, weighted step acc (l ++ m) = (a <- weighted step acc l ;; weighted step a m).
Proof. induction l as [|(k, x) l IH]; intros acc; cbn [app weighted]; auto. destruct (step acc k x); cbn [bind]; auto. Qed.

Lemma weighted_nothrow l : (forall a k x, NoThrow (step a k x)) -> forall acc, NoThrow (weighted step acc l).
Proof.
  intros H. induction l as [|(k, x) l IH]; intros acc e; cbn [weighted]; [discriminate|]. assert (Hs := H acc k x e). destruct (step acc k x); cbn [bind]; try congruence.
  apply IH.
Qed.

Lemma innerLoopG_spec values mem n : forall a b acc ks xs,
  mapRes (zget values) (zrange a (a + Z.of_nat n - 1)) = Ok ks -> mapRes (zget mem) (zrange b (b + Z.of_nat n - 1)) = Ok xs ->
  innerLoopG step n values mem a b acc = weighted step acc (combine ks xs).
Proof.
  induction n as [|n IH]; intros a b acc ks xs Hk Hx; cbn [innerLoopG].
  - rewrite zrange_empty in Hk, Hx by lia. injection Hk as <-. reflexivity.
  - rewrite zrange_cons in Hk, Hx by lia. cbn [mapRes] in Hk, Hx.
    destruct (zget values a) as [k| |]; cbn [bind] in *; try discriminate. destruct (zget mem b) as [x| |]; cbn [bind] in *; try discriminate.
    destruct (mapRes (zget values) _) as [ks'| |] eqn:Ek in Hk; cbn [bind] in *; try discriminate. injection Hk as <-.
    destruct (mapRes (zget mem) _) as [xs'| |] eqn:Ex in Hx; cbn [bind] in *; try discriminate. injection Hx as <-.
    cbn [combine weighted]. destruct (step acc k x) as [acc'| |]; cbn [bind]; auto.
    apply IH; [rewrite <- Ek|rewrite <- Ex]; do 2 f_equal; lia.
Qed.
End Weighted.

Lemma combine_app {A B} (l1 l2 : list A) (m1 m2 : list B) : length l1 = length m1 -> combine (l1 ++ l2) (m1 ++ m2) = combine l1 m1 ++ combine l2 m2.
Proof. revert m1. induction l1 as [|a l1 IH]; intros [|b m1] H; cbn in H; try lia; cbn; auto. f_equal. apply IH. lia. Qed.

Lemma mapRes_all {A} (l : list A) : mapRes (zget l) (zrange 0 (Z.of_nat (length l) - 1)) = Ok l.
Proof.
  induction l as [|a l IH]; [reflexivity|]. cbn [length]. rewrite Nat2Z.inj_succ. rewrite zrange_cons by lia. cbn [mapRes]. rewrite zget_cons_0. cbn [bind].
  replace (zrange (0 + 1) (Z.succ (Z.of_nat (length l)) - 1)) with (map (fun z => z + 1) (zrange 0 (Z.of_nat (length l) - 1))) by (rewrite <- zrange_shift; f_equal; lia).
  rewrite mapRes_map. rewrite (mapRes_ext _ (zget l)); [rewrite IH; reflexivity|]. intros t Ht. apply In_zrange in Ht. rewrite zget_cons_S by lia. f_equal. lia.
Qed.

(** Writing elements one after the other *)
Section Writes.
Context {X : Type}.
Fixpoint writes (mem : list X) (L : list Z) (vs : list X) : list X :=
  match L, vs with a :: L', v :: vs' => writes (replace mem (Z.to_nat a) v) L' vs' | _, _ => mem end.

Lemma writes_length L : forall mem vs, length (writes mem L vs) = length mem.
Proof. induction L as [|a L IH]; intros mem [|v vs]; cbn [writes]; auto. now rewrite IH, replace_length. Qed.

Lemma writes_other L : forall mem vs z, ~ In z L -> Forall (fun a => 0 <= a < Z.of_nat (length mem)) L -> zget (writes mem L vs) z = zget mem z.
Proof.
  induction L as [|a L IH]; intros mem [|v vs] z Hz Hb; cbn [writes]; auto. inversion Hb as [|? ? B1 B2]; subst.
  rewrite IH; [|intros I; apply Hz; now right|now rewrite replace_length].
  eapply zset_get_neq; [apply zset_ok; eauto|]. intros ->. apply Hz. now left.
Qed.

Lemma writes_get L : forall mem vs, NoDup L -> length vs = length L -> Forall (fun a => 0 <= a < Z.of_nat (length mem)) L ->
  Forall2 (fun a v => zget (writes mem L vs) a = Ok v) L vs.
Proof.
  induction L as [|a L IH]; intros mem [|v vs] Hn Hl Hb; cbn in Hl; try lia; [constructor|]. inversion Hn as [|? ? N1 N2]; inversion Hb as [|? ? B1 B2]; subst.
  cbn [writes]. constructor.
  - rewrite writes_other; [|auto|now rewrite replace_length]. eapply zset_get_eq. now apply zset_ok.
  - apply IH; auto. now rewrite replace_length.
Qed.
End Writes.

Section Typed.
Context {X V : Type} (zero : V) (inner : V -> V -> X -> res V) (border : V -> V -> V -> res V) (store : X -> res V) (back : V -> res X).
Definition nothrows : Prop := (forall a k x, NoThrow (inner a k x)) /\ (forall a k x, NoThrow (border a k x)) /\ (forall x, NoThrow (store x)) /\ (forall v, NoThrow (back v)).

Let innerR := innerResult zero inner back.
Let borderR := borderResult zero border store back.

Inductive GetsI (shape f b : list Z) (values : list V) (data : list X) (image : list Z -> X) : list Z -> res X -> Prop :=
| gets_border p : InDomain shape p -> ~ Inner shape f b p -> GetsI shape f b values data image p (borderR values (windowPixels f b image p))
| gets_first xs : ReadByRows data 0 (nth 0 b 0 - nth 0 f 0 + 1) (nth 0 shape 0) (Z.of_nat (length values)) xs ->
    GetsI shape f b values data image (map Z.opp f) (innerR values xs)
| gets_next q p xs : InDomain shape p -> InDomain shape q -> Inner shape f b p -> PreviousInner shape f b q p ->
    ReadByRows data (rank shape q + 1 + rank shape f) (nth 0 b 0 - nth 0 f 0 + 1) (nth 0 shape 0) (Z.of_nat (length values)) xs ->
    GetsI shape f b values data image p (innerR values xs).

Lemma innerResult_nothrow values xs : nothrows -> NoThrow (innerR values xs).
Proof.
  intros (inner_nothrow & _ & _ & back_nothrow) e. unfold innerR, innerResult. assert (H := weighted_nothrow inner (combine values xs) inner_nothrow zero e). destruct (weighted _ _ _); cbn [bind]; try congruence. apply back_nothrow.
Qed.
Lemma borderResult_nothrow values xs : nothrows -> NoThrow (borderR values xs).
Proof.
  intros (_ & border_nothrow & store_nothrow & back_nothrow) e. unfold borderR, borderResult. change (@converted X V) with (@mapRes X V). assert (H := mapRes_nothrow store xs (fun x _ => store_nothrow x) e).
  destruct (mapRes store xs) as [vs| |]; cbn [bind]; try congruence.
  assert (H' := weighted_nothrow border (combine values vs) border_nothrow zero e). destruct (weighted _ _ _); cbn [bind]; try congruence. apply back_nothrow.
Qed.

(** Extrapolated pixels *)
Section Ext.
Variables (n : Z) (values : list V) (f b : list Z) (ext : list Z -> res X) (image : list Z -> X).
Hypothesis Hne : f <> [].
Hypothesis Hfb : NonEmpty f b.
Hypothesis Hv : Z.of_nat (length values) = prod (wshape f b).
Hypothesis Hext : forall q, length q = length f -> ext q = Ok (image q).

Let value p := borderR values (windowPixels f b image p).

Lemma ext_pixelG p out buffer fuel : WF out -> InDomain (rshape out) p -> length p = length f -> length buffer = length values -> (length values < fuel)%nat ->
  exists buffer', length buffer' = length values /\
    extPixelG zero border store back fuel n values (mkBox f b) ext p out buffer =
    Some (v <- value p ;; Ok (mkRaster (rshape out) (replace (rdata out) (Z.to_nat (rank (rshape out) p)) v), buffer')).
Proof.
  intros Hwf Hp Hl Hb Hf. assert (Hlen := Forall2_len _ _ _ Hfb). unfold extPixelG, boxShift. cbn [bfront bback].
  assert (Hpos := positions_count f b Hfb). assert (Elen : length (positions f b) = length values) by lia.
  rewrite boxForeach_positions; [|destruct f, p; cbn in *; try congruence; try lia|now apply NonEmpty_shift|rewrite positions_shift, map_length by lia; lia].
  rewrite positions_shift by lia. cbn [obind lift].
  assert (EM : mapRes (fun q => x <- ext q ;; store x) (map (fun q => vadd q p) (positions f b)) = mapRes store (windowPixels f b image p)).
  { unfold windowPixels. rewrite !mapRes_map. apply mapRes_ext. intros q Hq. apply In_positions, Between_length in Hq.
    rewrite Hext by (unfold vadd; rewrite map2_length; lia). cbn [bind]. do 2 f_equal. rewrite (vadd_comm q p). symmetry. apply vplus_vadd. }
  rewrite EM. unfold value, borderR, borderResult. change (@converted X V) with (@mapRes X V). destruct (mapRes store (windowPixels f b image p)) as [vs|e|] eqn:E; cbn [obind bind].
  - assert (Lvs : length vs = length values) by (apply mapRes_length in E; unfold windowPixels in E; rewrite map_length in E; lia).
    rewrite Hb, Lvs. rewrite Nat.ltb_irrefl. rewrite <- Hb, skipn_all, app_nil_r, Hb. exists vs. split; [auto|].
    rewrite (innerLoopG_spec border values vs (length values) 0 0 zero values vs).
    + destruct (weighted border zero (combine values vs)) as [s| |]; cbn [obind bind]; auto. destruct (back s) as [v| |]; cbn [obind bind lift]; auto.
      assert (W := Hwf). destruct W as (W1 & W2 & W3). unfold rset. rewrite rindex_rank by (auto; now apply InDomain_length). cbn [bind].
      rewrite zset_ok by (rewrite W3; now apply rank_bounds). reflexivity.
    + rewrite Z.add_0_l. apply mapRes_all.
    + rewrite Z.add_0_l, <- Lvs. apply mapRes_all.
  - exists buffer. split; [auto|reflexivity].
  - exists buffer. split; [auto|reflexivity].
Qed.

Lemma WF_replace (r : raster X) i v : WF r -> WF (mkRaster (rshape r) (replace (rdata r) i v)).
Proof. intros (W1 & W2 & W3). split; [auto|]. split; [auto|]. cbn [rshape rdata]. now rewrite replace_length. Qed.

Lemma ext_loopG ps : forall out buffer fuel, WF out -> Forall (InDomain (rshape out)) ps -> length (rshape out) = length f ->
  length buffer = length values -> (length values < fuel)%nat ->
  extLoopG zero border store back fuel n values (mkBox f b) ext ps out buffer =
  Some (vs <- mapRes value ps ;; Ok (mkRaster (rshape out) (writes (rdata out) (map (rank (rshape out)) ps) vs))).
Proof.
  induction ps as [|p ps IH]; intros out buffer fuel Hwf Hd Hl Hb Hf; cbn [extLoopG mapRes bind].
  - destruct out. reflexivity.
  - inversion Hd as [|? ? Hp Hps]; subst. assert (Lp := InDomain_length _ _ Hp).
    destruct (ext_pixelG p out buffer fuel Hwf Hp ltac:(lia) Hb Hf) as (buffer' & B' & ->).
    destruct (value p) as [v| |]; cbn [obind bind]; auto. cbn [fst snd].
    rewrite IH; auto; [|now apply WF_replace]. cbn [rshape rdata]. destruct (mapRes value ps); reflexivity.
Qed.

(** All the boxes of the borders *)
Definition boxesPositions (bs : list box) : list (list Z) := flat_map (fun bx => positions (bfront bx) (bback bx)) bs.

Lemma writes_app L M : forall (mem : list X) vs ws, length vs = length L -> writes (writes mem L vs) M ws = writes mem (L ++ M) (vs ++ ws).
Proof. clear. induction L as [|a L IH]; intros mem [|v vs] ws H; cbn in H; try lia; cbn [writes app]; auto. Qed.

Lemma ext_boxesG bs : forall out fuel, Forall Nonempty bs -> (forall bx p, In bx bs -> InBox bx p -> InDomain (rshape out) p) -> WF out -> length (rshape out) = length f ->
  (length values + length (boxesPositions bs) < fuel)%nat ->
  correlateExtsG zero border store back fuel n values (mkBox f b) ext bs out =
  Some (vs <- mapRes value (boxesPositions bs) ;; Ok (mkRaster (rshape out) (writes (rdata out) (map (rank (rshape out)) (boxesPositions bs)) vs))).
Proof.
  induction bs as [|bx bs IH]; intros out fuel Hn Hd Hwf Hl Hfuel.
  - destruct out. reflexivity.
  - inversion Hn as [|? ? N1 N2]; subst. destruct bx as [xf xb]. assert (Hin := N1). apply Nonempty_iff in Hin. cbn [bfront bback] in Hin.
    assert (Hxf : xf <> []).
    { assert (H := Hd _ xf ltac:(now left) ltac:(now apply NonEmpty_front)). apply InDomain_length in H. intros ->. cbn in H. destruct f; [congruence|]. cbn in Hl. lia. }
    assert (HP : Forall (InDomain (rshape out)) (positions xf xb)).
    { apply Forall_forall. intros p Hp. apply (Hd (mkBox xf xb)); [now left|]. apply In_positions in Hp. exact Hp. }
    unfold boxesPositions in *. cbn [flat_map bfront bback] in *. rewrite app_length in Hfuel. rewrite mapRes_app.
    cbn [correlateExtsG]. unfold correlateExtG.
    assert (Hs : boxSize (mkBox xf xb) <> 0).
    { rewrite (boxSize_count xf xb) by auto. destruct (positions_hd _ _ Hin) as [L ->]. cbn. lia. }
    replace (boxSize _ =? 0) with false by lia. rewrite boxForeach_positions by (auto; lia). cbn [obind].
    rewrite ext_loopG by (auto; try (now rewrite repeat_length); lia).
    destruct (mapRes value (positions xf xb)) as [vs| |] eqn:E; cbn [bind obind]; auto.
    assert (Lvs := mapRes_length _ _ _ E).
    rewrite IH; cbn [rshape rdata]; auto; [|intros bx p Hbx; apply Hd; now right| |lia].
    + destruct (mapRes value _) as [ws| |]; cbn [bind]; auto. rewrite writes_app by (now rewrite map_length). now rewrite map_app.
    + destruct Hwf as (W1 & W2 & W3). split; [auto|]. split; [auto|]. cbn [rshape rdata]. now rewrite writes_length.
Qed.
End Ext.

(** The inner region *)
Lemma rowSumG_spec values mem kW inW : 0 < kW -> forall rows kIt inIt acc ks xs,
  mapRes (fun t => zget values (kIt + t)) (zrange 0 (Z.of_nat rows * kW - 1)) = Ok ks ->
  mapRes (fun t => zget mem (inIt + t mod kW + t / kW * inW)) (zrange 0 (Z.of_nat rows * kW - 1)) = Ok xs ->
  rowSumG inner rows values mem kIt inIt kW inW acc = weighted inner acc (combine ks xs).
Proof.
  clear. intros HkW. induction rows as [|rows IH]; intros kIt inIt acc ks xs Hk Hx.
  - rewrite zrange_empty in Hk, Hx by lia. injection Hk as <-. reflexivity.
  - cbn [rowSumG]. rewrite Nat2Z.inj_succ in *. assert (0 <= Z.of_nat rows * kW) by (apply Z.mul_nonneg_nonneg; lia).
    replace (Z.succ (Z.of_nat rows) * kW - 1) with (kW + Z.of_nat rows * kW - 1) in * by lia.
    rewrite (zrange_app 0 (kW - 1) (kW + Z.of_nat rows * kW - 1)) in Hk, Hx by lia.
    replace (zrange (kW - 1 + 1) (kW + Z.of_nat rows * kW - 1)) with (map (fun z => z + kW) (zrange 0 (Z.of_nat rows * kW - 1))) in *
          by (rewrite <- zrange_shift; f_equal; lia).
    apply mapRes_split in Hk as (k1 & k2 & K1 & K2 & ->). apply mapRes_split in Hx as (x1 & x2 & X1 & X2 & ->).
    rewrite combine_app by (rewrite (mapRes_length _ _ _ K1), (mapRes_length _ _ _ X1); reflexivity). rewrite weighted_app.
    rewrite (innerLoopG_spec inner values mem (Z.to_nat kW) kIt inIt acc k1 x1).
    + destruct (weighted inner acc (combine k1 x1)) as [acc'| |]; cbn [bind]; auto. rewrite mapRes_map in K2. rewrite mapRes_map in X2. apply IH.
      * rewrite <- K2. apply mapRes_ext. intros t _. f_equal. lia.
      * rewrite <- X2. apply mapRes_ext. intros t _. replace (t + kW) with (t + 1 * kW) by lia. rewrite Z.mod_add, Z.div_add by lia. f_equal. lia.
    + rewrite <- K1. replace (zrange kIt (kIt + Z.of_nat (Z.to_nat kW) - 1)) with (map (fun z => z + kIt) (zrange 0 (kW - 1))) by (rewrite <- zrange_shift; f_equal; lia).
      rewrite mapRes_map. apply mapRes_ext. intros t _. f_equal. lia.
    + rewrite <- X1. replace (zrange inIt (inIt + Z.of_nat (Z.to_nat kW) - 1)) with (map (fun z => z + inIt) (zrange 0 (kW - 1))) by (rewrite <- zrange_shift; f_equal; lia).
      rewrite mapRes_map. apply mapRes_ext. intros t Ht. apply In_zrange in Ht. rewrite Z.mod_small, Z.div_small by lia. f_equal. lia.
Qed.

Section Flat.
Variables (values : list V) (mem : list X) (rows : nat) (kW inW distance : Z).
Hypothesis HkW : 0 < kW.
Hypothesis HinW : 0 <= inW.
Hypothesis Hrows : (0 < rows)%nat.
Hypothesis Hvalues : Z.of_nat (length values) = Z.of_nat rows * kW.

(** The outcome for the pixels read from an address *)
Definition fromAddress (start : Z) : res X := sum <- rowSumG inner rows values mem 0 start kW inW zero ;; back sum.

Fixpoint flatLoopG (L : list Z) (inIt : Z) (out : list X) : res (Z * list X) :=
  match L with
  | [] => Ok (inIt, out)
  | a :: L' => v <- fromAddress inIt ;; out' <- zset out a v ;; flatLoopG L' (a + 1 - distance) out'
  end.

Lemma rowLoop_flatG pixels : forall outIt inIt out,
  rowLoopG zero inner back pixels values mem rows kW inW distance outIt inIt out = flatLoopG (map (fun k => outIt + k) (zrange 0 (Z.of_nat pixels - 1))) inIt out.
Proof.
  clear HkW HinW Hrows Hvalues. induction pixels as [|pixels IH]; intros outIt inIt out.
  - cbn [rowLoopG]. rewrite zrange_empty by lia. reflexivity.
  - cbn [rowLoopG]. rewrite (zrange_cons 0) by lia. cbn [map flatLoopG]. rewrite Z.add_0_r. unfold fromAddress.
    destruct (rowSumG inner rows values mem 0 inIt kW inW zero) as [s| |]; cbn [bind]; auto. destruct (back s) as [v| |]; cbn [bind]; auto.
    destruct (zset out outIt v); cbn [bind]; auto.
    rewrite IH. f_equal. replace (zrange (0 + 1) (Z.of_nat (S pixels) - 1)) with (map (fun z => z + 1) (zrange 0 (Z.of_nat pixels - 1)))
      by (rewrite <- zrange_shift; f_equal; lia). rewrite map_map. apply map_ext. intros. lia.
Qed.

Lemma flatLoopG_app L M : forall inIt out, flatLoopG (L ++ M) inIt out = (st <- flatLoopG L inIt out ;; flatLoopG M (fst st) (snd st)).
Proof.
  induction L as [|a L IH]; intros inIt out; cbn [app flatLoopG]; auto.
  destruct (fromAddress inIt) as [v| |]; cbn [bind]; auto. destruct (zset out a v); cbn [bind]; auto.
Qed.

Lemma rowsLoop_flatG n shape x y ps : shape <> [] -> Forall (fun p => length p = length shape /\ nth 0 p 0 = x) ps -> forall inIt out,
  rowsLoopG zero inner back n shape ps (Z.to_nat (y - x + 1)) values mem rows kW inW distance inIt out =
  (st <- flatLoopG (map (rank shape) (flat_map (fun p => map (fun z => replace p 0 z) (zrange x y)) ps)) inIt out ;; Ok (snd st)).
Proof.
  clear HkW HinW Hrows Hvalues. intros Hs. induction 1 as [|p ps (Hl & Hx) Hps IH]; intros inIt out; cbn [rowsLoopG flat_map map flatLoopG bind]; auto.
  rewrite rindex_rank by auto. cbn [bind]. rewrite rowLoop_flatG, map_app, flatLoopG_app.
  assert (E : map (fun k => rank shape p + k) (zrange 0 (Z.of_nat (Z.to_nat (y - x + 1)) - 1)) = map (rank shape) (map (fun z => replace p 0 z) (zrange x y))).
  { rewrite map_map. destruct (Z_lt_le_dec y x) as [Q|Q]; [now rewrite !zrange_empty by lia|].
    replace (zrange x y) with (map (fun z => z + x) (zrange 0 (Z.of_nat (Z.to_nat (y - x + 1)) - 1))) by (rewrite <- zrange_shift; f_equal; lia).
    rewrite map_map. apply map_ext. intros k. destruct p as [|a p], shape as [|s shape]; cbn in Hl; try congruence; try lia.
    cbn [nth] in Hx. subst. cbn [replace]. rewrite !rank_cons. lia. }
  rewrite E. destruct (flatLoopG (map (rank shape) (map (fun z => replace p 0 z) (zrange x y))) inIt out) as [[i o]| |]; cbn [bind fst snd]; auto.
Qed.

(** The addresses from which the pixels of the successive outputs are read *)
Fixpoint starts (L : list Z) (inIt : Z) : list Z := match L with [] => [] | a :: L' => inIt :: starts L' (a + 1 - distance) end.

Lemma flatLoopG_spec L : forall inIt out, Forall (fun a => 0 <= a < Z.of_nat (length out)) L ->
  (st <- flatLoopG L inIt out ;; Ok (snd st)) = (vs <- mapRes fromAddress (starts L inIt) ;; Ok (writes out L vs)).
Proof.
  clear HkW HinW Hrows Hvalues. induction L as [|a L IH]; intros inIt out Hb; cbn [flatLoopG starts mapRes bind snd writes]; auto. inversion Hb as [|? ? B1 B2]; subst.
  destruct (fromAddress inIt) as [v| |]; cbn [bind]; auto. rewrite zset_ok by auto. cbn [bind]. rewrite IH by (now rewrite replace_length).
  destruct (mapRes fromAddress _); reflexivity.
Qed.

Lemma fromAddress_spec start : 0 <= start -> start + (Z.of_nat rows - 1) * inW + kW <= Z.of_nat (length mem) ->
  exists xs, ReadByRows mem start kW inW (Z.of_nat (length values)) xs /\ fromAddress start = innerR values xs.
Proof.
  intros H1 H2. assert (Hx : exists xs, mapRes (fun t => zget mem (start + t mod kW + t / kW * inW)) (zrange 0 (Z.of_nat (length values) - 1)) = Ok xs).
  { destruct (mapRes_cases (fun t => zget mem (start + t mod kW + t / kW * inW)) (zrange 0 (Z.of_nat (length values) - 1))) as [H|(_ & t & Ht & E)]; auto.
    - intros t _ e. unfold zget. destruct (_ <? 0); [discriminate|]. destruct (nth_error _ _); discriminate.
    - exfalso. apply In_zrange in Ht. assert (0 <= t mod kW < kW) by (apply Z.mod_pos_bound; lia). assert (0 <= t / kW) by (apply Z.div_pos; lia).
      assert (t / kW <= Z.of_nat rows - 1) by (apply Z.lt_succ_r; apply Z.div_lt_upper_bound; lia).
      assert (0 <= t / kW * inW <= (Z.of_nat rows - 1) * inW) by (split; [apply Z.mul_nonneg_nonneg; lia|apply Z.mul_le_mono_nonneg_r; lia]).
      destruct (zget_in_range mem (start + t mod kW + t / kW * inW) ltac:(lia)) as (a & Ea). congruence. }
  destruct Hx as (xs & Hx). exists xs. split; [apply mapRes_Forall2; exact Hx|]. unfold fromAddress, innerR, innerResult.
  rewrite Hvalues in Hx. rewrite (rowSumG_spec values mem kW inW HkW rows 0 start zero values xs); [reflexivity| |exact Hx].
  rewrite <- Hvalues. apply mapRes_all.
Qed.
End Flat.

Lemma starts_length d L : forall i, length (starts d L i) = length L.
Proof. induction L as [|a L IH]; intros i; cbn; auto. Qed.

Lemma starts_first d {P} (rk : P -> Z) a L i : In (a, i) (combine (a :: L) (starts d (map rk (a :: L)) i)).
Proof. cbn. now left. Qed.

Lemma starts_next d {P} (rk : P -> Z) A : forall a c B i, In (c, rk a + 1 - d) (combine (A ++ a :: c :: B) (starts d (map rk (A ++ a :: c :: B)) i)).
Proof. induction A as [|x A IH]; intros a c B i; cbn [app map starts combine]; right; [now left|apply IH]. Qed.

Lemma starts_inv d {P} (rk : P -> Z) L : forall i p st, In (p, st) (combine L (starts d (map rk L) i)) ->
  (exists B, L = p :: B /\ st = i) \/ exists A q B, L = A ++ q :: p :: B /\ st = rk q + 1 - d.
Proof.
  induction L as [|a L IH]; intros i p st H; cbn [map starts combine] in H; [destruct H|]. destruct H as [H|H].
  - injection H as <- <-. left. eauto.
  - destruct (IH _ _ _ H) as [(B & -> & ->)|(A & q & B & -> & ->)]; right; [exists [], a, B; auto|exists (a :: A), q, B; auto].
Qed.

Lemma combine_pick {A B C} (R : B -> C -> Prop) (S' : A -> C -> Prop) l : forall m vs a b, Forall2 R m vs -> Forall2 S' l vs -> In (a, b) (combine l m) -> exists v, R b v /\ S' a v.
Proof.
  induction l as [|x l IH]; intros m vs a b H1 H2 H; [destruct H|]. inversion H2 as [|? v ? vs' V1 V2]; subst. inversion H1 as [|y ? m' ? W1 W2]; subst.
  cbn [combine] in H. destruct H as [H|H]; [injection H as <- <-; eauto|eauto].
Qed.

Lemma combine_right {A B} (l : list A) (m : list B) b : length l = length m -> In b m -> exists a, In (a, b) (combine l m).
Proof.
  revert m. induction l as [|x l IH]; intros [|y m] H Hb; cbn in H; try lia; [destruct Hb|]. destruct Hb as [->|Hb]; [exists x; now left|].
  destruct (IH m ltac:(lia) Hb) as (a & Ha). exists a. now right.
Qed.
Lemma combine_left {A B} (l : list A) (m : list B) a : length l = length m -> In a l -> exists b, In (a, b) (combine l m).
Proof.
  revert m. induction l as [|x l IH]; intros [|y m] H Ha; cbn in H; try lia; [destruct Ha|]. destruct Ha as [->|Ha]; [exists y; now left|].
  destruct (IH m ltac:(lia) Ha) as (b & Hb). exists b. now right.
Qed.

Lemma combine_unique {A B} (l : list A) : forall (m : list B) a b c, NoDup l -> In (a, b) (combine l m) -> In (a, c) (combine l m) -> b = c.
Proof.
  induction l as [|x l IH]; intros [|y m] a b c Hn H1 H2; try (now destruct H1). inversion Hn as [|? ? N1 N2]; subst. cbn [combine] in H1, H2.
  destruct H1 as [H1|H1], H2 as [H2|H2].
  - congruence.
  - injection H1 as <- <-. apply in_combine_l in H2. contradiction.
  - injection H2 as <- <-. apply in_combine_l in H1. contradiction.
  - eapply IH; eauto.
Qed.

Lemma lexLt_length p : forall q, lexLt p q -> length p = length q.
Proof. induction p as [|x p IH]; intros [|y q] H; cbn in H; try contradiction; cbn; f_equal. destruct H as [H|(<- & _)]; auto. Qed.

Lemma rank_inverse s : forall l, (forall q, In q l -> InDomain s q) -> NoDup l -> NoDup (map (rank s) l).
Proof.
  clear. induction l as [|a l IH]; intros Hd Hn; cbn [map]; constructor; inversion Hn as [|? ? N1 N2]; subst.
  - intros I. apply in_map_iff in I as (c & Ec & Hc). apply N1. replace a with c; auto. apply (rank_inj s); auto; apply Hd; [now right|now left].
  - apply IH; auto. intros q Hq. apply Hd. now right.
Qed.

Lemma NoDup_app2 {A} (l m : list A) : NoDup l -> NoDup m -> (forall a, In a l -> ~ In a m) -> NoDup (l ++ m).
Proof.
  intros H1 H2 H. induction l as [|a l IH]; cbn [app]; auto. inversion H1 as [|? ? N1 N2]; subst. constructor.
  - intros I. apply in_app_or in I as [I|I]; [contradiction|]. apply (H a); [now left|auto].
  - apply IH; auto. intros c Hc. apply H. now right.
Qed.
Lemma Forall2_app2 {A B} (R : A -> B -> Prop) l1 l2 : forall m1 m2, length l1 = length m1 -> Forall2 R (l1 ++ l2) (m1 ++ m2) -> Forall2 R l1 m1 /\ Forall2 R l2 m2.
Proof.
  induction l1 as [|a l1 IH]; intros [|c m1] m2 Hl H; cbn in Hl; try lia; cbn [app] in H; [auto|]. inversion H as [|? ? ? ? R1 R2]; subst.
  destruct (IH m1 m2 ltac:(lia) R2). auto.
Qed.
Lemma Forall2_mapl {A B C} (R : B -> C -> Prop) (g : A -> B) l : forall m, Forall2 R (map g l) m -> Forall2 (fun a c => R (g a) c) l m.
Proof. induction l as [|a l IH]; intros m H; inversion H; subst; constructor; auto. Qed.
Lemma Forall2_both {A B} (R S' : A -> B -> Prop) l : forall m a, Forall2 R l m -> Forall2 S' l m -> In a l -> exists c, R a c /\ S' a c.
Proof.
  induction l as [|x l IH]; intros m a H1 H2 Ha; [destruct Ha|]. inversion H1 as [|? y ? m' V1 V2]; subst. inversion H2; subst.
  destruct Ha as [->|Ha]; eauto.
Qed.

Section Assembly.
Variables (n s0 : Z) (s' : list Z) (f0 : Z) (f' : list Z) (b0 : Z) (b' : list Z) (values : list V) (data : list X) (ext : list Z -> res X) (image : list Z -> X).
Let s := s0 :: s'.
Let f := f0 :: f'.
Let b := b0 :: b'.
Hypothesis Hn : n = Z.of_nat (length s).
Hypothesis Hs : Positive s.
Hypothesis Hdata : Z.of_nat (length data) = prod s.
Hypothesis Hlen : length f = length s.
Hypothesis Hw : Forall2 (fun x y => x <= 0 <= y) f b.
Hypothesis Hin : NonEmpty (ifront f) (iback s b).
Hypothesis Hv : Z.of_nat (length values) = prod (wshape f b).
Hypothesis Hext : forall q, length q = length s -> ext q = Ok (image q).

Let P := positions (ifront f) (iback s b).
Let from := fromAddress values data (Z.to_nat (prod (wshape f' b'))) (b0 - f0 + 1) s0.
Let S1 := starts (rank s (ifront f)) (map (rank s) P) 0.
Let value p := borderR values (windowPixels f b image p).

Lemma asm_Lb : length b = length s.
Proof. rewrite <- Hlen. symmetry. now apply Forall2_len in Hw. Qed.
Lemma asm_split : NonEmpty f b /\ Forall (fun x => x <= 0) f /\ Forall (fun x => 0 <= x) b.
Proof. now apply Forall2_split. Qed.
Lemma asm_domain p : Between (ifront f) (iback s b) p -> InDomain s p.
Proof. destruct asm_split as (_ & Hf & Hb). exact (inner_domain s f b p Hlen asm_Lb Hf Hb). Qed.
Lemma asm_inner p : length p = length s -> Inner s f b p <-> Between (ifront f) (iback s b) p.
Proof. intros Lp. exact (inner_iff s f b p Hlen asm_Lb Lp Hw). Qed.

Lemma asm_facts : NonEmpty f' b' /\ f0 <= b0 /\ 0 < prod (wshape f' b') /\ 0 < s0 /\ prod (wshape f b) = (b0 - f0 + 1) * prod (wshape f' b').
Proof.
  destruct asm_split as (Hfb & _). assert (Hfb' : NonEmpty f' b' /\ f0 <= b0) by (inversion Hfb; auto). destruct Hfb' as (H1 & H2).
  assert (H3 := prod_pos _ (wshape_positive f' b' H1)). split; [auto|]. split; [auto|]. split; [auto|]. split; [inversion Hs; auto|reflexivity].
Qed.

(** Reads are in the memory *)
Lemma asm_safe p st : In (p, st) (combine P S1) ->
  0 <= st /\ st + (Z.of_nat (Z.to_nat (prod (wshape f' b'))) - 1) * s0 + (b0 - f0 + 1) <= Z.of_nat (length data).
Proof.
  intros H. destruct asm_facts as (Hfb' & Hfb0 & Hrows & Hs0 & _). assert (Hlb := asm_Lb). assert (Hs' : Positive s') by (inversion Hs; auto).
  assert (Hww := inner_window s f b Hlen Hlb Hin).
  assert (Hlast : (prod (wshape f' b') - 1) * s0 + (b0 - f0 + 1) <= rank s b - rank s f + 1).
  { unfold s, f, b. rewrite !rank_cons. inversion Hww as [|? ? ? ? _ Hw']; subst. assert (I := window_last s' f' b' Hs' Hfb' Hw').
    rewrite rank_voff in I by (cbn in Hlen, Hlb; lia). nia. }
  assert (Hlo : forall q, Between (ifront f) (iback s b) q -> rank s (ifront f) <= rank s q) by (intros q Hq; apply rank_mono; [auto|now apply Between_le in Hq]).
  assert (Hhi : forall q, Between (ifront f) (iback s b) q -> rank s q <= prod s - 1 - rank s b).
  { intros q Hq. rewrite <- rank_iback by (auto; discriminate). apply rank_mono; [auto|]. now apply Between_le in Hq. }
  assert (Hneg : rank s (ifront f) = - rank s f) by apply rank_ifront.
  rewrite Hdata, Z2Nat.id by lia. destruct (starts_inv _ _ _ _ _ _ H) as [(B & EP & ->)|(A & q & B & EP & ->)].
  - assert (I := Hhi (ifront f) (NonEmpty_front _ _ Hin)). lia.
  - assert (Hq : Between (ifront f) (iback s b) q) by (apply In_positions; fold P; rewrite EP; apply in_or_app; right; now left).
    assert (Hp : Between (ifront f) (iback s b) p) by (apply In_positions; fold P; rewrite EP; apply in_or_app; right; right; now left).
    assert (Lt := sorted_consecutive lexLt _ _ _ _ _ (positions_sorted (ifront f) (iback s b)) EP). apply (rank_lexLt s) in Lt; [|now apply asm_domain|now apply asm_domain].
    assert (I1 := Hlo q Hq). assert (I2 := Hhi p Hp). lia.
Qed.

Lemma asm_from p st : In (p, st) (combine P S1) ->
  exists xs, ReadByRows data st (b0 - f0 + 1) s0 (Z.of_nat (length values)) xs /\ from st = innerR values xs.
Proof.
  intros H. destruct asm_facts as (Hfb' & Hfb0 & Hrows & Hs0 & Epw). destruct (asm_safe p st H) as (H1 & H2).
  apply fromAddress_spec; auto; try lia.
Qed.

Lemma read_unique mem st w d c (xs ys : list X) : ReadByRows mem st w d c xs -> ReadByRows mem st w d c ys -> xs = ys.
Proof. unfold ReadByRows. intros H1 H2. apply mapRes_Forall2 in H1, H2. congruence. Qed.

Lemma before_not_after A q p B r : P = A ++ q :: p :: B -> Between (ifront f) (iback s b) r -> lexLt q r -> ~ lexLt r p.
Proof.
  intros EP Hr L1 L2. assert (Srt := positions_sorted (ifront f) (iback s b)). fold P in Srt.
  assert (HD : forall x, In x P -> InDomain s x) by (intros x Hx; apply asm_domain, In_positions; exact Hx).
  assert (Ir : In r P) by (apply In_positions in Hr; exact Hr). assert (Dr := HD r Ir).
  assert (Dq : InDomain s q) by (apply HD; rewrite EP; apply in_or_app; right; now left).
  assert (Dp : InDomain s p) by (apply HD; rewrite EP; apply in_or_app; right; right; now left).
  assert (R1 := rank_lexLt s q r Dq Dr L1). assert (R2 := rank_lexLt s r p Dr Dp L2).
  rewrite EP in Ir, Srt. apply in_app_or in Ir as [Ir|[<-|[<-|Ir]]]; [|lia|lia|].
  - assert (R : lexLt r q). { clear - Srt Ir. induction A as [|c A0 IH]; [destruct Ir|]. inversion Srt as [|? ? Q1 Q2]; subst.
      destruct Ir as [->|Ir]; [|auto]. rewrite Forall_forall in Q2. apply Q2. apply in_or_app. right. now left. }
    apply (rank_lexLt s) in R; auto. lia.
  - assert (R : lexLt p r). { clear - Srt Ir. replace (A ++ q :: p :: B) with ((A ++ [q]) ++ p :: B) in Srt by (now rewrite <- app_assoc).
      induction (A ++ [q]) as [|c A1 IH]; cbn [app] in Srt; inversion Srt as [|? ? Q1 Q2]; subst; auto. rewrite Forall_forall in Q2. now apply Q2. }
    apply (rank_lexLt s) in R; auto. lia.
Qed.

Lemma gets_iff p v : GetsI s f b values data image p v <->
  (InDomain s p /\ ~ Between (ifront f) (iback s b) p /\ v = value p) \/ (exists st, In (p, st) (combine P S1) /\ v = from st).
Proof.
  assert (Hlb := asm_Lb). split.
  - intros [p' Hp Hni|xs Hx|q p' xs Hp Hq Hi Hpq Hx].
    + left. split; [auto|]. split; [|reflexivity]. rewrite <- asm_inner; [auto|]. symmetry. now apply InDomain_length.
    + right. assert (Hst : In (ifront f, 0) (combine P S1)).
      { unfold S1, P. destruct (positions_hd _ _ Hin) as [L EL]. rewrite EL. apply starts_first. }
      exists 0. split; [exact Hst|]. destruct (asm_from _ _ Hst) as (ys & Hy & ->). cbn [nth] in Hx. unfold s, f, b in Hx. cbn [nth] in Hx. now rewrite (read_unique _ _ _ _ _ _ _ Hx Hy).
    + right. assert (Lp := InDomain_length _ _ Hp). assert (Lq := InDomain_length _ _ Hq).
      destruct (consecutive s f b q p' Hw Hlen ltac:(auto) ltac:(auto) Hi Hpq) as (A & B & EP).
      assert (Hst : In (p', rank s q + 1 - rank s (ifront f)) (combine P S1)).
      { unfold S1, P. rewrite EP. apply starts_next. }
      exists (rank s q + 1 - rank s (ifront f)). split; [exact Hst|]. destruct (asm_from _ _ Hst) as (ys & Hy & ->).
      rewrite rank_ifront in Hy. replace (rank s q + 1 - - rank s f) with (rank s q + 1 + rank s f) in Hy by lia.
      unfold f, b in Hx. cbn [nth] in Hx. fold f in Hx. unfold s in Hx at 2. cbn [nth] in Hx. now rewrite (read_unique _ _ _ _ _ _ _ Hx Hy).
  - intros [(Hp & Hni & ->)|(st & Hst & ->)].
    + apply gets_border; [auto|]. rewrite asm_inner; [auto|]. symmetry. now apply InDomain_length.
    + destruct (asm_from _ _ Hst) as (xs & Hx & ->). destruct (starts_inv _ _ _ _ _ _ Hst) as [(B & EP & ->)|(A & q & B & EP & ->)].
      * assert (Ep : p = ifront f) by (unfold P in EP; destruct (positions_hd _ _ Hin) as [L EL]; congruence). subst p. apply gets_first. exact Hx.
      * assert (Hq : Between (ifront f) (iback s b) q) by (apply In_positions; fold P; rewrite EP; apply in_or_app; right; now left).
        assert (Hp : Between (ifront f) (iback s b) p) by (apply In_positions; fold P; rewrite EP; apply in_or_app; right; right; now left).
        assert (Dq := asm_domain q Hq). assert (Dp := asm_domain p Hp). assert (Lq := InDomain_length _ _ Dq). assert (Lp := InDomain_length _ _ Dp).
        apply (gets_next s f b values data image q p xs); auto; [now apply asm_inner| |].
        -- split; [now apply asm_inner|]. split; [exact (sorted_consecutive lexLt _ _ _ _ _ (positions_sorted (ifront f) (iback s b)) EP)|].
           intros r Hr L1. apply (before_not_after A q p B r EP); auto. apply asm_inner; auto. apply lexLt_length in L1. lia.
        -- rewrite rank_ifront in Hx. replace (rank s q + 1 - - rank s f) with (rank s q + 1 + rank s f) in Hx by lia. exact Hx.
Qed.

Lemma gets_unique p v w : GetsI s f b values data image p v -> GetsI s f b values data image p w -> v = w.
Proof.
  intros H1 H2. apply gets_iff in H1, H2. destruct H1 as [(D1 & N1 & ->)|(st & I1 & ->)], H2 as [(D2 & N2 & ->)|(st' & I2 & ->)]; auto.
  - exfalso. apply N1. apply in_combine_l in I2. now apply In_positions in I2.
  - exfalso. apply N2. apply in_combine_l in I1. now apply In_positions in I1.
  - f_equal. eapply combine_unique; eauto. apply positions_NoDup.
Qed.

Lemma gets_total p : InDomain s p -> exists v, GetsI s f b values data image p v.
Proof.
  intros Hp. destruct (in_dec (list_eq_dec Z.eq_dec) p P) as [I|I].
  - destruct (combine_left P S1 p) as (st & Hst); [unfold S1; now rewrite starts_length, map_length|auto|]. exists (from st). apply gets_iff. right. eauto.
  - exists (value p). apply gets_iff. left. split; [auto|]. split; [|auto]. now rewrite <- In_positions.
Qed.

Lemma inner_specG out fuel : WF out -> rshape out = s -> (length P < fuel)%nat ->
  correlateInnerG zero inner back fuel n values (mkBox f b) (mkRaster s data) (mkBox (ifront f) (iback s b)) out =
  Some (vs <- mapRes from S1 ;; Ok (mkRaster s (writes (rdata out) (map (rank s) P) vs))).
Proof.
  intros Hwf Hshape Hfuel. destruct asm_facts as (Hfb' & Hfb0 & Hrows & Hs0 & Epw). assert (Hlb := asm_Lb). destruct asm_split as (Hfb & _).
  destruct Hwf as (_ & _ & Hout). rewrite Hshape in Hout.
  assert (Efi : ifront f = - f0 :: ifront f') by reflexivity. assert (Ebi : iback s b = s0 - 1 - b0 :: iback s' b') by reflexivity.
  assert (Hne : ifront f <> []) by discriminate.
  unfold correlateInnerG.
  assert (Hsz : boxSize (mkBox (ifront f) (iback s b)) <> 0) by (rewrite boxSize_count by auto; destruct (positions_hd _ _ Hin) as [L ->]; cbn; lia).
  replace (boxSize (mkBox (ifront f) (iback s b)) =? 0) with false by lia.
  rewrite (boxSize_window f b) by (auto; discriminate). rewrite Epw.
  rewrite Efi, Ebi. unfold boxLength, project. cbn [bfront bback rshape rdata].
  assert (Gf : zget f 0 = Ok f0) by reflexivity. assert (Gb : zget b 0 = Ok b0) by reflexivity. assert (Gs : zget s 0 = Ok s0) by reflexivity.
  rewrite Gf, Gb, Gs, !zget_cons_0. cbn [bind]. rewrite zset_ok by (cbn [length]; lia). cbn [bind lift obind Z.to_nat replace bfront bback].
  replace (b0 - f0 + 1 =? 0) with false by lia.
  rewrite Hshape. rewrite rindex_rank; [|discriminate|unfold s; cbn [length]; rewrite map_length; cbn in Hlen; lia]. cbn [lift obind].
  assert (Hbx : NonEmpty (- f0 :: ifront f') (- f0 :: iback s' b')) by (constructor; [lia|]; rewrite Efi, Ebi in Hin; inversion Hin; auto).
  rewrite boxForeach_positions; [|discriminate|auto|].
  - cbn [obind].
    assert (Eq : Z.quot ((b0 - f0 + 1) * prod (wshape f' b')) (b0 - f0 + 1) = prod (wshape f' b')) by (rewrite Z.mul_comm; apply Z.quot_mul; lia).
    rewrite Eq. replace (Z.to_nat (s0 - 1 - b0 - - f0 + 1)) with (Z.to_nat ((s0 - 1 - b0) - (- f0) + 1)) by lia.
    rewrite rowsLoop_flatG; [|discriminate|].
    + rewrite positions_flat. rewrite <- Efi, <- Ebi. fold P. rewrite flatLoopG_spec.
      * fold S1 from. destruct (mapRes from S1); reflexivity.
      * apply Forall_forall. intros a Ha. apply in_map_iff in Ha as (q & <- & Hq). rewrite Hout. apply rank_bounds, asm_domain. now apply In_positions.
    + apply Forall_forall. intros p Hp. apply In_positions in Hp. split.
      * apply Between_length in Hp. cbn [length] in Hp. rewrite map_length in Hp. unfold s. cbn [length]. cbn in Hlen. lia.
      * destruct p as [|z p]; [inversion Hp|]. apply Between_cons_iff in Hp. cbn. lia.
  - eapply Nat.le_lt_trans; [|exact Hfuel]. unfold P. rewrite Efi, Ebi. cbn [positions].
    assert (G : forall x y y' (L : list (list Z)), y <= y' -> (length (flat_map (fun q => map (fun z => z :: q) (zrange x y)) L) <= length (flat_map (fun q => map (fun z => z :: q) (zrange x y')) L))%nat).
    { clear. intros x y y' L H. induction L as [|q L IH]; cbn [flat_map]; [lia|]. rewrite !app_length, !map_length. assert (Z1 := zrange_length x y). assert (Z2 := zrange_length x y'). lia. }
    apply G. rewrite Efi, Ebi in Hin. inversion Hin; auto.
Qed.

Lemma typed_exact out : nothrows -> WF out -> rshape out = s ->
  exists r enough, (forall fuel, (enough <= fuel)%nat -> correlateToG zero inner border store back fuel n values (mkBox f b) (mkRaster s data) ext out = Some r) /\
    ((r = UB /\ exists p, InDomain s p /\ GetsI s f b values data image p UB) \/
     exists out', r = Ok out' /\ WF out' /\ rshape out' = s /\
       forall p v, InDomain s p -> GetsI s f b values data image p v -> zget (rdata out') (rank s p) = v).
Proof.
  intros NT Hwf Hshape. assert (Hlb := asm_Lb). destruct asm_split as (Hfb & Hf & Hb). destruct (inner_box n s f b Hn Hlen Hlb) as (I1 & I2 & I3).
  destruct (surround_partition (ifront f) (iback s b) f b) as (L & EL & NL & DL & CL & _); try (rewrite map_length; lia); auto.
  { now apply Nonempty_iff. }
  rewrite I3 in CL. set (Q := boxesPositions L).
  assert (HQ : forall p, In p Q <-> exists bx, In bx L /\ InBox bx p).
  { intros p. unfold Q, boxesPositions. rewrite in_flat_map. split; intros (bx & H1 & H2); exists bx; (split; [auto|]); apply In_positions; exact H2. }
  assert (DQ : forall p, In p Q -> InDomain s p).
  { intros p Hp. apply HQ in Hp. apply InBox_domain. apply CL. now right. }
  assert (DP : forall p, In p P -> InDomain s p) by (intros p Hp; apply asm_domain; apply In_positions in Hp; exact Hp).
  assert (EQ : forall p, InDomain s p -> (~ Between (ifront f) (iback s b) p <-> In p Q)).
  { intros p Hp. apply InBox_domain, CL in Hp. rewrite HQ. split.
    - intros N. destruct Hp as [C|C]; [contradiction|auto].
    - intros (bx & Hbx & Hpx) C. inversion DL as [|? ? D1 D2]; subst. rewrite Forall_forall in D1. apply (D1 bx Hbx p); auto. }
  assert (NQ : NoDup Q).
  { inversion DL as [|? ? D1 D2]; subst. unfold Q, boxesPositions. clear - D2. induction L as [|bx L IH]; cbn [flat_map]; [constructor|].
    inversion D2 as [|? ? D1 D3]; subst. assert (H1 := positions_NoDup (bfront bx) (bback bx)). specialize (IH D3).
    assert (Hdis : forall p, In p (positions (bfront bx) (bback bx)) -> ~ In p (flat_map (fun bx0 => positions (bfront bx0) (bback bx0)) L)).
    { intros p Hp Hp'. apply in_flat_map in Hp' as (bx' & Hb & Hp'). rewrite Forall_forall in D1. apply (D1 bx' Hb p); apply In_positions in Hp, Hp'; auto. }
    clear - H1 IH Hdis. induction (positions (bfront bx) (bback bx)) as [|p l IHl]; cbn [app]; auto. inversion H1 as [|? ? N1 N2]; subst. constructor.
    - intros I. apply in_app_or in I as [I|I]; [contradiction|]. apply (Hdis p); [now left|auto].
    - apply IHl; auto. intros q Hq. apply Hdis. now right. }
  assert (Hout := Hwf). destruct Hout as (W1 & W2 & W3). rewrite Hshape in W3.
  set (enough := S (length P + (length values + length Q))).
  exists (vs <- mapRes from S1 ;; ws <- mapRes value Q ;; Ok (mkRaster s (writes (rdata out) (map (rank s) P ++ map (rank s) Q) (vs ++ ws)))), enough. split.
  - intros fuel Hfuel. unfold enough in Hfuel. unfold correlateToG. cbn [rshape]. rewrite I1. cbn [lift obind]. rewrite I2, EL. cbn [lift obind].
    rewrite inner_specG by (auto; lia). destruct (mapRes from S1) as [vs| |] eqn:E; cbn [bind obind]; auto.
    assert (Lvs : length vs = length P) by (rewrite (mapRes_length _ _ _ E); unfold S1; now rewrite starts_length, map_length).
    rewrite (ext_boxesG n values f b ext image); cbn [rshape rdata]; auto.
    + fold Q. change (fun p => borderR values (windowPixels f b image p)) with value. destruct (mapRes value Q) as [ws| |]; cbn [bind]; auto.
      rewrite writes_app by (now rewrite map_length). reflexivity.
    + discriminate.
    + rewrite Hlen. exact Hext.
    + intros bx p Hbx Hp. apply DQ, HQ. eauto.
    + split; [discriminate|]. cbn [rshape rdata]. split; [rewrite <- Hshape; auto|]. now rewrite writes_length.
    + fold Q. lia.
  - assert (LS : length P = length S1) by (unfold S1; now rewrite starts_length, map_length).
    destruct (mapRes_cases from S1) as [(vs & Evs)|(Evs & st & Hst & Est)].
    { intros st Hst. destruct (combine_right P S1 st LS Hst) as (p & Hp). destruct (asm_from _ _ Hp) as (xs & _ & ->). now apply innerResult_nothrow. }
    + destruct (mapRes_cases value Q) as [(ws & Ews)|(Ews & p & Hp & Ep)].
      { intros p _. now apply borderResult_nothrow. }
      * right. rewrite Evs, Ews. cbn [bind]. eexists. split; [reflexivity|]. cbn [rshape rdata]. split; [|split; [reflexivity|]].
        { split; [discriminate|]. cbn [rshape rdata]. split; [rewrite <- Hshape; auto|]. now rewrite writes_length. }
        assert (Lvs := mapRes_length _ _ _ Evs). assert (Lws := mapRes_length _ _ _ Ews).
        assert (HG : Forall2 (fun a v => zget (writes (rdata out) (map (rank s) P ++ map (rank s) Q) (vs ++ ws)) a = Ok v) (map (rank s) P ++ map (rank s) Q) (vs ++ ws)).
        { apply writes_get.
          - rewrite <- map_app. apply rank_inverse.
            + intros q Hq. apply in_app_or in Hq as [Hq|Hq]; auto.
            + apply NoDup_app2; [apply positions_NoDup|exact NQ|]. intros q Hq Hq'. apply (EQ q); auto. apply In_positions in Hq. exact Hq.
          - rewrite !app_length, !map_length. lia.
          - rewrite <- map_app. apply Forall_forall. intros a Ha. apply in_map_iff in Ha as (q & <- & Hq). rewrite W3. apply rank_bounds. apply in_app_or in Hq as [Hq|Hq]; auto. }
        apply Forall2_app2 in HG as (G1 & G2); [|rewrite map_length; lia]. apply Forall2_mapl in G1. apply Forall2_mapl in G2.
        intros p v Hp Hg. apply gets_iff in Hg as [(_ & Hni & ->)|(st & Hst & ->)].
        { apply (EQ p Hp) in Hni. apply mapRes_Forall2 in Ews. destruct (Forall2_both _ _ _ _ p G2 Ews Hni) as (w & Ew & ->). exact Ew. }
        { apply mapRes_Forall2 in Evs. destruct (combine_pick _ _ P S1 vs p st Evs G1 Hst) as (w & -> & Ew). exact Ew. }
      * left. rewrite Evs, Ews. cbn [bind]. split; [reflexivity|]. exists p. split; [auto|]. apply gets_iff. left. split; [auto|]. split; [now apply EQ; auto|auto].
    + left. rewrite Evs. cbn [bind]. split; [reflexivity|]. destruct (combine_right P S1 st LS Hst) as (p & Hp). exists p. split.
      * apply DP. now apply in_combine_l in Hp.
      * apply gets_iff. right. exists st. auto.
Qed.

Lemma asm_first : Inner s f b (ifront f).
Proof. apply asm_inner; [rewrite map_length; exact Hlen|]. now apply NonEmpty_front. Qed.

Lemma gets_same p v : Gets zero inner border store back s f b values data image p v <-> GetsI s f b values data image p v.
Proof.
  assert (Ew : windowSize f b = Z.of_nat (length values)) by (symmetry; exact Hv). split.
  - intros (xs & HR & Hv'). destruct HR as [p Hp Hn'|xs Hx|q p xs Hp Hq Hi Hpq Hx]; try rewrite Ew in Hx.
    + destruct Hv' as [(C & _)|(_ & ->)]; [contradiction|]. now apply gets_border.
    + destruct Hv' as [(_ & ->)|(C & _)]; [|destruct (C asm_first)]. now apply gets_first.
    + destruct Hv' as [(_ & ->)|(C & _)]; [|contradiction]. now apply (gets_next s f b values data image q p xs).
  - intros [p' Hp Hni|xs Hx|q p' xs Hp Hq Hi Hpq Hx]; try rewrite <- Ew in Hx.
    + exists (windowPixels f b image p'). split; [now apply read_border|]. right. auto.
    + exists xs. split; [now apply read_first|]. left. split; [apply asm_first|reflexivity].
    + exists xs. split; [now apply (read_next s f b data image q p' xs)|]. left. auto.
Qed.

(** Where the window of a position is in the domain and adjacent to the previous one, it is what is read *)
Lemma read_window p : length p = length s -> (forall q, Between f b q -> zget data (rank s p + rank s q) = Ok (image (vplus p q))) -> skipn 1 f' = skipn 1 b' ->
  ReadByRows data (rank s p + rank s f) (b0 - f0 + 1) s0 (windowSize f b) (windowPixels f b image p).
Proof.
  intros Hp HX Hflat. destruct asm_split as (Hfb & _). destruct asm_facts as (_ & Hfb0 & _).
  assert (Hl : length f' = length s') by (cbn in Hlen; lia).
  unfold ReadByRows, windowPixels. change (windowSize f b) with (prod (wshape f b)). rewrite <- (positions_rank f b Hfb).
  assert (G : forall q, Between f b q -> zget data (rank s p + rank s f + rank (wshape f b) (voff f q) mod (b0 - f0 + 1) + rank (wshape f b) (voff f q) / (b0 - f0 + 1) * s0) = Ok (image (vplus p q))).
  { intros q Hq. rewrite <- HX by auto. f_equal. unfold f, b in Hq. destruct q as [|q0 q']; [inversion Hq|]. apply Between_cons_iff in Hq as (Hq0 & Hq').
    assert (Hlq := Between_length _ _ _ Hq'). unfold f, b, s. cbn [combine map fst snd]. rewrite !rank_cons.
    rewrite (Z.mul_comm (b0 - f0 + 1) (rank (wshape f' b') (voff f' q'))). rewrite Z.mod_add, Z.div_add by lia. rewrite Z.mod_small, Z.div_small by lia.
    assert (E : rank (wshape f' b') (voff f' q') = rank s' q' - rank s' f'); [|rewrite E; lia].
    rewrite <- rank_voff by lia. clear - Hq' Hflat Hl.
    destruct Hq' as [|x y z f1 b1 q1 Hz Hq']; [now destruct s'|]. cbn [skipn] in Hflat. subst b1. destruct s' as [|s1 s2]; [discriminate|].
    cbn [combine map fst snd]. rewrite !rank_cons.
    assert (G : forall l f q, Between f f q -> rank l (voff f q) = 0).
    { clear. induction l as [|a l IH]; intros g r H; [reflexivity|]. destruct g as [|x g]; [inversion H; reflexivity|].
      destruct r as [|z r]; [inversion H|]. apply Between_cons_iff in H as (H1 & H2). cbn [combine map fst snd]. rewrite rank_cons, IH by auto. lia. }
    rewrite !G by auto. lia. }
  assert (G' : forall q, In q (positions f b) -> Between f b q) by (intros q Hq; now apply In_positions in Hq).
  revert G'. generalize (positions f b). induction l as [|q l IH]; intros G'; cbn [map]; constructor.
  - apply G, G'. now left.
  - apply IH. intros r Hr. apply G'. now right.
Qed.

Lemma read_good p : skipn 1 f' = skipn 1 b' -> (forall q, InDomain s q -> zget data (rank s q) = Ok (image q)) -> InDomain s p ->
  (Inner s f b p -> p = map Z.opp f \/ exists q, InDomain s q /\ Inner s f b q /\ rank s q + 1 = rank s p) ->
  PixelsRead s f b data image p (windowPixels f b image p).
Proof.
  intros Hflat HX Hp Hg. assert (Hlb := asm_Lb). assert (Lp := InDomain_length _ _ Hp).
  destruct (in_dec (list_eq_dec Z.eq_dec) p P) as [I|I].
  - apply In_positions in I. assert (Ip : Inner s f b p) by (apply asm_inner; auto).
    assert (HG : forall q, Between f b q -> zget data (rank s p + rank s q) = Ok (image (vplus p q))).
    { intros q Hq. assert (Hpq := InDomain_shift s f b p q Hlen Hlb I Hq). rewrite <- HX by auto. f_equal. rewrite vplus_vadd, rank_vadd; auto.
      apply Between_length in Hq. lia. }
    assert (RW := read_window p ltac:(auto) HG Hflat). destruct (Hg Ip) as [->|(q & Hq & Iq & Eq)].
    + apply read_first. unfold s, f, b. cbn [nth]. fold f b. rewrite rank_ifront in RW. replace (- rank s f + rank s f) with 0 in RW by lia. exact RW.
    + apply (read_next s f b data image q p); auto.
      * split; [auto|]. assert (Lq := InDomain_length _ _ Hq). split.
        { destruct (lexLt_total q p ltac:(lia)) as [L|[L|L]]; auto; [subst; lia|]. apply (rank_lexLt s) in L; auto. lia. }
        { intros r Hr L1 L2. assert (Lr := lexLt_length _ _ L1). apply asm_inner in Hr; [|lia]. apply asm_domain in Hr.
          apply (rank_lexLt s) in L1; auto. apply (rank_lexLt s) in L2; auto. lia. }
      * unfold f at 2, b at 1, s at 2. cbn [nth]. rewrite Eq. exact RW.
  - apply read_border; auto. intros C. apply I. apply In_positions. now apply asm_inner.
Qed.
End Assembly.

Lemma typed_spec : (forall a k x, NoThrow (inner a k x)) -> (forall a k x, NoThrow (border a k x)) -> (forall x, NoThrow (store x)) -> (forall v, NoThrow (back v)) -> 
  forall n shape f b values data ext image out, n = Z.of_nat (length shape) -> Applies shape f b values data ext image -> WF out -> rshape out = shape ->
  exists r enough, (forall fuel, (enough <= fuel)%nat -> correlateToG zero inner border store back fuel n values (mkBox f b) (mkRaster shape data) ext out = Some r) /\
    ((r = UB /\ exists p, InDomain shape p /\ Gets zero inner border store back shape f b values data image p UB) \/
     exists out', r = Ok out' /\ WF out' /\ rshape out' = shape /\
       forall p, InDomain shape p -> exists v, Gets zero inner border store back shape f b values data image p (Ok v) /\ zget (rdata out') (rank shape p) = Ok v).
Proof.
  intros N1 N2 N3 N4 n shape f b values data ext image out Hn (Hne & Hs & Hdata & Hlen & Hw & Hv & (c & Lc & Hc) & Hext) Hwf Hshape.
  assert (Lb : length b = length shape) by (rewrite <- Hlen; symmetry; now apply Forall2_len in Hw).
  assert (Hin : NonEmpty (ifront f) (iback shape b)) by (apply (Between_NonEmpty _ _ c); now apply inner_iff).
  destruct shape as [|s0 s']; [congruence|]. destruct f as [|f0 f']; [discriminate|]. destruct b as [|b0 b']; [discriminate|].
  destruct (typed_exact n s0 s' f0 f' b0 b' values data ext image Hn Hs Hdata Hlen Hw Hin Hv Hext out (conj N1 (conj N2 (conj N3 N4))) Hwf Hshape) as (r & e & E & H).
  exists r, e. split; [exact E|]. destruct H as [(-> & p & Hp & G)|(out' & -> & W & S & G)].
  - left. split; [reflexivity|]. exists p. split; [auto|]. apply gets_same; auto.
  - right. exists out'. split; [reflexivity|]. split; [auto|]. split; [auto|]. intros p Hp.
    destruct (gets_total s0 s' f0 f' b0 b' values data ext image Hs Hdata Hlen Hw Hin Hv Hext p Hp) as (v & Gv).
    assert (Ev := G p v Hp Gv). assert (R := rank_bounds _ _ Hp). destruct W as (_ & _ & W). rewrite S in W.
    destruct (zget_in_range (rdata out') (rank (s0 :: s') p) ltac:(lia)) as (x & Ex). exists x. split; [|exact Ex].
    apply gets_same; auto. congruence.
Qed.

Lemma typed_unique shape f b values data ext image p : Applies shape f b values data ext image ->
  (InDomain shape p -> exists v, Gets zero inner border store back shape f b values data image p v) /\
  (forall v w, Gets zero inner border store back shape f b values data image p v -> Gets zero inner border store back shape f b values data image p w -> v = w).
Proof.
  intros (Hne & Hs & Hdata & Hlen & Hw & Hv & (c & Lc & Hc) & Hext).
  assert (Lb : length b = length shape) by (rewrite <- Hlen; symmetry; now apply Forall2_len in Hw).
  assert (Hin : NonEmpty (ifront f) (iback shape b)) by (apply (Between_NonEmpty _ _ c); now apply inner_iff).
  destruct shape as [|s0 s']; [congruence|]. destruct f as [|f0 f']; [discriminate|]. destruct b as [|b0 b']; [discriminate|].
  split.
  - intros Hp. destruct (gets_total s0 s' f0 f' b0 b' values data ext image Hs Hdata Hlen Hw Hin Hv Hext p Hp) as (v & Gv). exists v. apply gets_same; auto.
  - intros v w H1 H2. apply gets_same in H1; auto. apply gets_same in H2; auto. exact (gets_unique s0 s' f0 f' b0 b' values data ext image Hs Hdata Hlen Hw Hin Hv Hext p v w H1 H2).
Qed.

Lemma typed_window shape f b (values : list V) (data : list X) ext image p : Applies shape f b values data ext image -> skipn 2 f = skipn 2 b ->
  (forall q, InDomain shape q -> zget data (rank shape q) = Ok (image q)) -> InDomain shape p ->
  (Inner shape f b p -> p = map Z.opp f \/ exists q, InDomain shape q /\ Inner shape f b q /\ rank shape q + 1 = rank shape p) ->
  PixelsRead shape f b data image p (windowPixels f b image p).
Proof.
  intros (Hne & Hs & Hdata & Hlen & Hw & Hv & (c & Lc & Hc) & Hext) Hflat HX Hp Hg.
  assert (Lb : length b = length shape) by (rewrite <- Hlen; symmetry; now apply Forall2_len in Hw).
  assert (Hin : NonEmpty (ifront f) (iback shape b)) by (apply (Between_NonEmpty _ _ c); now apply inner_iff).
  destruct shape as [|s0 s']; [congruence|]. destruct f as [|f0 f']; [discriminate|]. destruct b as [|b0 b']; [discriminate|].
  apply (read_good s0 s' f0 f' b0 b' values data ext image); auto.
Qed.

Lemma typed_first shape f b (values : list V) (data : list X) ext image : Applies shape f b values data ext image -> Inner shape f b (map Z.opp f).
Proof.
  intros (Hne & Hs & Hdata & Hlen & Hw & Hv & (c & Lc & Hc) & Hext).
  assert (Lb : length b = length shape) by (rewrite <- Hlen; symmetry; now apply Forall2_len in Hw).
  assert (Hin : NonEmpty (ifront f) (iback shape b)) by (apply (Between_NonEmpty _ _ c); now apply inner_iff).
  apply inner_iff; auto; [rewrite map_length; exact Hlen|]. now apply NonEmpty_front.
Qed.

Lemma typed_gets shape f b (values : list V) (data : list X) ext image p xs : Applies shape f b values data ext image -> PixelsRead shape f b data image p xs ->
  Gets zero inner border store back shape f b values data image p (innerR values xs) \/ Gets zero inner border store back shape f b values data image p (borderR values xs).
Proof.
  intros HA HR. assert (H1 := typed_first _ _ _ _ _ _ _ HA). assert (HR' := HR). destruct HR as [p Hp Hn'|xs Hx|q p xs Hp Hq Hi Hpq Hx].
  - right. exists (windowPixels f b image p). auto.
  - left. exists xs. auto.
  - left. exists xs. auto.
Qed.

Lemma typed_uniform : (forall a k x, NoThrow (inner a k x)) -> (forall a k x, NoThrow (border a k x)) -> (forall x, NoThrow (store x)) -> (forall v, NoThrow (back v)) -> 
  forall outcome n shape f b values data ext image out, (forall xs, innerR values xs = outcome xs) -> (forall xs, borderR values xs = outcome xs) ->
  n = Z.of_nat (length shape) -> Applies shape f b values data ext image -> WF out -> rshape out = shape ->
  exists r enough, (forall fuel, (enough <= fuel)%nat -> correlateToG zero inner border store back fuel n values (mkBox f b) (mkRaster shape data) ext out = Some r) /\
    ((r = UB /\ exists p xs, InDomain shape p /\ PixelsRead shape f b data image p xs /\ outcome xs = UB) \/
     exists out', r = Ok out' /\ WF out' /\ rshape out' = shape /\
       forall p xs, InDomain shape p -> PixelsRead shape f b data image p xs -> exists v, outcome xs = Ok v /\ zget (rdata out') (rank shape p) = Ok v).
Proof.
  intros N1 N2 N3 N4 outcome n shape f b values data ext image out E1 E2 Hn HA Hwf Hshape. destruct (typed_spec N1 N2 N3 N4 n shape f b values data ext image out Hn HA Hwf Hshape) as (r & e & E & H).
  exists r, e. split; [exact E|]. destruct H as [(-> & p & Hp & xs & HR & G)|(out' & -> & W & S & G)].
  - left. split; [reflexivity|]. exists p, xs. split; [auto|]. split; [auto|]. destruct G as [(_ & G)|(_ & G)]; [rewrite <- E1|rewrite <- E2]; now symmetry.
  - right. exists out'. split; [reflexivity|]. split; [auto|]. split; [auto|]. intros p xs Hp HR. destruct (G p Hp) as (v & Gv & Ev). exists v. split; [|auto].
    destruct (typed_unique shape f b values data ext image p HA) as (_ & U).
    destruct (typed_gets _ _ _ _ _ _ _ _ _ HA HR) as [G'|G']; [rewrite E1 in G'|rewrite E2 in G']; exact (U _ _ G' Gv).
Qed.

End Typed.

Lemma read_elements {X V} shape f b (values : list V) (data : list X) ext image p xs : Applies shape f b values data ext image -> PixelsRead shape f b data image p xs ->
  length xs = length values /\ Forall (fun x => In x data \/ exists q, length q = length shape /\ x = image q) xs.
Proof.
  intros (Hne & Hs & Hdata & Hlen & Hw & Hv & _ & Hext) HR. destruct (Forall2_split f b Hw) as (Hfb & _).
  assert (G : forall st w d, ReadByRows data st w d (windowSize f b) xs -> length xs = length values /\ Forall (fun x => In x data \/ exists q, length q = length shape /\ x = image q) xs).
  { intros st w d H. unfold ReadByRows in H. split.
    - apply Forall2_len in H. assert (Z1 := zrange_length 0 (windowSize f b - 1)). lia.
    - clear - H. revert H. generalize (zrange 0 (windowSize f b - 1)). intros L. induction 1 as [|t x L xs H _ IH]; constructor; auto. left.
      unfold zget in H. destruct (_ <? 0); [discriminate|]. destruct (nth_error data _) eqn:E; [|discriminate]. injection H as ->. now apply nth_error_In in E. }
  destruct HR as [p Hp Hn'|xs Hx|q p xs Hp Hq Hi Hpq Hx]; [|eapply G; eauto|eapply G; eauto].
  unfold windowPixels. rewrite map_length. assert (Hpos := positions_count f b Hfb). split; [change (prod (wshape f b)) with (windowSize f b) in Hpos; lia|].
  apply Forall_forall. intros x Hx. apply in_map_iff in Hx as (q & <- & Hq). right. eexists. split; [|reflexivity]. rewrite map_length, combine_length.
  apply In_positions, Between_length in Hq. apply InDomain_length in Hp. lia.
Qed.

Lemma read_window_free {X V} shape f b (values : list V) (data : list X) ext image p : Applies shape f b values data ext image -> skipn 2 f = skipn 2 b ->
  (forall q, InDomain shape q -> zget data (rank shape q) = Ok (image q)) -> InDomain shape p ->
  (Inner shape f b p -> p = map Z.opp f \/ exists q, InDomain shape q /\ Inner shape f b q /\ rank shape q + 1 = rank shape p) ->
  PixelsRead shape f b data image p (windowPixels f b image p).
Proof.
  intros HA. apply (typed_window tt (fun _ _ (_ : X) => Ok tt) (fun _ _ _ => Ok tt) (fun _ => Ok tt) (fun _ => UB) shape f b (map (fun _ => tt) values) data ext image p).
  destruct HA as (H1 & H2 & H3 & H4 & H5 & H6 & H7 & H8). rewrite <- (map_length (fun _ : V => tt)) in H6. split; [exact H1|]. tauto.
Qed.
