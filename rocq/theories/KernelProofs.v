From Coq Require Import Sorted.
From Verif Require Import Res VecModel BoxModel RasterModel SamplingModel LineKernelModel SeparableModel KernelModel
  Spec BoxSpec RasterSpec KernelSpec SeparableSpec Lemmas IndexProofs BoxIterProofs BoxGeomProofs AccessProofs ContainerProofs SamplingProofs
  LineKernelProofs SeparableProofs ComposeProofs.

Notation wshape f b := (map (fun xy : Z * Z => snd xy - fst xy + 1) (combine f b)).
Notation voff f q := (map (fun xy : Z * Z => snd xy - fst xy) (combine f q)).

(** Ranks of the positions of a window *)
Lemma blocks w P : 0 <= w -> 0 <= P -> flat_map (fun r => map (fun z => z + w * r) (zrange 0 (w - 1))) (zrange 0 (P - 1)) = zrange 0 (w * P - 1).
Proof.
  intros Hw HP. pattern P. apply natlike_ind; auto; clear P HP.
  - rewrite (zrange_empty 0 (0 - 1)), (zrange_empty 0 (w * 0 - 1)) by lia. reflexivity.
  - intros P HP IH. destruct (Z.eq_dec P 0) as [->|N].
    + cbn [Z.succ]. replace (Z.succ 0 - 1) with 0 by lia. assert (E : zrange 0 0 = [0]) by reflexivity. rewrite E. cbn [flat_map].
      rewrite app_nil_r. replace (w * Z.succ 0 - 1) with (w - 1) by lia. rewrite <- (map_id (zrange 0 (w - 1))) at 2. apply map_ext. intros. lia.
    + replace (Z.succ P - 1) with P by lia. rewrite (zrange_snoc 0 P), flat_map_app, IH by lia. cbn [flat_map]. rewrite app_nil_r.
      rewrite <- zrange_shift. destruct (Z.eq_dec w 0) as [->|Nw].
      * rewrite !(zrange_empty _ _) by lia. reflexivity.
      * rewrite (zrange_app 0 (w * P - 1) (w * Z.succ P - 1)) by nia. f_equal. f_equal; lia.
Qed.

Lemma wshape_positive f b : NonEmpty f b -> Positive (wshape f b).
Proof. induction 1 as [|x y f b Hxy H IH]; cbn; constructor; auto. cbn. lia. Qed.

Lemma positions_rank f b : NonEmpty f b -> map (fun q => rank (wshape f b) (voff f q)) (positions f b) = zrange 0 (prod (wshape f b) - 1).
Proof.
  induction 1 as [|x y f b Hxy H IH]; [reflexivity|]. cbn [positions combine map fst snd]. rewrite prod_cons.
  assert (HP := prod_pos _ (wshape_positive f b H)). rewrite <- (blocks (y - x + 1) (prod (wshape f b))) by lia. rewrite <- IH.
  clear. induction (positions f b) as [|q L IH]; auto. cbn [map flat_map]. rewrite map_app, IH. f_equal. rewrite map_map.
  assert (E : zrange x y = map (fun z => z + x) (zrange 0 (y - x + 1 - 1))) by (rewrite <- zrange_shift; f_equal; lia). rewrite E, map_map.
  apply map_ext. intros z. cbn [combine map fst snd]. rewrite rank_cons. lia.
Qed.

Lemma positions_count f b : NonEmpty f b -> Z.of_nat (length (positions f b)) = prod (wshape f b).
Proof.
  intros H. assert (E := f_equal (@length Z) (positions_rank f b H)). rewrite map_length in E. rewrite E, zrange_length.
  assert (HP := prod_pos _ (wshape_positive f b H)). lia.
Qed.

Lemma padded_cons x l j : 0 < j -> padded (x :: l) j = padded l (j - 1).
Proof.
  intros H. unfold padded, zget. replace (j <? 0) with false by lia. replace (j - 1 <? 0) with false by lia.
  replace (Z.to_nat j) with (S (Z.to_nat (j - 1))) by lia. reflexivity.
Qed.

(** A sum over positions as a sum over addresses *)
Lemma total_by_rank {A} (F : Z -> Z) (g : A -> Z) (rk : A -> Z) L : forall a, map rk L = zrange a (a + Z.of_nat (length L) - 1) ->
  total (map (fun q => F (rk q) * g q) L) = total (map (fun j => F j * padded (map g L) (j - a)) (zrange a (a + Z.of_nat (length L) - 1))).
Proof.
  induction L as [|q L IH]; intros a H.
  - cbn [length]. rewrite zrange_empty by lia. reflexivity.
  - cbn [length] in *. rewrite Nat2Z.inj_succ in *. rewrite (zrange_cons a) in * by lia. cbn [map] in *. injection H as H1 H2.
    change (total (?x :: ?y)) with (x + total y). rewrite H1. rewrite Z.sub_diag.
    replace (padded (g q :: map g L) 0) with (g q) by reflexivity.
    change (total (F a * g q :: ?y)) with (F a * g q + total y). f_equal.
    replace (a + Z.succ (Z.of_nat (length L)) - 1) with (a + 1 + Z.of_nat (length L) - 1) in * by lia.
    rewrite (IH (a + 1) H2). apply total_ext. intros j Hj. apply In_zrange in Hj. rewrite padded_cons by lia. do 2 f_equal. lia.
Qed.

Lemma vplus_vadd p q : vplus p q = vadd p q.
Proof. revert q. induction p as [|x p IH]; intros [|y q]; cbn; auto. f_equal. apply IH. Qed.

Lemma vadd_comm p q : vadd p q = vadd q p.
Proof. revert q. induction p as [|x p IH]; intros [|y q]; cbn; auto. f_equal; [lia|apply IH]. Qed.

Lemma positions_shift f b p : length f = length p -> length b = length p -> positions (vadd f p) (vadd b p) = map (fun q => vadd q p) (positions f b).
Proof.
  revert b p. induction f as [|x f IH]; intros [|y b] [|z p] H1 H2; cbn in H1, H2; try lia; auto.
  cbn [vadd map2 positions]. change (map2 Z.add) with vadd. rewrite IH by lia. rewrite zrange_shift.
  clear. induction (positions f b) as [|q L IH]; auto. cbn [map flat_map]. rewrite map_app, IH. f_equal. rewrite !map_map. apply map_ext. reflexivity.
Qed.

Lemma NonEmpty_shift f b p : length f = length p -> NonEmpty f b -> NonEmpty (vadd f p) (vadd b p).
Proof.
  intros Hl H. revert p Hl. induction H as [|x y f b Hxy H IH]; intros [|z p] Hl; cbn in Hl; try lia; cbn [vadd map2]; constructor; [lia|].
  apply IH. lia.
Qed.

Lemma Forall2_map_in {A B} (R : A -> B -> Prop) (g : A -> B) l : (forall a, In a l -> R a (g a)) -> Forall2 R l (map g l).
Proof. induction l as [|a l IH]; intros H; cbn; constructor; [apply H; now left|apply IH; intros; apply H; now right]. Qed.

Section Ext.
Variables (n : Z) (values f b : list Z) (ext : list Z -> res Z) (X : list Z -> Z).
Let k := mkNkernel values (mkBox f b).
Hypothesis Hne : f <> [].
Hypothesis Hfb : NonEmpty f b.
Hypothesis Hv : Z.of_nat (length values) = prod (wshape f b).
Hypothesis Hext : forall q, length q = length f -> ext q = Ok (X q).

Lemma ext_pixel p out buffer fuel : WF out -> InDomain (rshape out) p -> length p = length f -> length buffer = length values ->
  (length values < fuel)%nat ->
  exists out' buffer', extPixel fuel n k ext p out buffer = Some (Ok (out', buffer')) /\ length buffer' = length values /\
    rset n out p (windowCorrelation (windowValue f b values) f b X p) = Ok out'.
Proof.
  intros Hwf Hp Hl Hb Hf. assert (Hlen := Forall2_len _ _ _ Hfb). unfold extPixel, boxShift, k. cbn [kwindow kvalues bfront bback].
  assert (Hpos := positions_count f b Hfb).
  assert (Elen : length (positions f b) = length values) by lia.
  rewrite boxForeach_positions.
  - rewrite positions_shift by lia. cbn [obind lift].
    assert (EM : mapRes ext (map (fun q => vadd q p) (positions f b)) = Ok (map X (map (fun q => vadd q p) (positions f b)))).
    { apply mapRes_Forall2, Forall2_map_in. intros q Hq. apply Hext. apply in_map_iff in Hq as (w & <- & Hw). apply In_positions, Between_length in Hw.
      unfold vadd. rewrite map2_length; lia. }
    rewrite EM. cbn [obind]. rewrite !map_length, Hb, Elen. replace (Nat.ltb (length values) (length values)) with false by (symmetry; apply Nat.ltb_irrefl).
    rewrite <- Hb, skipn_all, app_nil_r. rewrite Hb. unfold innerProduct. replace (_ <? _) with false by lia.
    rewrite map_map.
    rewrite (innerLoop_spec _ _ _ _ _ _ _ (fun j => padded (map (fun q => X (vadd q p)) (positions f b)) j)); [|lia|lia|].
    + cbn [obind]. destruct (rset_domain n out p (windowCorrelation (windowValue f b values) f b X p) Hwf Hp) as (out' & E & _).
      match goal with |- context [rset n out p ?v] => assert (EV : v = windowCorrelation (windowValue f b values) f b X p) end.
      { unfold windowCorrelation, windowValue. rewrite (total_by_rank (padded values) (fun q => X (vplus p q)) (fun q => rank (wshape f b) (voff f q)) _ 0).
        - rewrite Z.add_0_l. rewrite Hpos, Hv. replace (0 + Z.of_nat (Z.to_nat (prod (wshape f b) - 0)) - 1) with (prod (wshape f b) - 1) by lia.
          rewrite Z.add_0_l. apply total_ext. intros j _. rewrite Z.sub_0_r. do 2 f_equal. apply map_ext. intros q. rewrite vplus_vadd. now rewrite vadd_comm.
        - rewrite positions_rank by auto. f_equal. lia. }
      rewrite EV, E. cbn [obind]. eexists _, _. split; [reflexivity|]. split; [now rewrite map_length|reflexivity].
    + intros j Hj. replace (0 + j * 1) with (0 + j) by lia. apply padded_in. rewrite map_length. lia.
  - destruct f, p; cbn in *; try congruence; try lia.
  - apply NonEmpty_shift; auto.
  - rewrite positions_shift, map_length by lia. lia.
Qed.

Lemma ext_loop ps : forall out buffer fuel, WF out -> Forall (InDomain (rshape out)) ps -> length (rshape out) = length f ->
  length buffer = length values -> (length values < fuel)%nat ->
  exists out', extLoop fuel n k ext ps out buffer = Some (Ok out') /\ WF out' /\ rshape out' = rshape out /\
    (forall p, In p ps -> pixel (rshape out) (rdata out') p = windowCorrelation (windowValue f b values) f b X p) /\
    (forall p, ~ In p ps -> pixel (rshape out) (rdata out') p = pixel (rshape out) (rdata out) p).
Proof.
  induction ps as [|p ps IH]; intros out buffer fuel Hwf Hd Hl Hb Hf; cbn [extLoop].
  - exists out. split; [auto|]. split; [auto|]. split; [auto|]. split; [intros p []|auto].
  - inversion Hd as [|? ? Hp Hps]; subst. assert (Lp := InDomain_length _ _ Hp).
    destruct (ext_pixel p out buffer fuel Hwf Hp ltac:(lia) Hb Hf) as (out1 & buffer1 & -> & B1 & E1). cbn [obind].
    assert (W := Hwf). destruct W as (W1 & W2 & W3).
    unfold rset in E1. rewrite rindex_rank in E1 by (auto; lia). cbn [bind] in E1.
    destruct (zset (rdata out) (rank (rshape out) p) (windowCorrelation (windowValue f b values) f b X p)) as [d1| |] eqn:Ez; try discriminate. cbn [bind] in E1. injection E1 as <-.
    assert (Wf1 : WF (mkRaster (rshape out) d1)).
    { split; [auto|]. split; [auto|]. cbn [rshape rdata]. rewrite <- W3. f_equal. eapply zset_length, Ez. }
    destruct (IH (mkRaster (rshape out) d1) buffer1 fuel Wf1 Hps Hl B1 Hf) as (out' & E & W' & S' & P1 & P2). cbn [rshape rdata] in *.
    exists out'. split; [exact E|]. split; [exact W'|]. split; [exact S'|].
    assert (Eq : forall q, pixel (rshape out) d1 q = if list_eq_dec Z.eq_dec q p then windowCorrelation (windowValue f b values) f b X p else pixel (rshape out) (rdata out) q).
    { intros q. destruct (list_eq_dec Z.eq_dec q p) as [->|N]; unfold pixel.
      - rewrite (proj2 (inside_spec _ _) Hp). apply padded_ok. eapply zset_get_eq, Ez.
      - destruct (inside (rshape out) q) eqn:Ei; auto. apply inside_spec in Ei. unfold padded. rewrite (zset_get_neq _ _ _ _ _ Ez); auto.
        intros C. apply N. eapply rank_inj; eauto. }
    split.
    + intros q [->|Hq]; [|auto]. destruct (in_dec (list_eq_dec Z.eq_dec) q ps) as [I|I]; [auto|].
      rewrite P2, Eq by auto. destruct (list_eq_dec Z.eq_dec q q); congruence.
    + intros q Hq. rewrite P2, Eq by (intros I; apply Hq; now right). destruct (list_eq_dec Z.eq_dec q p) as [->|N]; auto. exfalso. apply Hq. now left.
Qed.

Lemma ext_box bx : forall out, Nonempty bx -> (forall p, InBox bx p -> InDomain (rshape out) p) -> WF out -> length (rshape out) = length f ->
  exists out' enough, (forall fuel, (enough <= fuel)%nat -> correlateExt fuel n k ext bx out = Some (Ok out')) /\ WF out' /\ rshape out' = rshape out /\
    (forall p, InBox bx p -> pixel (rshape out) (rdata out') p = windowCorrelation (windowValue f b values) f b X p) /\
    (forall p, ~ InBox bx p -> pixel (rshape out) (rdata out') p = pixel (rshape out) (rdata out) p).
Proof.
  intros out Hn Hd Hwf Hl. destruct bx as [xf xb]. apply Nonempty_iff in Hn. cbn [bfront bback] in Hn.
  assert (Hxf : xf <> []).
  { assert (H := Hd xf ltac:(now apply NonEmpty_front)). apply InDomain_length in H. intros ->. cbn in H. destruct f; [congruence|]. cbn in Hl. lia. }
  destruct (ext_loop (positions xf xb) out (repeat 0 (length values)) (S (length values)) Hwf) as (out' & E & W & S' & P1 & P2); auto.
  - apply Forall_forall. intros p Hp. apply Hd. now apply In_positions.
  - now rewrite repeat_length.
  - exists out', (S (Nat.max (length values) (length (positions xf xb)))). split; [|split; [auto|split; [auto|split]]].
    + intros fuel Hf. unfold correlateExt. 
      assert (Hs : boxSize (mkBox xf xb) <> 0).
      { rewrite (boxSize_count xf xb) by auto. destruct (positions_hd _ _ Hn) as [L ->]. cbn. lia. }
      replace (boxSize _ =? 0) with false by lia. rewrite boxForeach_positions by (auto; lia). cbn [obind kvalues k].
      destruct (ext_loop (positions xf xb) out (repeat 0 (length values)) fuel Hwf) as (out'' & E' & W' & S'' & P1' & P2'); auto.
      * apply Forall_forall. intros p Hp. apply Hd. now apply In_positions.
      * now rewrite repeat_length.
      * lia.
      * rewrite E'. do 2 f_equal. destruct out' as [s' d'], out'' as [s'' d'']. cbn [rshape rdata] in *. subst. f_equal.
        destruct Hwf as (W1 & W2 & W3). destruct (Z.eq_dec (prod (rshape out)) 0) as [Z0|Z0].
        -- exfalso. assert (H := Hd xf ltac:(now apply NonEmpty_front)). apply rank_bounds in H. lia.
        -- apply (image_unique (rshape out)); [now apply nonneg_positive|now apply W'|now apply W|].
           intros p. destruct (in_dec (list_eq_dec Z.eq_dec) p (positions xf xb)) as [I|I]; [now rewrite P1, P1'|now rewrite P2, P2'].
    + intros p Hp. apply P1. now apply In_positions.
    + intros p Hp. apply P2. now rewrite In_positions.
Qed.

Lemma ext_boxes bs : forall out, Forall Nonempty bs -> (forall bx p, In bx bs -> InBox bx p -> InDomain (rshape out) p) -> WF out -> length (rshape out) = length f ->
  exists out' enough, (forall fuel, (enough <= fuel)%nat -> correlateExts fuel n k ext bs out = Some (Ok out')) /\ WF out' /\ rshape out' = rshape out /\
    (forall p, (exists bx, In bx bs /\ InBox bx p) -> pixel (rshape out) (rdata out') p = windowCorrelation (windowValue f b values) f b X p) /\
    (forall p, ~ (exists bx, In bx bs /\ InBox bx p) -> pixel (rshape out) (rdata out') p = pixel (rshape out) (rdata out) p).
Proof.
  induction bs as [|bx bs IH]; intros out Hn Hd Hwf Hl.
  - exists out, O. split; [reflexivity|]. split; [auto|]. split; [auto|]. split; [intros p (bx & [] & _)|auto].
  - inversion Hn as [|? ? N1 N2]; subst.
    destruct (ext_box bx out N1 ltac:(intros p; apply Hd; now left) Hwf Hl) as (o1 & e1 & E1 & W1 & S1 & P1 & Q1).
    destruct (IH o1 N2 ltac:(intros bx' p Hi; rewrite S1; apply Hd; now right) W1 ltac:(now rewrite S1)) as (o2 & e2 & E2 & W2 & S2 & P2 & Q2).
    rewrite S1 in *. exists o2, (Nat.max e1 e2). split; [|split; [auto|split; [auto|split]]].
    + intros fuel Hf. cbn [correlateExts]. rewrite E1 by lia. cbn [obind]. apply E2. lia.
    + intros p (c & [->|Hc] & Hp); [|apply P2; eauto].
      assert (D : (exists bx, In bx bs /\ InBox bx p) \/ ~ (exists bx, In bx bs /\ InBox bx p)).
      { clear. induction bs as [|bx bs IH]; [right; intros (? & [] & _)|].
        destruct (in_dec (list_eq_dec Z.eq_dec) p (positions (bfront bx) (bback bx))) as [I|I]; rewrite In_positions in I.
        - left. exists bx. split; [now left|exact I].
        - destruct IH as [(c & Hc & Hp)|IH]; [left; exists c; split; [now right|auto]|right]. intros (c & [->|Hc] & Hp); [now apply I|eauto]. }
      destruct D as [D|D]; [now apply P2|]. rewrite Q2 by auto. now apply P1.
    + intros p Hp. rewrite Q2, Q1; auto.
      * intros I. apply Hp. exists bx. split; [now left|auto].
      * intros (c & Hc & I). apply Hp. exists c. split; [now right|auto].
Qed.
End Ext.

(** The inner region *)
Lemma total_map_comp {A B} (g : B -> Z) (h : A -> B) l : total (map (fun a => g (h a)) l) = total (map g (map h l)).
Proof. now rewrite map_map. Qed.

Lemma rowSum_spec values mem kW inW : 0 < kW -> 0 <= inW -> forall rows kIt inIt acc, 0 <= kIt -> kIt + Z.of_nat rows * kW <= Z.of_nat (length values) ->
  0 <= inIt -> (rows = O \/ inIt + (Z.of_nat rows - 1) * inW + kW <= Z.of_nat (length mem)) ->
  rowSum rows values mem kIt inIt kW inW acc =
  Ok (acc + total (map (fun t => padded values (kIt + t) * padded mem (inIt + t mod kW + t / kW * inW)) (zrange 0 (Z.of_nat rows * kW - 1)))).
Proof.
  intros HkW HinW. induction rows as [|rows IH]; intros kIt inIt acc Hk Hv Hi Hm.
  - cbn [rowSum]. rewrite zrange_empty by lia. cbn. f_equal. lia.
  - cbn [rowSum]. destruct Hm as [Hm|Hm]; [discriminate|]. rewrite Nat2Z.inj_succ in *.
    assert (0 <= Z.of_nat rows * inW) by (apply Z.mul_nonneg_nonneg; lia). assert (0 <= Z.of_nat rows * kW) by (apply Z.mul_nonneg_nonneg; lia).
    rewrite (innerLoop_spec _ _ _ _ _ _ _ (fun j => padded mem (inIt + (j - kIt)))); [|lia|lia|].
    + cbn [bind]. rewrite IH; [|lia|lia|lia|destruct rows; [now left|right; lia]].
      f_equal. rewrite <- Z.add_assoc. f_equal. replace (Z.succ (Z.of_nat rows) * kW - 1) with (kW + Z.of_nat rows * kW - 1) by lia.
      rewrite (zrange_app 0 (kW - 1) (kW + Z.of_nat rows * kW - 1)) by lia. rewrite map_app, total_app. f_equal.
      * replace (zrange kIt (kIt + Z.of_nat (Z.to_nat kW) - 1)) with (map (fun z => z + kIt) (zrange 0 (kW - 1)))
          by (rewrite <- zrange_shift; f_equal; lia). rewrite map_map. apply total_ext. intros t Ht. apply In_zrange in Ht.
        rewrite Z.mod_small, Z.div_small by lia. f_equal; f_equal; lia.
      * replace (zrange (kW - 1 + 1) (kW + Z.of_nat rows * kW - 1)) with (map (fun z => z + kW) (zrange 0 (Z.of_nat rows * kW - 1)))
          by (rewrite <- zrange_shift; f_equal; lia). rewrite map_map. apply total_ext. intros t Ht.
        replace (t + kW) with (t + 1 * kW) by lia. rewrite Z.mod_add, Z.div_add by lia. f_equal; f_equal; lia.
    + intros j Hj. replace (kIt + j - kIt) with j by lia. replace (inIt + j * 1) with (inIt + j) by lia. apply padded_in. lia.
Qed.

Section Flat.
Variables (values mem : list Z) (rows : nat) (kW inW distance : Z).
Hypothesis HkW : 0 < kW.
Hypothesis HinW : 0 <= inW.
Hypothesis Hrows : (0 < rows)%nat.
Hypothesis Hvalues : Z.of_nat (length values) = Z.of_nat rows * kW.

Fixpoint flatLoop (L : list Z) (inIt : Z) (out : list Z) : res (Z * list Z) :=
  match L with
  | [] => Ok (inIt, out)
  | a :: L' =>
      sum <- rowSum rows values mem 0 inIt kW inW 0 ;;
      out' <- zset out a sum ;;
      flatLoop L' (a + 1 - distance) out'
  end.

Lemma rowLoop_flat pixels : forall outIt inIt out,
  rowLoop pixels values mem rows kW inW distance outIt inIt out = flatLoop (map (fun k => outIt + k) (zrange 0 (Z.of_nat pixels - 1))) inIt out.
Proof.
  clear HkW HinW Hrows Hvalues. induction pixels as [|pixels IH]; intros outIt inIt out.
  - cbn [rowLoop]. rewrite zrange_empty by lia. reflexivity.
  - cbn [rowLoop]. rewrite (zrange_cons 0) by lia. cbn [map flatLoop]. rewrite Z.add_0_r.
    destruct (rowSum rows values mem 0 inIt kW inW 0); cbn [bind]; auto. destruct (zset out outIt a); cbn [bind]; auto.
    rewrite IH. f_equal. replace (zrange (0 + 1) (Z.of_nat (S pixels) - 1)) with (map (fun z => z + 1) (zrange 0 (Z.of_nat pixels - 1)))
      by (rewrite <- zrange_shift; f_equal; lia). rewrite map_map. apply map_ext. intros. lia.
Qed.

Lemma flatLoop_app L M : forall inIt out, flatLoop (L ++ M) inIt out = (st <- flatLoop L inIt out ;; flatLoop M (fst st) (snd st)).
Proof.
  induction L as [|a L IH]; intros inIt out; cbn [app flatLoop]; auto.
  destruct (rowSum rows values mem 0 inIt kW inW 0); cbn [bind]; auto. destruct (zset out a a0); cbn [bind]; auto.
Qed.

Lemma rowsLoop_flat n shape x y ps : shape <> [] -> Forall (fun p => length p = length shape /\ nth 0 p 0 = x) ps -> forall inIt out,
  rowsLoop n shape ps (Z.to_nat (y - x + 1)) values mem rows kW inW distance inIt out =
  (st <- flatLoop (map (rank shape) (flat_map (fun p => map (fun z => replace p 0 z) (zrange x y)) ps)) inIt out ;; Ok (snd st)).
Proof.
  clear HkW HinW Hrows Hvalues. intros Hs. induction 1 as [|p ps (Hl & Hx) Hps IH]; intros inIt out; cbn [rowsLoop flat_map map flatLoop bind]; auto.
  rewrite rindex_rank by auto. cbn [bind]. rewrite rowLoop_flat, map_app, flatLoop_app.
  assert (E : map (fun k => rank shape p + k) (zrange 0 (Z.of_nat (Z.to_nat (y - x + 1)) - 1)) = map (rank shape) (map (fun z => replace p 0 z) (zrange x y))).
  { rewrite map_map. destruct (Z_lt_le_dec y x) as [Q|Q]; [now rewrite !zrange_empty by lia|].
    replace (zrange x y) with (map (fun z => z + x) (zrange 0 (Z.of_nat (Z.to_nat (y - x + 1)) - 1))) by (rewrite <- zrange_shift; f_equal; lia).
    rewrite map_map. apply map_ext. intros k. destruct p as [|a p], shape as [|s shape]; cbn in Hl; try congruence; try lia.
    cbn [nth] in Hx. subst. cbn [replace]. rewrite !rank_cons. lia. }
  rewrite E. destruct (flatLoop (map (rank shape) (map (fun z => replace p 0 z) (zrange x y))) inIt out) as [[i o]| |]; cbn [bind fst snd]; auto.
Qed.

Definition safe (start : Z) : Prop := 0 <= start /\ start + (Z.of_nat rows - 1) * inW + kW <= Z.of_nat (length mem).

Lemma flatLoop_spec L : forall inIt out, NoDup L -> Forall (fun a => 0 <= a < Z.of_nat (length out)) L -> (L <> [] -> safe inIt) ->
  (forall A a c B, L = A ++ a :: c :: B -> safe (a + 1 - distance)) ->
  exists last out', flatLoop L inIt out = Ok (last, out') /\ length out' = length out /\
    (forall a B, L = a :: B -> zget out' a = Ok (linearSum values mem inIt kW inW)) /\
    (forall A a c B, L = A ++ a :: c :: B -> zget out' c = Ok (linearSum values mem (a + 1 - distance) kW inW)) /\
    (forall z, ~ In z L -> zget out' z = zget out z).
Proof.
  induction L as [|a L IH]; intros inIt out Hnd Hb H0 Hs; cbn [flatLoop].
  - exists inIt, out. split; [auto|]. split; [auto|]. split; [discriminate|]. split; [|auto]. intros [|? ?] ? ? ?; discriminate.
  - destruct (H0 ltac:(discriminate)) as (S1 & S2). rewrite rowSum_spec by (auto; lia). cbn [bind].
    inversion Hnd as [|? ? N1 N2]; subst. inversion Hb as [|? ? B1 B2]; subst.
    match goal with |- context [zset out a ?v] => assert (EV : v = linearSum values mem inIt kW inW) end.
    { unfold linearSum. rewrite Hvalues. apply total_ext. intros. now rewrite Z.add_0_l. }
    rewrite EV. rewrite zset_ok by auto. cbn [bind].
    assert (EZ : zset out a (linearSum values mem inIt kW inW) = Ok (replace out (Z.to_nat a) (linearSum values mem inIt kW inW))) by (now apply zset_ok).
    set (out1 := replace out (Z.to_nat a) (linearSum values mem inIt kW inW)) in *.
    assert (L1 : length out1 = length out) by apply replace_length.
    destruct (IH (a + 1 - distance) out1) as (last & out' & E & El & P1 & P2 & P3); auto.
    + now rewrite L1.
    + intros HL. destruct L as [|c L]; [congruence|]. apply (Hs [] a c L). reflexivity.
    + intros A a' c B ->. apply (Hs (a :: A) a' c B). reflexivity.
    + exists last, out'. split; [exact E|]. split; [congruence|]. split; [|split].
      * intros a' B Ea. injection Ea as -> ->. rewrite P3 by auto. eapply zset_get_eq, EZ.
      * intros [|a' A] b c B Ea; cbn [app] in Ea.
        -- injection Ea as -> ->. eapply P1. reflexivity.
        -- injection Ea as -> ->. eapply P2. reflexivity.
      * intros z Hz. rewrite P3 by (intros I; apply Hz; now right). eapply zset_get_neq; [exact EZ|]. intros ->. apply Hz. now left.
Qed.
End Flat.

Lemma rank_mono s p q : Positive s -> Forall2 Z.le p q -> rank s p <= rank s q.
Proof.
  intros Hs H. revert s Hs. induction H as [|x y p q Hxy H IH]; intros s Hs; [lia|].
  destruct s as [|s0 s]; [unfold rank; cbn; lia|]. inversion Hs as [|? ? H0 Hs']; subst. rewrite !rank_cons. assert (I := IH s Hs'). nia.
Qed.

Lemma rank_voff s f q : length s = length f -> length f = length q -> rank s (voff f q) = rank s q - rank s f.
Proof.
  revert f q. induction s as [|s0 s IH]; intros [|x f] [|y q] H1 H2; cbn in H1, H2; try lia; [reflexivity|].
  cbn [combine map fst snd]. rewrite !rank_cons, IH by lia. lia.
Qed.

Lemma rank_plus s p q : length s = length p -> length p = length q -> rank s (vadd p q) = rank s p + rank s q.
Proof.
  revert p q. induction s as [|s0 s IH]; intros [|x p] [|y q] H1 H2; cbn in H1, H2; try lia; [reflexivity|].
  cbn [vadd map2]. change (map2 Z.add) with vadd. rewrite !rank_cons, IH by lia. lia.
Qed.

Lemma window_last s f b : Positive s -> NonEmpty f b -> Forall2 (fun w l => w <= l) (wshape f b) s -> prod (wshape f b) - 1 <= rank s (voff f b).
Proof.
  intros Hs H. revert s Hs. induction H as [|x y f b Hxy H IH]; intros s Hs Hw; [inversion Hw; cbn; lia|].
  cbn [combine map fst snd] in *. inversion Hw as [|? l ? s' Hl Hw']; subst. inversion Hs as [|? ? H0 Hs']; subst. rewrite prod_cons, rank_cons.
  cbn beta in Hl. assert (I := IH s' Hs' Hw'). assert (P := prod_pos _ (wshape_positive f b H)).
  assert (J : (y - x + 1) * (prod (wshape f b) - 1) <= l * rank s' (voff f b)) by (apply Z.mul_le_mono_nonneg; lia). lia.
Qed.

Lemma positions_flat x y f b : flat_map (fun p => map (fun z => replace p 0 z) (zrange x y)) (positions (x :: f) (x :: b)) = positions (x :: f) (y :: b).
Proof.
  cbn [positions]. assert (E : zrange x x = [x]) by (rewrite zrange_cons, zrange_empty by lia; reflexivity). rewrite E.
  induction (positions f b) as [|q L IH]; auto. cbn [map] in *. cbn [flat_map app]. rewrite IH. f_equal.
Qed.


Notation ifront f := (map Z.opp f).
Notation iback s b := (map (fun xy : Z * Z => fst xy - 1 - snd xy) (combine s b)).

Lemma inner_domain s f b p : length f = length s -> length b = length s -> Forall (fun x => x <= 0) f -> Forall (fun x => 0 <= x) b ->
  Between (ifront f) (iback s b) p -> InDomain s p.
Proof.
  revert f b p. induction s as [|l s IH]; intros [|x f] [|y b] p H1 H2 Hf Hb H; cbn in H1, H2; try lia; cbn [map combine fst snd] in H.
  - inversion H. constructor.
  - destruct p as [|z p]; [inversion H|]. apply Between_cons_iff in H as (Hz & H). inversion Hf; inversion Hb; subst.
    constructor; [lia|]. eapply IH with (f := f) (b := b); eauto.
Qed.

Lemma inner_window s f b : length f = length s -> length b = length s -> NonEmpty (ifront f) (iback s b) -> Forall2 (fun w l => w <= l) (wshape f b) s.
Proof.
  revert f b. induction s as [|l s IH]; intros [|x f] [|y b] H1 H2 H; cbn in H1, H2; try lia; cbn [map combine fst snd] in *; [constructor|].
  inversion H as [|? ? ? ? Hx H']; subst. constructor; [lia|]. apply IH; auto; lia.
Qed.

Lemma Between_le f b p : Between f b p -> Forall2 Z.le f p /\ Forall2 Z.le p b.
Proof. induction 1 as [|x y z f b p Hz H (I & J)]; split; constructor; auto; lia. Qed.

Lemma rank_ifront s f : rank s (ifront f) = - rank s f.
Proof.
  revert f. induction s as [|l s IH]; intros [|x f]; cbn [map]; auto. rewrite !rank_cons, IH. lia.
Qed.

Lemma rank_iback s b : s <> [] -> length b = length s -> rank s (iback s b) = prod s - 1 - rank s b.
Proof.
  intros Hne Hl. rewrite <- rank_last by auto. clear Hne. revert b Hl. induction s as [|l s IH]; intros [|y b] Hl; cbn in Hl; try lia; auto.
  cbn [combine map fst snd vsubs]. fold (vsubs s 1). rewrite !rank_cons, IH by lia. lia.
Qed.

Lemma boxSize_window f b : f <> [] -> NonEmpty f b -> boxSize (mkBox f b) = prod (wshape f b).
Proof. intros Hne H. rewrite boxSize_count by auto. now apply positions_count. Qed.

Lemma inner_box n s f b : n = Z.of_nat (length s) -> length f = length s -> length b = length s ->
  rdomain n s = Ok (fromShape (repeat 0 (length s)) s) /\
  boxShrink (fromShape (repeat 0 (length s)) s) (mkBox f b) = mkBox (ifront f) (iback s b) /\
  boxGrow (mkBox (ifront f) (iback s b)) (mkBox f b) = fromShape (repeat 0 (length s)) s.
Proof.
  intros -> H1 H2. split; [|split].
  - unfold rdomain, vzero, tplDim. rewrite repeat_length. replace (Z.to_nat (Z.abs (Z.of_nat (length s)))) with (length s) by lia.
    now rewrite Nat.leb_refl.
  - unfold boxShrink, fromShape. cbn [bfront bback]. f_equal; revert f b H1 H2; induction s as [|l s IH]; intros [|x f] [|y b] H1 H2; cbn in H1, H2; try lia; auto;
      cbn; f_equal; try lia; eapply IH with (f := f) (b := b); lia.
  - unfold boxGrow, fromShape. cbn [bfront bback]. f_equal; revert f b H1 H2; induction s as [|l s IH]; intros [|x f] [|y b] H1 H2; cbn in H1, H2; try lia; auto;
      cbn; f_equal; try lia; eapply IH with (f := f) (b := b); lia.
Qed.

Lemma map_app_inv2 {A B} (g : A -> B) l L1 x y L2 : map g l = L1 ++ x :: y :: L2 ->
  exists l1 p q l2, l = l1 ++ p :: q :: l2 /\ x = g p /\ y = g q.
Proof.
  revert L1. induction l as [|a l IH]; intros [|c L1] E; cbn in E; try discriminate.
  - destruct l as [|a' l]; [discriminate|]. injection E as <- <- _. exists [], a, a', l. auto.
  - injection E as _ E. destruct (IH L1 E) as (l1 & p & q & l2 & -> & E1 & E2). exists (a :: l1), p, q, l2. auto.
Qed.

Lemma sorted_consecutive {A} (R : A -> A -> Prop) L l1 p q l2 : StronglySorted R L -> L = l1 ++ p :: q :: l2 -> R p q.
Proof.
  intros H. revert l1. induction H as [|a L H IH Ha]; intros l1 E; destruct l1 as [|c l1]; cbn in E; try discriminate.
  - injection E as -> ->. inversion Ha; auto.
  - injection E as -> ->. eapply IH. reflexivity.
Qed.

Lemma inner_spec n s0 s' f0 f' b0 b' values data out : let s := s0 :: s' in let f := f0 :: f' in let b := b0 :: b' in
  Positive s -> Z.of_nat (length data) = prod s -> length f = length s -> NonEmpty f b ->
  Forall (fun x => x <= 0) f -> Forall (fun x => 0 <= x) b -> NonEmpty (ifront f) (iback s b) -> Z.of_nat (length values) = prod (wshape f b) ->
  WF out -> rshape out = s ->
  exists out' enough, (forall fuel, (enough <= fuel)%nat ->
      correlateInner fuel n (mkNkernel values (mkBox f b)) (mkRaster s data) (mkBox (ifront f) (iback s b)) out = Some (Ok out')) /\
    WF out' /\ rshape out' = s /\
    pixel s (rdata out') (ifront f) = linearSum values data 0 (b0 - f0 + 1) s0 /\
    (forall A q p B, positions (ifront f) (iback s b) = A ++ q :: p :: B ->
       pixel s (rdata out') p = linearSum values data (rank s q + 1 - rank s (ifront f)) (b0 - f0 + 1) s0) /\
    (forall p, ~ Between (ifront f) (iback s b) p -> pixel s (rdata out') p = pixel s (rdata out) p).
Proof.
  intros s f b Hs Hdata Hlen Hfb Hf Hb Hin Hv Hwf Hshape.
  assert (Hlb : length b = length s) by (rewrite <- Hlen; symmetry; now apply Forall2_len in Hfb).
  assert (Hw := inner_window s f b Hlen Hlb Hin).
  assert (Hdom := fun p => inner_domain s f b p Hlen Hlb Hf Hb).
  set (fi := ifront f) in *. set (bi := iback s b) in *.
  assert (Lfi : length fi = length s) by (unfold fi; rewrite map_length; auto).
  assert (Efi : fi = - f0 :: ifront f') by reflexivity.
  assert (Ebi : bi = s0 - 1 - b0 :: iback s' b') by reflexivity.
  assert (Hne : fi <> []) by (rewrite Efi; discriminate).
  assert (Hrows := prod_pos (wshape f' b')). assert (Hfb' : NonEmpty f' b' /\ f0 <= b0) by (inversion Hfb; auto). destruct Hfb' as (Hfb' & Hfb0).
  specialize (Hrows (wshape_positive f' b' Hfb')). assert (Epw : prod (wshape f b) = (b0 - f0 + 1) * prod (wshape f' b')) by reflexivity.
  destruct Hwf as (_ & _ & Hout). rewrite Hshape in Hout.
  assert (Hs0 : 0 < s0) by (inversion Hs; auto). assert (Hs' : Positive s') by (inversion Hs; auto).
  (* memory bounds *)
  assert (Hlast : (prod (wshape f' b') - 1) * s0 + (b0 - f0 + 1) <= rank s b - rank s f + 1).
  { unfold s, f, b. rewrite !rank_cons. inversion Hw as [|? ? ? ? _ Hw']; subst. assert (I := window_last s' f' b' Hs' Hfb' Hw').
    rewrite rank_voff in I by (cbn in Hlen, Hlb; lia). nia. }
  assert (Hlo : forall q, Between fi bi q -> rank s fi <= rank s q) by (intros q Hq; apply rank_mono; [auto|now apply Between_le in Hq]).
  assert (Hhi : forall q, Between fi bi q -> rank s q <= prod s - 1 - rank s b).
  { intros q Hq. rewrite <- rank_iback by (auto; discriminate). apply rank_mono; [auto|]. now apply Between_le in Hq. }
  assert (Hneg : rank s fi = - rank s f) by apply rank_ifront.
  (* the flat loop *)
  destruct (flatLoop_spec values data (Z.to_nat (prod (wshape f' b'))) (b0 - f0 + 1) s0 (rank s fi) ltac:(lia) ltac:(lia) ltac:(lia) ltac:(lia)
              (map (rank s) (positions fi bi)) 0 (rdata out)) as (last & d & E & El & P1 & P2 & P3).
  { assert (G : forall l, (forall q, In q l -> InDomain s q) -> NoDup l -> NoDup (map (rank s) l)).
    { clear. induction l as [|a l IH]; intros Hd Hn; cbn [map]; constructor; inversion Hn as [|? ? N1 N2]; subst.
      - intros I. apply in_map_iff in I as (c & Ec & Hc). apply N1. replace a with c; auto. apply (rank_inj s); auto; apply Hd; [now right|now left].
      - apply IH; auto. intros q Hq. apply Hd. now right. }
    apply G; [|apply positions_NoDup]. intros q Hq. apply Hdom. now apply In_positions. }
  { apply Forall_forall. intros a Ha. apply in_map_iff in Ha as (q & <- & Hq). rewrite Hout. apply rank_bounds, Hdom. now apply In_positions. }
  { intros _. split; [lia|]. assert (I := Hhi fi (NonEmpty_front _ _ Hin)). rewrite Hdata, Z2Nat.id by lia. lia. }
  { intros A a c B EL. destruct (map_app_inv2 _ _ _ _ _ _ EL) as (l1 & p & q & l2 & EP & -> & ->).
    assert (Hp : Between fi bi p) by (apply In_positions; rewrite EP; apply in_or_app; right; now left).
    assert (Hq : Between fi bi q) by (apply In_positions; rewrite EP; apply in_or_app; right; right; now left).
    assert (Lt := sorted_consecutive lexLt _ _ _ _ _ (positions_sorted fi bi) EP). apply (rank_lexLt s) in Lt; [|now apply Hdom|now apply Hdom].
    assert (I1 := Hlo p Hp). assert (I2 := Hhi q Hq). split; [lia|]. rewrite Hdata, Z2Nat.id by lia. lia. }
  exists (mkRaster s d), (S (length (positions fi (- f0 :: iback s' b')))).
  assert (Zd : Z.of_nat (length d) = prod s) by lia.
  split; [|split; [|split; [reflexivity|cbn [rdata]; split; [|split]]]].
  - intros fuel Hfuel. unfold correlateInner.
    assert (Hsz : boxSize (mkBox fi bi) <> 0) by (rewrite boxSize_count by auto; destruct (positions_hd _ _ Hin) as [L ->]; cbn; lia).
    replace (boxSize (mkBox fi bi) =? 0) with false by lia.
    cbn [kwindow kvalues]. rewrite (boxSize_window f b) by (auto; discriminate). rewrite Epw.
    rewrite Efi, Ebi. unfold boxLength, project. cbn [kwindow kvalues bfront bback rshape rdata].
    unfold f, b, s. rewrite !zget_cons_0. cbn [bind]. rewrite zset_ok by (cbn [length]; lia). cbn [bind lift obind Z.to_nat replace bfront bback].
    replace (b0 - f0 + 1 =? 0) with false by lia.
    rewrite Hshape. rewrite rindex_rank; [|discriminate|unfold s; cbn [length]; rewrite map_length; cbn in Hlen; lia]. cbn [lift obind].
    assert (Hbx : NonEmpty (- f0 :: ifront f') (- f0 :: iback s' b')) by (constructor; [lia|]; rewrite Efi, Ebi in Hin; inversion Hin; auto).
    rewrite boxForeach_positions; [|discriminate|auto|rewrite <- Efi; lia]. cbn [obind].
    assert (Eq : Z.quot ((b0 - f0 + 1) * prod (wshape f' b')) (b0 - f0 + 1) = prod (wshape f' b')) by (rewrite Z.mul_comm; apply Z.quot_mul; lia).
    rewrite Eq. replace (Z.to_nat (s0 - 1 - b0 - - f0 + 1)) with (Z.to_nat ((s0 - 1 - b0) - (- f0) + 1)) by lia.
    rewrite rowsLoop_flat; [|discriminate|].
    + rewrite positions_flat. rewrite <- Efi, <- Ebi. fold s. rewrite E. cbn [bind snd lift obind]. reflexivity.
    + apply Forall_forall. intros p Hp. apply In_positions in Hp. split.
      * apply Between_length in Hp. cbn [length] in Hp. rewrite map_length in Hp. unfold s. cbn [length]. cbn in Hlen. lia.
      * destruct p as [|z p]; [inversion Hp|]. apply Between_cons_iff in Hp. cbn. lia.
  - split; [discriminate|]. split; [|exact Zd]. cbn [rshape]. eapply Forall_impl; [|exact Hs]. cbn. intros. lia.
  - assert (Hd := Hdom fi (NonEmpty_front _ _ Hin)). unfold pixel. rewrite (proj2 (inside_spec _ _) Hd). apply padded_ok.
    destruct (positions_hd _ _ Hin) as [L EL]. rewrite EL in P1. eapply P1. reflexivity.
  - intros A q p B EP. assert (Hp : Between fi bi p) by (apply In_positions; rewrite EP; apply in_or_app; right; right; now left).
    unfold pixel. rewrite (proj2 (inside_spec _ _) (Hdom p Hp)). apply padded_ok. eapply (P2 (map (rank s) A)). rewrite EP, map_app. reflexivity.
  - intros p Hp. unfold pixel. destruct (inside s p) eqn:Ei; auto. apply inside_spec in Ei. unfold padded. rewrite P3; auto.
    intros I. apply in_map_iff in I as (q & Eq & Hq). apply Hp. apply In_positions. replace p with q; auto. eapply rank_inj; eauto. apply Hdom. now apply In_positions.
Qed.

(** Assembly *)
Lemma linear_window s0 s' f0 f' b0 b' values data X p : let s := s0 :: s' in let f := f0 :: f' in let b := b0 :: b' in
  length f' = length s' -> NonEmpty f b -> Z.of_nat (length values) = prod (wshape f b) -> length p = length s ->
  (forall q, Between f b q -> X (vplus p q) = padded data (rank s p + rank s q)) -> skipn 1 f' = skipn 1 b' ->
  linearSum values data (rank s p + rank s f) (b0 - f0 + 1) s0 = windowCorrelation (windowValue f b values) f b X p.
Proof.
  intros s f b Hl Hfb Hv Hp HX Hflat. unfold linearSum, windowCorrelation, windowValue. rewrite Hv. rewrite <- (positions_rank f b Hfb), map_map.
  apply total_ext. intros q Hq. apply In_positions in Hq. f_equal. rewrite HX by auto. f_equal.
  unfold f, b in Hq. destruct q as [|q0 q']; [inversion Hq|]. apply Between_cons_iff in Hq as (Hq0 & Hq').
  assert (Hlen := Between_length _ _ _ Hq'). unfold f, b, s. cbn [combine map fst snd]. rewrite !rank_cons.
  rewrite (Z.mul_comm (b0 - f0 + 1) (rank (wshape f' b') (voff f' q'))). rewrite Z.mod_add, Z.div_add by lia. rewrite Z.mod_small, Z.div_small by lia.
  assert (E : rank (wshape f' b') (voff f' q') = rank s' q' - rank s' f'); [|rewrite E; lia].
  rewrite <- rank_voff by lia. clear - Hq' Hflat Hl.
  destruct Hq' as [|x y z f' b' q' Hz Hq']; [now destruct s'|]. cbn [skipn] in Hflat. subst b'. destruct s' as [|s1 s']; [discriminate|].
  cbn [combine map fst snd]. rewrite !rank_cons.
  assert (G : forall l f q, Between f f q -> rank l (voff f q) = 0).
  { clear. induction l as [|a l IH]; intros f q H; [reflexivity|]. destruct f as [|x f]; [inversion H; reflexivity|].
    destruct q as [|z q]; [inversion H|]. apply Between_cons_iff in H as (H1 & H2). cbn [combine map fst snd]. rewrite rank_cons, IH by auto. lia. }
  rewrite !G by auto. lia.
Qed.

Lemma InDomain_shift s f b p q : length f = length s -> length b = length s -> Between (ifront f) (iback s b) p -> Between f b q -> InDomain s (vplus p q).
Proof.
  revert f b p q. induction s as [|l s IH]; intros [|x f] [|y b] p q H1 H2 Hp Hq; cbn in H1, H2; try lia; cbn [map combine fst snd] in Hp.
  - inversion Hp; inversion Hq; subst. constructor.
  - destruct p as [|u p]; [inversion Hp|]. destruct q as [|v q]; [inversion Hq|].
    apply Between_cons_iff in Hp as (Hu & Hp). apply Between_cons_iff in Hq as (Hw & Hq). cbn [combine map fst snd]. constructor; [lia|].
    eapply IH with (f := f) (b := b); eauto.
Qed.

Section Assembly.
Variables (n s0 : Z) (s' : list Z) (f0 : Z) (f' : list Z) (b0 : Z) (b' : list Z) (values data : list Z) (ext : list Z -> res Z) (X : list Z -> Z).
Let s := s0 :: s'.
Let f := f0 :: f'.
Let b := b0 :: b'.
Hypothesis Hn : n = Z.of_nat (length s).
Hypothesis Hs : Positive s.
Hypothesis Hdata : Z.of_nat (length data) = prod s.
Hypothesis Hlen : length f = length s.
Hypothesis Hfb : NonEmpty f b.
Hypothesis Hf : Forall (fun x => x <= 0) f.
Hypothesis Hb : Forall (fun x => 0 <= x) b.
Hypothesis Hin : NonEmpty (ifront f) (iback s b).
Hypothesis Hv : Z.of_nat (length values) = prod (wshape f b).
Hypothesis Hext : forall q, length q = length s -> ext q = Ok (X q).

Lemma kernel_exact out : WF out -> rshape out = s ->
  exists out', (exists enough, forall fuel, (enough <= fuel)%nat -> correlateTo fuel n (mkNkernel values (mkBox f b)) (mkRaster s data) ext out = Some (Ok out')) /\
    WF out' /\ rshape out' = s /\
    (forall p, InDomain s p -> ~ Between (ifront f) (iback s b) p ->
       pixel s (rdata out') p = windowCorrelation (windowValue f b values) f b X p) /\
    pixel s (rdata out') (ifront f) = linearSum values data 0 (b0 - f0 + 1) s0 /\
    (forall A q p B, positions (ifront f) (iback s b) = A ++ q :: p :: B ->
       pixel s (rdata out') p = linearSum values data (rank s q + 1 - rank s (ifront f)) (b0 - f0 + 1) s0).
Proof.
  intros Hwf Hshape. assert (Hlb : length b = length s) by (rewrite <- Hlen; symmetry; now apply Forall2_len in Hfb).
  assert (Hdom := fun p => inner_domain s f b p Hlen Hlb Hf Hb).
  destruct (inner_spec n s0 s' f0 f' b0 b' values data out Hs Hdata Hlen Hfb Hf Hb Hin Hv Hwf Hshape) as (o1 & e1 & E1 & W1 & S1 & F1 & N1 & U1).
  fold s f b in E1, F1, N1, U1, S1. destruct (inner_box n s f b Hn Hlen Hlb) as (I1 & I2 & I3).
  destruct (surround_partition (ifront f) (iback s b) f b) as (L & EL & NL & DL & CL & _); try (rewrite map_length; lia); auto.
  { now apply Nonempty_iff. }
  rewrite I3 in CL. 
  destruct (ext_boxes n values f b ext X ltac:(discriminate) Hfb Hv ltac:(rewrite Hlen; exact Hext) L o1 NL) as (o2 & e2 & E2 & W2 & S2 & P2 & Q2); auto.
  { intros bx p Hbx Hp. rewrite S1. apply InBox_domain. apply CL. eauto. }
  { rewrite S1. lia. }
  rewrite S1 in *. exists o2. split; [|split; [auto|split; [auto|split; [|split]]]].
  - exists (Nat.max e1 e2). intros fuel Hfuel. unfold correlateTo. cbn [rshape kwindow]. fold s. rewrite I1. cbn [lift obind]. rewrite I2, EL. cbn [lift obind].
    rewrite E1 by lia. cbn [obind]. apply E2. lia.
  - intros p Hp Hni. apply P2. apply InBox_domain, CL in Hp as [C|C]; [contradiction|auto].
  - rewrite Q2; auto. intros (bx & Hbx & Hp). inversion DL as [|? ? D1 D2]; subst. rewrite Forall_forall in D1. apply (D1 bx Hbx (ifront f)); auto.
    now apply NonEmpty_front.
  - intros A q p B EP. rewrite Q2; [now apply (N1 A q p B)|]. intros (bx & Hbx & Hp). inversion DL as [|? ? D1 D2]; subst. rewrite Forall_forall in D1.
    apply (D1 bx Hbx p); auto. change (Between (ifront f) (iback s b) p). apply In_positions. rewrite EP. apply in_or_app. right. right. now left.
Qed.

Hypothesis HX : forall p, InDomain s p -> X p = pixel s data p.
Hypothesis Hflat : skipn 2 f = skipn 2 b.

Lemma kernel_good out : WF out -> rshape out = s ->
  exists out', (exists enough, forall fuel, (enough <= fuel)%nat -> correlateTo fuel n (mkNkernel values (mkBox f b)) (mkRaster s data) ext out = Some (Ok out')) /\
    WF out' /\ rshape out' = s /\
    forall p, InDomain s p ->
      (Between (ifront f) (iback s b) p -> p = ifront f \/ exists q, Between (ifront f) (iback s b) q /\ rank s q + 1 = rank s p) ->
      pixel s (rdata out') p = windowCorrelation (windowValue f b values) f b X p.
Proof.
  intros Hwf Hshape. assert (Hlb : length b = length s) by (rewrite <- Hlen; symmetry; now apply Forall2_len in Hfb).
  assert (Hdom := fun p => inner_domain s f b p Hlen Hlb Hf Hb).
  destruct (kernel_exact out Hwf Hshape) as (out' & E & W & S' & P1 & P2 & P3). exists out'. split; [auto|]. split; [auto|]. split; [auto|].
  intros p Hp Hgood. destruct (in_dec (list_eq_dec Z.eq_dec) p (positions (ifront f) (iback s b))) as [I|I]; [|apply P1; auto; now rewrite <- In_positions].
  assert (Hb' : Between (ifront f) (iback s b) p) by (now apply In_positions).
  assert (HG : forall q, Between f b q -> X (vplus p q) = padded data (rank s p + rank s q)).
  { intros q Hq. assert (Hpq := InDomain_shift s f b p q Hlen Hlb Hb' Hq). rewrite HX by auto. unfold pixel. rewrite (proj2 (inside_spec _ _) Hpq).
    rewrite vplus_vadd, rank_vadd; auto. now apply InDomain_length. apply Between_length in Hq. lia. }
  assert (LW := linear_window s0 s' f0 f' b0 b' values data X p ltac:(cbn in Hlen; lia) Hfb Hv ltac:(symmetry; now apply InDomain_length) HG Hflat).
  fold s f b in LW. rewrite <- LW. specialize (Hgood Hb').
  destruct (in_split _ _ I) as (A & B & EP). destruct A as [|a0 A0] using rev_ind.
  - destruct (positions_hd _ _ Hin) as [L EL]. rewrite EL in EP. cbn [app] in EP. assert (Ep : p = ifront f) by congruence. rewrite Ep, P2. f_equal. rewrite rank_ifront. lia.
  - clear IHA0. rewrite <- app_assoc in EP. cbn [app] in EP. rewrite (P3 A0 a0 p B EP). f_equal. rewrite rank_ifront.
    assert (Srt := positions_sorted (ifront f) (iback s b)).
    assert (Lt := sorted_consecutive lexLt _ _ _ _ _ Srt EP).
    assert (Ha : Between (ifront f) (iback s b) a0) by (apply In_positions; rewrite EP; apply in_or_app; right; now left).
    assert (Lr := rank_lexLt s a0 p (Hdom _ Ha) Hp Lt).
    assert (After : forall q, Between (ifront f) (iback s b) q -> rank s q <= rank s a0 \/ rank s p <= rank s q).
    { intros q Hq. assert (Iq := Hq). apply In_positions in Iq. rewrite EP in Iq, Srt.
      assert (Srt' := Srt). replace (A0 ++ a0 :: p :: B) with ((A0 ++ [a0]) ++ p :: B) in Srt' by (now rewrite <- app_assoc).
      apply in_app_or in Iq as [Iq|[<-|[<-|Iq]]]; [|lia|lia|].
      - left. assert (R : lexLt q a0). { clear - Srt Iq. induction A0 as [|c A0 IH]; [destruct Iq|]. inversion Srt as [|? ? Q1 Q2]; subst.
          destruct Iq as [->|Iq]; [|auto]. rewrite Forall_forall in Q2. apply Q2. apply in_or_app. right. now left. }
        apply (rank_lexLt s) in R; [lia|now apply Hdom|now apply Hdom].
      - right. assert (R : lexLt p q). { clear - Srt' Iq. induction (A0 ++ [a0]) as [|c A1 IH]; cbn [app] in Srt'; inversion Srt' as [|? ? Q1 Q2]; subst; auto.
          rewrite Forall_forall in Q2. now apply Q2. }
        apply (rank_lexLt s) in R; [lia|auto|now apply Hdom]. }
    destruct Hgood as [->|(q & Hq & Eq)].
    + exfalso. assert (Ho := rank_mono s (ifront f) a0 Hs (proj1 (Between_le _ _ _ Ha))). lia.
    + destruct (After q Hq); lia.
Qed.
End Assembly.

(** Statements without decomposition *)
Lemma inner_iff s f b p : length f = length s -> length b = length s -> length p = length s -> Forall2 (fun x y => x <= 0 <= y) f b ->
  Inner s f b p <-> Between (ifront f) (iback s b) p.
Proof.
  unfold Inner. intros H1 H2 H3 H. revert s p H1 H2 H3. induction H as [|x y f b Hxy H IH]; intros [|l s] [|z p] H1 H2 H3; cbn in H1, H2, H3; try lia.
  - split; [constructor|split; constructor].
  - cbn [combine map fst snd]. rewrite Between_cons_iff, !InDomain_cons_iff. rewrite <- (IH s p) by lia. split; [intros ((? & ?) & (? & ?))|intros (? & ? & ?)]; repeat split; auto; lia.
Qed.

Lemma lexLt_total p q : length p = length q -> lexLt p q \/ p = q \/ lexLt q p.
Proof.
  revert q. induction p as [|x p IH]; intros [|y q] H; cbn in H; try lia; auto. cbn [lexLt].
  destruct (IH q ltac:(lia)) as [I|[->|I]]; auto. destruct (Z.lt_trichotomy x y) as [J|[->|J]]; auto.
Qed.

Lemma consecutive s f b q p : Forall2 (fun x y => x <= 0 <= y) f b -> length f = length s -> length p = length s -> length q = length s ->
  Inner s f b p -> PreviousInner s f b q p -> exists A B, positions (ifront f) (iback s b) = A ++ q :: p :: B.
Proof.
  intros Hw Hl Lp Lq Hp (Hq & Hqp & Hbetween). assert (Lb : length b = length s) by (rewrite <- Hl; symmetry; now apply Forall2_len in Hw).
  assert (HI := fun r Lr => inner_iff s f b r Hl Lb Lr Hw).
  assert (Hd : forall r, Between (ifront f) (iback s b) r -> InDomain s r).
  { intros r Hr. eapply inner_domain with (f := f) (b := b); eauto; clear - Hw; induction Hw; constructor; auto; lia. }
  apply HI in Hp; [|auto]. apply HI in Hq; [|auto]. assert (Srt := positions_sorted (ifront f) (iback s b)).
  assert (Ip := Hp). apply In_positions in Ip. assert (Iq := Hq). apply In_positions in Iq.
  destruct (in_split _ _ Ip) as (A & B & EP). rewrite EP in Iq, Srt.
  assert (Iq' : In q A).
  { apply in_app_or in Iq as [Iq|[Iq|Iq]]; auto; exfalso.
    - subst q. assert (R := rank_lexLt s p p (Hd _ Hp) (Hd _ Hp) Hqp). lia.
    - assert (R : lexLt p q). { clear - Srt Iq. induction A as [|c A1 IH]; cbn [app] in Srt; inversion Srt as [|? ? Q1 Q2]; subst; auto.
        rewrite Forall_forall in Q2. now apply Q2. }
      apply (rank_lexLt s) in R; auto. assert (R' := rank_lexLt s q p (Hd _ Hq) (Hd _ Hp) Hqp). lia. }
  destruct A as [|a0 A0] using rev_ind; [destruct Iq'|]. clear IHA0. exists A0, B. rewrite EP, <- app_assoc. cbn [app]. do 2 f_equal.
  rewrite <- app_assoc in Srt, EP. cbn [app] in Srt, EP.
  assert (Ha : Between (ifront f) (iback s b) a0) by (apply In_positions; rewrite EP; apply in_or_app; right; now left).
  apply in_app_or in Iq' as [Iq'|[Iq'|[]]]; auto. exfalso.
  assert (R : lexLt q a0). { clear - Srt Iq'. induction A0 as [|c A0 IH]; [destruct Iq'|]. inversion Srt as [|? ? Q1 Q2]; subst.
          destruct Iq' as [->|Iq']; [|auto]. rewrite Forall_forall in Q2. apply Q2. apply in_or_app. right. now left. }
  assert (La : length a0 = length s) by (symmetry; apply InDomain_length; auto).
  apply (Hbetween a0); auto; [now apply HI|]. eapply sorted_consecutive; [|reflexivity]. exact Srt.
Qed.

Lemma Forall2_split (f b : list Z) : Forall2 (fun x y => x <= 0 <= y) f b -> NonEmpty f b /\ Forall (fun x => x <= 0) f /\ Forall (fun x => 0 <= x) b.
Proof. induction 1 as [|x y f b H1 H (I & J & K)]; repeat split; constructor; auto; lia. Qed.

Lemma kernel_spec n shape f b values data ext X out :
  shape <> [] -> n = Z.of_nat (length shape) -> Positive shape -> Z.of_nat (length data) = prod shape ->
  length f = length shape -> Forall2 (fun x y => x <= 0 <= y) f b -> Z.of_nat (length values) = windowSize f b ->
  (exists p, length p = length shape /\ Inner shape f b p) ->
  (forall q, length q = length shape -> ext q = Ok (X q)) -> WF out -> rshape out = shape ->
  exists out', (exists enough, forall fuel, (enough <= fuel)%nat -> correlateTo fuel n (mkNkernel values (mkBox f b)) (mkRaster shape data) ext out = Some (Ok out')) /\
    WF out' /\ rshape out' = shape /\
    (forall p, InDomain shape p -> ~ Inner shape f b p -> pixel shape (rdata out') p = windowCorrelation (windowValue f b values) f b X p) /\
    pixel shape (rdata out') (map Z.opp f) = linearSum values data 0 (nth 0 b 0 - nth 0 f 0 + 1) (nth 0 shape 0) /\
    (forall p q, InDomain shape p -> InDomain shape q -> Inner shape f b p -> PreviousInner shape f b q p ->
       pixel shape (rdata out') p = linearSum values data (rank shape q + 1 + rank shape f) (nth 0 b 0 - nth 0 f 0 + 1) (nth 0 shape 0)) /\
    ((forall p, InDomain shape p -> X p = pixel shape data p) -> skipn 2 f = skipn 2 b ->
     forall p, InDomain shape p ->
      (Inner shape f b p -> p = map Z.opp f \/ exists q, InDomain shape q /\ Inner shape f b q /\ rank shape q + 1 = rank shape p) ->
      pixel shape (rdata out') p = windowCorrelation (windowValue f b values) f b X p).
Proof.
  intros Hne Hn Hs Hdata Hlen Hw Hv (c & Lc & Hc) Hext Hwf Hshape.
  assert (Lb : length b = length shape) by (rewrite <- Hlen; symmetry; now apply Forall2_len in Hw).
  destruct (Forall2_split f b Hw) as (Hfb & Hf & Hb). unfold windowSize in Hv.
  assert (HI := fun r Lr => inner_iff shape f b r Hlen Lb Lr Hw).
  assert (Hin : NonEmpty (ifront f) (iback shape b)) by (apply (Between_NonEmpty _ _ c); now apply HI).
  destruct shape as [|s0 s']; [congruence|]. destruct f as [|f0 f']; [discriminate|]. destruct b as [|b0 b']; [discriminate|]. cbn [nth].
  destruct (kernel_exact n s0 s' f0 f' b0 b' values data ext X Hn Hs Hdata Hlen Hfb Hf Hb Hin Hv Hext out Hwf Hshape) as (o1 & (e1 & E1) & W1 & S1 & P1 & P2 & P3).
  exists o1. split; [exists e1; exact E1|]. split; [auto|]. split; [auto|]. split; [|split; [auto|split]].
  - intros p Hp Hni. apply P1; auto. rewrite <- HI; auto. symmetry. now apply InDomain_length.
  - intros p q Hp Hq Ip Hpq. destruct (consecutive (s0 :: s') (f0 :: f') (b0 :: b') q p) as (A & B & EP); auto; try (symmetry; now apply InDomain_length).
    rewrite (P3 A q p B EP). f_equal. rewrite rank_ifront. lia.
  - intros HX Hflat p Hp Hg.
    destruct (kernel_good n s0 s' f0 f' b0 b' values data ext X Hn Hs Hdata Hlen Hfb Hf Hb Hin Hv Hext HX Hflat out Hwf Hshape) as (o2 & (e2 & E2) & W2 & S2 & P4).
    assert (Eo : o1 = o2). { assert (Q := E1 (Nat.max e1 e2) ltac:(lia)). rewrite (E2 (Nat.max e1 e2) ltac:(lia)) in Q. congruence. }
    subst o2. apply P4; auto. intros HB. apply HI in HB; [|symmetry; now apply InDomain_length].
    destruct (Hg HB) as [G|(q & Hq & Iq & Eq)]; [now left|right]. exists q. split; [|auto]. apply HI; auto. symmetry. now apply InDomain_length.
Qed.

(** Dimension 1, and column kernels in dimension 2: no exception *)

Ltac rc := repeat (cbv beta; first [apply Forall_nil | apply Forall2_nil | apply InDomain_nil | apply Forall_cons | apply Forall2_cons | apply InDomain_cons]); cbv beta; lia.

Lemma kernel_line l f b values data ext X out :
  0 < l -> Z.of_nat (length data) = l -> f <= 0 <= b -> Z.of_nat (length values) = b - f + 1 -> b - f + 1 <= l ->
  (forall q, length q = 1%nat -> ext q = Ok (X q)) -> (forall p, InDomain [l] p -> X p = pixel [l] data p) -> WF out -> rshape out = [l] ->
  exists out', (exists enough, forall fuel, (enough <= fuel)%nat -> correlateTo fuel 1 (mkNkernel values (mkBox [f] [b])) (mkRaster [l] data) ext out = Some (Ok out')) /\
    WF out' /\ rshape out' = [l] /\
    forall p, InDomain [l] p -> pixel [l] (rdata out') p = windowCorrelation (windowValue [f] [b] values) [f] [b] X p.
Proof.
  intros Hl Hdata Hfb Hv Hk Hext HX Hwf Hshape.
  destruct (kernel_spec 1 [l] [f] [b] values data ext X out) as (o & E & W & S' & _ & _ & _ & P); auto; try discriminate; try (cbn; lia); try solve [rc].
  - exists [- f]. split; [reflexivity|]. split; cbn; rc.
  - exists o. split; [auto|]. split; [auto|]. split; [auto|]. intros p Hp. apply P; auto. intros (I1 & I2).
    destruct p as [|x [|? ?]]; try (apply InDomain_length in Hp; cbn in Hp; lia). cbn in I1, I2.
    apply InDomain_cons_iff in I1 as (I1 & _). apply InDomain_cons_iff in I2 as (I2 & _).
    destruct (Z.eq_dec x (- f)) as [->|N]; [now left|right]. exists [x - 1]. split; [rc|]. split; [split; cbn; rc|]. cbn. lia.
Qed.

Lemma kernel_column w h f b values data ext X out :
  0 < w -> 0 < h -> Z.of_nat (length data) = w * h -> f <= 0 <= b -> Z.of_nat (length values) = b - f + 1 -> b - f + 1 <= h ->
  (forall q, length q = 2%nat -> ext q = Ok (X q)) -> (forall p, InDomain [w; h] p -> X p = pixel [w; h] data p) -> WF out -> rshape out = [w; h] ->
  exists out', (exists enough, forall fuel, (enough <= fuel)%nat ->
      correlateTo fuel 2 (mkNkernel values (mkBox [0; f] [0; b])) (mkRaster [w; h] data) ext out = Some (Ok out')) /\
    WF out' /\ rshape out' = [w; h] /\
    forall p, InDomain [w; h] p -> pixel [w; h] (rdata out') p = windowCorrelation (windowValue [0; f] [0; b] values) [0; f] [0; b] X p.
Proof.
  intros Hl Hh Hdata Hfb Hv Hk Hext HX Hwf Hshape.
  destruct (kernel_spec 2 [w; h] [0; f] [0; b] values data ext X out) as (o & E & W & S' & _ & _ & _ & P); auto; try discriminate; try (cbn; lia); try solve [rc].
  - unfold windowSize. rewrite Hv. change (b - f + 1 = (0 - 0 + 1) * ((b - f + 1) * 1)). lia.
  - exists [0; - f]. split; [reflexivity|]. split; cbn; rc.
  - exists o. split; [auto|]. split; [auto|]. split; [auto|]. intros p Hp. apply P; auto. intros (I1 & I2).
    destruct p as [|x [|y [|? ?]]]; try (apply InDomain_length in Hp; cbn in Hp; lia). cbn in I1, I2.
    apply InDomain_cons_iff in I1 as (I1 & I1'). apply InDomain_cons_iff in I1' as (I1' & _). apply InDomain_cons_iff in I2 as (I2 & I2'). apply InDomain_cons_iff in I2' as (I2' & _).
    destruct (Z.eq_dec x 0) as [->|N].
    + destruct (Z.eq_dec y (- f)) as [->|N']; [now left|right]. exists [w - 1; y - 1]. split; [rc|]. split; [split; cbn; rc|].
      rewrite !rank_cons. change (rank [] []) with 0. lia.
    + right. exists [x - 1; y]. split; [rc|]. split; [split; cbn; rc|]. rewrite !rank_cons. lia.
Qed.

(** A window which is too long along some axis but the first one *)
Lemma kernel_never n shape f b values data ext out fuel : shape <> [] -> n = Z.of_nat (length shape) -> Positive shape ->
  length f = length shape -> Forall2 (fun x y => x <= 0 <= y) f b -> rshape out = shape ->
  Forall2 (fun w s => w <> s + 1) (wshape f b) shape -> (exists i, (0 < i)%nat /\ nth i shape 0 + 1 < nth i (wshape f b) 0) ->
  correlateTo fuel n (mkNkernel values (mkBox f b)) (mkRaster shape data) ext out = None.
Proof.
  intros Hne Hn Hs Hlen Hw Hshape Hsz (i & Hi & Hbig).
  assert (Lb : length b = length shape) by (rewrite <- Hlen; symmetry; now apply Forall2_len in Hw).
  destruct (inner_box n shape f b Hn Hlen Lb) as (I1 & I2 & I3). destruct (Forall2_split f b Hw) as (Hfb & Hf & Hb).
  unfold correlateTo. cbn [rshape kwindow]. rewrite I1. cbn [lift obind]. rewrite I2.
  assert (Hsur : exists L, surround (mkBox (ifront f) (iback shape b)) (mkBox f b) = Ok L).
  { assert (G : forall axes cur out, (forall i, In i axes -> (i < length f)%nat) -> length (bfront cur) = length f -> length (bback cur) = length f ->
      exists st, surroundLoop (mkBox f b) axes (cur, out) = Ok st).
    { clear - Hlen Lb. induction axes as [|a axes IH]; intros cur out Ha H1 H2; [eexists; reflexivity|]. cbn [surroundLoop]. unfold surroundAxis. cbn [bfront bback].
      assert (La : (a < length f)%nat) by (apply Ha; now left).
      destruct (zget_in_range f (Z.of_nat a) ltac:(lia)) as [u ->]. cbn [bind]. destruct (zget_in_range (bfront cur) (Z.of_nat a) ltac:(lia)) as [cf ->].
      destruct (zget_in_range b (Z.of_nat a) ltac:(lia)) as [v ->].
      assert (Ha' : forall i, In i axes -> (i < length f)%nat) by (intros; apply Ha; now right).
      destruct (u <? 0); cbn [bind]; [rewrite !zset_ok by lia; cbn [bind]|];
        (destruct (0 <? v); cbn [bfront bback];
          [destruct (zget_in_range (bback cur) (Z.of_nat a) ltac:(lia)) as [cb ->]; cbn [bind]; rewrite !zset_ok by (rewrite ?replace_length; lia)|]; cbn [bind];
          apply IH; auto; cbn [bfront bback]; rewrite ?replace_length; lia). }
    unfold surround, boxDim. cbn [bfront]. destruct (G (seq 0 (length (ifront f))) (mkBox (ifront f) (iback shape b)) []) as (st & ->).
    - intros j Hj. apply in_seq in Hj. rewrite map_length in Hj. lia.
    - cbn. now rewrite map_length.
    - cbn. rewrite map_length, combine_length. lia.
    - cbn [bind]. eexists. reflexivity. }
  destruct Hsur as (L & ->). cbn [lift obind].
  assert (Hzero : boxSize (mkBox (ifront f) (iback shape b)) <> 0).
  { rewrite boxSize_prod; [|destruct f; [destruct shape; [congruence|discriminate]|discriminate]|rewrite !map_length, combine_length; lia].
    rewrite boxShape_map2. clear - Hsz Hlen Lb. revert f b Hlen Lb Hsz. induction shape as [|l s IH]; intros [|x f] [|y b] H1 H2 H; cbn in H1, H2; try lia.
    - cbn. lia.
    - cbn [combine map fst snd map2]. rewrite prod_cons. cbn [combine map fst snd] in H. inversion H as [|? ? ? ? N H']; subst. specialize (IH f b ltac:(lia) ltac:(lia) H').
      apply Z.neq_mul_0. split; [lia|exact IH]. }
  assert (Ei : correlateInner fuel n (mkNkernel values (mkBox f b)) (mkRaster shape data) (mkBox (ifront f) (iback shape b)) out = None); [|rewrite Ei; reflexivity].
  unfold correlateInner. replace (boxSize _ =? 0) with false by lia.
  destruct shape as [|s0 s']; [congruence|]. destruct f as [|f0 f']; [discriminate|]. destruct b as [|b0 b']; [discriminate|].
  unfold boxLength, project. cbn [map combine fst snd kwindow kvalues bfront bback rshape rdata]. rewrite !zget_cons_0. cbn [bind].
  rewrite zset_ok by (cbn [length]; lia). cbn [bind lift obind Z.to_nat replace bfront bback].
  assert (Hfb0 : f0 <= b0) by (inversion Hfb; auto). replace (b0 - f0 + 1 =? 0) with false by lia.
  rewrite Hshape. rewrite rindex_rank; [|discriminate|cbn [length]; rewrite map_length; cbn in Hlen; lia]. cbn [lift obind].
  rewrite boxForeach_empty; [reflexivity|discriminate|cbn; rewrite !map_length, combine_length; cbn in Hlen, Lb; lia|].
  cbn [bfront bback]. intros C. inversion C as [|? ? ? ? _ C']; subst. destruct i as [|i]; [lia|]. cbn [combine map nth fst snd] in Hbig.
  clear - C' Hbig Hlen Lb. cbn in Hlen, Lb. injection Hlen as Hlen. injection Lb as Lb. revert f' b' i Hlen Lb C' Hbig.
  induction s' as [|l s IH]; intros [|x f] [|y b] i H1 H2 C H; cbn in H1, H2; try lia.
  - destruct i; cbn in H; lia.
  - cbn [combine map fst snd] in C, H. inversion C as [|? ? ? ? N C']; subst. destruct i as [|i]; cbn [nth] in H; [lia|]. apply (IH f b i); auto; lia.
Qed.

Lemma kernelize_spec n s data origin : n = Z.of_nat (length s) -> length origin = length s -> Positive s ->
  kernelizeAt n (mkRaster s data) origin = Ok (mkNkernel data (mkBox (map Z.opp origin) (iback s origin))) /\
  kernelize n (mkRaster s data) = Ok (mkNkernel data (mkBox (map (fun l => - (l / 2)) s) (map (fun l => l - 1 - l / 2) s))).
Proof.
  intros Hn Hl Hs. destruct (inner_box n s origin origin Hn Hl Hl) as (I1 & I2 & _).
  assert (G : forall o, length o = length s -> kernelizeAt n (mkRaster s data) o = Ok (mkNkernel data (mkBox (map Z.opp o) (iback s o)))).
  { intros o Ho. unfold kernelizeAt. cbn [rshape rdata]. destruct (inner_box n s o o Hn Ho Ho) as (J1 & J2 & _). rewrite J1. cbn [bind]. do 2 f_equal. exact J2. }
  split; [auto|]. unfold kernelize. rewrite G by (now rewrite map_length). do 3 f_equal; cbn [rshape].
  - rewrite map_map. clear - Hs. induction Hs as [|l s H0 Hs IH]; cbn [map]; f_equal; auto. rewrite Z.quot_div_nonneg by lia. reflexivity.
  - clear - Hs. induction Hs as [|l s H0 Hs IH]; cbn [map combine fst snd]; f_equal; auto. rewrite Z.quot_div_nonneg by lia. reflexivity.
Qed.

Lemma kernel_witness2 : exists values data out p,
  let X := pixel [4; 4] data in
  correlateTo 40 2 (mkNkernel values (mkBox [-1; -1] [1; 1])) (mkRaster [4; 4] data) (fun q => Ok (X q)) (mkRaster [4; 4] (repeat 0 16)) = Some (Ok out) /\
  InDomain [4; 4] p /\ pixel [4; 4] (rdata out) p = 1236 /\ windowCorrelation (windowValue [-1; -1] [1; 1] values) [-1; -1] [1; 1] X p = 749.
Proof.
  exists [1; 2; 3; 4; 5; 6; 7; 8; 9], [1; 2; 4; 8; 16; 32; 64; 128; 3; 5; 7; 11; 13; 17; 19; 23]. eexists. exists [1; 2].
  cbv zeta. split; [vm_compute; reflexivity|]. split; [rc|]. split; vm_compute; reflexivity.
Qed.

Lemma kernel_witness3 : exists values data out p,
  let X := pixel [1; 4; 2] data in
  correlateTo 40 3 (mkNkernel values (mkBox [0; -1; 0] [0; 1; 1])) (mkRaster [1; 4; 2] data) (fun q => Ok (X q)) (mkRaster [1; 4; 2] (repeat 0 8)) = Some (Ok out) /\
  InDomain [1; 4; 2] p /\ p = map Z.opp [0; -1; 0] /\ Inner [1; 4; 2] [0; -1; 0] [0; 1; 1] p /\
  pixel [1; 4; 2] (rdata out) p <> windowCorrelation (windowValue [0; -1; 0] [0; 1; 1] values) [0; -1; 0] [0; 1; 1] X p.
Proof.
  exists [1; 2; 3; 4; 5; 6], [1; 10; 100; 1000; 10000; 100000; 1000000; 10000000]. eexists. exists [0; 1; 0].
  cbv zeta. split; [vm_compute; reflexivity|]. split; [rc|]. split; [reflexivity|]. split; [split; cbn; rc|]. vm_compute. discriminate.
Qed.
