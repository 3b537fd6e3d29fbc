From Coq Require Import Permutation.
From Verif Require Import Res VecModel TypesModel BoxModel RasterModel SamplingModel DistModel MedianModel
  Spec BoxSpec RasterSpec KernelSpec DistSpec MedianSpec Lemmas ContainerProofs IndexProofs BoxIterProofs BoxGeomProofs AccessProofs SamplingProofs DistProofs
  SeparableProofs ComposeProofs KernelProofs.

Lemma NthElement_value l s n l' : Sorting qltb l s -> 0 <= n < Z.of_nat (length l) -> NthElement qltb l n l' ->
  exists v w, zget l' n = Ok v /\ zget s n = Ok w /\ (v == w)%Q.
Proof.
  intros Hs Hn (HP & HN). apply (Sorting_iff qltb qltb_swo) in Hs as [Ps Ss].
  destruct (zget_in_range s n) as [w Hw]; [rewrite <- (Permutation_length Ps); exact Hn|].
  destruct (zget_in_range l' n) as [v Hv]; [rewrite <- (Permutation_length HP); exact Hn|]. exists v, w. split; [auto|]. split; [auto|].
  apply Equivalent_Q. eapply (part_equiv qltb qltb_swo l' s n); eauto.
  - eapply Permutation_trans; [apply Permutation_sym, HP|exact Ps].
  - now apply (SortedBy_Part qltb qltb_swo).
Qed.

Lemma filter_odd l s l' r : Sorting qltb l s -> Z.of_nat (length l) mod 2 = 1 -> filterMedian l l' r ->
  Permutation l l' /\ exists v, r = Ok v /\ Median s v.
Proof.
  intros Hs Ho H. inversion H as [l1 n E N|l1 l2 n E|l1 n E|E]; subst; try (subst n; lia); [|cbn in Ho; discriminate].
  split; [apply N|]. destruct (NthElement_value l s n l' Hs ltac:(subst n; lia) N) as (v & w & -> & Hw & Q). exists v. split; [auto|].
  exists w, w. assert (L : length s = length l) by (symmetry; apply Permutation_length, Hs). rewrite L. subst n.
  replace ((Z.of_nat (length l) - 1) / 2) with (Z.of_nat (length l) / 2) by lia. repeat split; auto. rewrite Q. field.
Qed.

Lemma filter_possible l : l <> [] -> exists l' r, filterMedian l l' r.
Proof.
  intros Hl. assert (Hlen : 0 < Z.of_nat (length l)) by (destruct l; [congruence|cbn; lia]).
  assert (G : forall l n, 0 <= n < Z.of_nat (length l) -> exists l', NthElement qltb l n l').
  { intros m n Hn. exists (isort qltb m). split; [apply isort_perm|]. apply (SortedBy_Part qltb qltb_swo), (isort_sorted qltb qltb_swo). }
  destruct (Z.eq_dec (Z.of_nat (length l) mod 2) 1) as [O|O].
  - destruct (G l (Z.of_nat (length l) / 2) ltac:(lia)) as (l' & N). eexists _, _. now apply (median_odd l l').
  - destruct (G l (Z.of_nat (length l) / 2) ltac:(lia)) as (l1 & N). destruct (Z.eq_dec (Z.of_nat (length l) / 2 + 1) (Z.of_nat (length l))) as [T|T].
    + eexists _, _. apply (median_two l l1); auto; lia.
    + destruct (G l1 (Z.of_nat (length l) / 2 + 1)) as (l2 & N2); [rewrite <- (Permutation_length (proj1 N)); lia|].
      eexists _, _. apply (median_even l l1 l2); auto; lia.
Qed.

Lemma filter_even l s l' r : Sorting qltb l s -> Z.of_nat (length l) mod 2 = 0 -> filterMedian l l' r ->
  (Z.of_nat (length l) <= 2 -> r = UB) /\
  (2 < Z.of_nat (length l) -> exists x y, In x l /\ (x <= y)%Q /\ zget s (Z.of_nat (length l) / 2 + 1) = Ok y /\ exists v, r = Ok v /\ (v == (x + y) / 2)%Q).
Proof.
  intros Hs He H. inversion H as [l1 n E N|l1 l2 n E B N1 N2|l1 n E B N|E]; subst; try (subst n; lia).
  - split; [intros; subst n; lia|]. intros _. assert (L1 := Permutation_length (proj1 N1)). assert (L2 := Permutation_length (proj1 N2)).
    assert (Hs1 : Sorting qltb l1 s) by (split; [eapply Permutation_trans; [apply Permutation_sym, N1|apply Hs]|apply Hs]).
    destruct (NthElement_value l1 s (n + 1) l' Hs1 ltac:(subst n; lia) N2) as (v & w & Ev & Ew & Q).
    destruct (zget_in_range l' n) as [x Hx]; [subst n; lia|]. exists x, w. split; [|split; [|split; [exact Ew|]]].
    + apply zget_ok in Hx as (_ & Hx). apply nth_error_In in Hx. eapply Permutation_in; [|exact Hx].
      apply Permutation_sym. eapply Permutation_trans; [apply N1|apply N2].
    + rewrite <- Q. assert (G := proj2 N2 n (n + 1) x v ltac:(subst n; lia) ltac:(lia) Hx Ev). now apply qltb_false in G.
    + rewrite Hx, Ev. cbn [bind]. eexists. split; [reflexivity|]. rewrite Q. field.
  - split; [|intros; subst n; lia]. intros _. rewrite (zget_out l' (n + 1)).
    + assert (L1 := Permutation_length (proj1 N)). destruct (zget_in_range l' n) as [x ->]; [subst n; lia|]. reflexivity.
    + assert (L1 := Permutation_length (proj1 N)). right. lia.
  - split; [auto|cbn; lia].
Qed.

Lemma median_even_witness : exists l s l' v, Sorting qltb l s /\ filterMedian l l' (Ok v) /\ ~ Median s v.
Proof.
  pose (l := [1; 2; 3; 4]%Q). assert (S' : SortedBy qltb l) by (apply (is_sorted_spec qltb); reflexivity).
  assert (N : forall n, NthElement qltb l n l) by (intros n; split; [apply Permutation_refl|now apply (SortedBy_Part qltb qltb_swo)]).
  exists l, l, l, ((3 + 4) * (1 # 2))%Q. split; [|split].
  - apply (Sorting_iff qltb qltb_swo). split; [apply Permutation_refl|auto].
  - apply (median_even l l l); auto. cbn. lia.
  - intros (x & y & Hx & Hy & E). cbn in Hx, Hy. injection Hx as <-. injection Hy as <-. vm_compute in E. discriminate.
Qed.

(** The filter *)
Section Filter.
Variables (n : Z) (f b : list Z) (X : list Z -> Q).
Let window := mkBox f b.
Hypothesis Hne : f <> [].
Hypothesis Hfb : NonEmpty f b.
Hypothesis Hodd : windowSize f b mod 2 = 1.

Lemma Sorting_exists' l : exists s, Sorting qltb l s.
Proof. apply (Sorting_exists qltb qltb_swo). Qed.

Lemma filter_pixel fuel p buffer : length p = length f -> Z.of_nat (length buffer) = windowSize f b -> (length (positions f b) < fuel)%nat ->
  exists qs xs, boxForeach fuel (boxShift window p) = Some (Ok qs) /\ qs = map (fun q => vadd q p) (positions f b) /\
    (forall ext, (forall q, In q (positions f b) -> ext (vplus p q) = Ok (X (vplus p q))) -> mapRes ext qs = Ok xs) /\
    length xs = length buffer /\ xs ++ skipn (length xs) buffer = map (fun q => X (vplus p q)) (positions f b).
Proof.
  intros Lp Lb Hf. assert (Hlen := Forall2_len _ _ _ Hfb).
  exists (map (fun q => vadd q p) (positions f b)), (map (fun q => X (vadd q p)) (positions f b)). split; [|split; [reflexivity|split; [|split]]].
  - unfold boxShift. cbn [window bfront bback]. rewrite boxForeach_positions.
    + now rewrite positions_shift by lia.
    + destruct f, p; cbn in *; congruence.
    + apply NonEmpty_shift; auto.
    + rewrite positions_shift, map_length by lia. auto.
  - intros ext Hext. apply mapRes_Forall2. rewrite <- (map_map (fun q => vadd q p) X). apply Forall2_map_in. intros q Hq.
    apply in_map_iff in Hq as (w & <- & Hw). rewrite vadd_comm, <- vplus_vadd. now apply Hext.
  - rewrite map_length. assert (P := positions_count f b Hfb). unfold windowSize in Lb. lia.
  - assert (P := positions_count f b Hfb). unfold windowSize in Lb. rewrite map_length. rewrite skipn_all2 by lia. rewrite app_nil_r.
    apply map_ext. intros q. now rewrite vplus_vadd, vadd_comm.
Qed.

Lemma filter_loop fuel ext ps : (forall p q, In p ps -> In q (positions f b) -> ext (vplus p q) = Ok (X (vplus p q))) -> (length (positions f b) < fuel)%nat -> NoDup ps ->
  forall buffer out, Z.of_nat (length buffer) = windowSize f b -> WF out -> length (rshape out) = length f -> Forall (InDomain (rshape out)) ps ->
  (exists r, filterLoop fuel n window ext ps buffer out r) /\
  forall r, filterLoop fuel n window ext ps buffer out r ->
    exists out', r = Ok out' /\ WF out' /\ rshape out' = rshape out /\
      (forall p, In p ps -> exists v, rget n out' p = Ok v /\ WindowMedian f b X p v) /\
      (forall p, InDomain (rshape out) p -> ~ In p ps -> rget n out' p = rget n out p).
Proof.
  intros Hext Hf. induction ps as [|p ps IH]; intros Hnd buffer out Lb Hwf Lo Hd; [clear Hext|specialize (IH (fun p' q I => Hext p' q (or_intror I)))].
  - split; [eexists; constructor|]. intros r H. inversion H; subst. exists out. split; [auto|]. split; [auto|]. split; [auto|]. split; [intros p []|auto].
  - inversion Hnd as [|? ? N1 N2]; subst. inversion Hd as [|? ? Hp Hps]; subst. assert (Lp := InDomain_length _ _ Hp).
    destruct (filter_pixel fuel p buffer ltac:(lia) Lb Hf) as (qs & xs & E1 & _ & E2 & E3 & E4). specialize (E2 ext (fun q => Hext p q (or_introl eq_refl))).
    set (l := map (fun q => X (vplus p q)) (positions f b)) in *.
    assert (Ll : Z.of_nat (length l) = windowSize f b) by (unfold l; rewrite map_length; apply (positions_count f b Hfb)).
    destruct (Sorting_exists' l) as (s & Hs). assert (Oc := fun l' r => filter_odd l s l' r Hs ltac:(now rewrite Ll)).
    assert (Step : forall l' v, filterMedian l l' (Ok v) -> exists out1, rset n out p v = Ok out1 /\
      Z.of_nat (length l') = windowSize f b /\ WF out1 /\ rshape out1 = rshape out /\ rget n out1 p = Ok v /\ WindowMedian f b X p v /\
      (forall q, InDomain (rshape out) q -> q <> p -> rget n out1 q = rget n out q)).
    { intros l' v Hm. destruct (Oc l' (Ok v) Hm) as (Pl & v' & Ev & M). injection Ev as <-.
      destruct (rset_domain n out p v Hwf Hp) as (out1 & R1 & R2 & R3 & R4 & R5). exists out1. split; [auto|].
      split; [rewrite <- (Permutation_length Pl); auto|]. split; [auto|]. split; [auto|]. split; [auto|]. split; [exists s; auto|auto]. }
    split.
    + destruct (filter_possible l) as (l' & r1 & Hm); [intros E; rewrite E in Ll; cbn in Ll; rewrite <- Ll in Hodd; discriminate|].
      destruct (Oc l' r1 Hm) as (_ & v & -> & _). destruct (Step l' v Hm) as (out1 & R1 & R2 & R3 & R4 & R5 & R6 & R7).
      destruct (IH N2 l' out1 R2 R3 ltac:(now rewrite R4) ltac:(now rewrite R4)) as ((r & Hr) & _).
      exists r. eapply filter_step; eauto; [lia|]. now rewrite E4.
    + intros r H. inversion H as [|? ? ? ? qs' xs' l' v out1 r' F1 F2 F3 F4 F5 F6|? ? ? ? ? F1 F2|? ? ? ? ? ? F1 F2 F3|? ? ? ? ? ? l' F1 F2 F3 F4|? ? ? ? ? ? l' v F1 F2 F3 F4 F5]; subst;
        rewrite E1 in F1; injection F1 as <-; rewrite E2 in F2; try discriminate; injection F2 as <-; try (exfalso; lia); rewrite E4 in F4.
      * destruct (Step l' v F4) as (out1' & R1 & R2 & R3 & R4 & R5 & R6 & R7). rewrite R1 in F5. injection F5 as <-.
        destruct (IH N2 l' out1' R2 R3 ltac:(now rewrite R4) ltac:(now rewrite R4)) as (_ & G). destruct (G r F6) as (out' & -> & W & S' & P & Q).
        rewrite R4 in *. exists out'. split; [auto|]. split; [auto|]. split; [auto|]. split.
        -- intros q [<-|Hq]; [|auto]. exists v. split; [|auto]. rewrite Q; auto.
        -- intros q Hq Nq. rewrite Q; auto; [apply R7; auto; intros ->; apply Nq; now left|]. intros I. apply Nq. now right.
      * destruct (Oc l' UB F4) as (_ & v & C & _). discriminate.
      * destruct (Step l' v F4) as (out1' & R1 & _). congruence.
Qed.

Lemma filter_to region out ext : (forall p q, InBox region p -> InBox (mkBox f b) q -> ext (vplus p q) = Ok (X (vplus p q))) -> Nonempty region -> (forall p, InBox region p -> InDomain (rshape out) p) ->
  WF out -> length (rshape out) = length f ->
  exists enough, forall fuel, (enough <= fuel)%nat ->
  (exists r, filterApplyTo fuel n window region ext out r) /\
  forall r, filterApplyTo fuel n window region ext out r ->
    exists out', r = Ok out' /\ WF out' /\ rshape out' = rshape out /\
      (forall p, InBox region p -> exists v, rget n out' p = Ok v /\ WindowMedian f b X p v) /\
      (forall p, InDomain (rshape out) p -> ~ InBox region p -> rget n out' p = rget n out p).
Proof.
  intros Hext Hn Hd Hwf Lo. destruct region as [xf xb]. apply Nonempty_iff in Hn. cbn [bfront bback] in Hn.
  assert (Hxf : xf <> []).
  { assert (H := Hd xf ltac:(now apply NonEmpty_front)). apply InDomain_length in H. intros ->. cbn in H. destruct f; [congruence|]. cbn in Lo. lia. }
  exists (S (Nat.max (length (positions f b)) (length (positions xf xb)))). intros fuel Hfuel.
  assert (Eb : boxForeach fuel (mkBox xf xb) = Some (Ok (positions xf xb))) by (apply boxForeach_positions; auto; lia).
  assert (Ls : Z.of_nat (length (repeat 0%Q (Z.to_nat (boxSize window)))) = windowSize f b).
  { rewrite repeat_length. unfold window. rewrite boxSize_window by auto. unfold windowSize. assert (P := prod_pos _ (wshape_positive f b Hfb)). lia. }
  destruct (filter_loop fuel ext (positions xf xb) ltac:(intros p q Ip Iq; apply Hext; now apply In_positions) ltac:(lia) (positions_NoDup xf xb) _ out Ls Hwf Lo) as ((r & Hr) & G).
  { apply Forall_forall. intros p Hp. apply Hd. now apply In_positions. }
  split; [exists r; econstructor; eauto|]. intros r' H. inversion H as [ps r0 E1 E2]; subst. rewrite Eb in E1. injection E1 as <-.
  destruct (G r' E2) as (out' & -> & W & S' & P & Q). exists out'. split; [auto|]. split; [auto|]. split; [auto|]. split.
  - intros p Hp. apply P. now apply In_positions.
  - intros p Hp Np. apply Q; auto. now rewrite In_positions.
Qed.

(** Some neighbor cannot be read *)
Lemma mapRes_dichotomy {A B} (g : A -> res B) (h : A -> B) l : (forall a, In a l -> g a = Ok (h a) \/ g a = UB) ->
  (forall a, In a l -> g a = Ok (h a)) \/ mapRes g l = UB.
Proof.
  induction l as [|a l IH]; intros H; [left; intros a []|]. destruct (H a ltac:(now left)) as [E|E]; [|right; cbn [mapRes]; now rewrite E].
  destruct IH as [I|I]; [intros; apply H; now right| |].
  - left. intros c [<-|Hc]; auto.
  - right. cbn [mapRes]. rewrite E. cbn [bind]. now rewrite I.
Qed.

Lemma filter_loop_ub fuel ext ps : (forall p q, In p ps -> In q (positions f b) -> ext (vplus p q) = Ok (X (vplus p q)) \/ ext (vplus p q) = UB) ->
  (exists p q, In p ps /\ In q (positions f b) /\ ext (vplus p q) = UB) -> (length (positions f b) < fuel)%nat ->
  forall buffer out, Z.of_nat (length buffer) = windowSize f b -> WF out -> length (rshape out) = length f -> Forall (InDomain (rshape out)) ps ->
  (exists r, filterLoop fuel n window ext ps buffer out r) /\ forall r, filterLoop fuel n window ext ps buffer out r -> r = UB.
Proof.
  intros Hext Hub Hf. induction ps as [|p ps IH]; intros buffer out Lb Hwf Lo Hd; [destruct Hub as (p & _ & [] & _)|].
  inversion Hd as [|? ? Hp Hps]; subst. assert (Lp := InDomain_length _ _ Hp).
  destruct (filter_pixel fuel p buffer ltac:(lia) Lb Hf) as (qs & xs & E1 & Eq & E2 & E3 & E4).
  destruct (mapRes_dichotomy ext X qs) as [A|A].
  { intros q Hq. rewrite Eq in Hq. apply in_map_iff in Hq as (w & <- & Hw). rewrite vadd_comm, <- vplus_vadd. apply Hext; [now left|auto]. }
  - assert (A' : forall q, In q (positions f b) -> ext (vplus p q) = Ok (X (vplus p q))).
    { intros q Hq. apply A. rewrite Eq. apply in_map_iff. exists q. split; [|auto]. now rewrite vplus_vadd, vadd_comm. }
    specialize (E2 ext A').
    set (l := map (fun q => X (vplus p q)) (positions f b)) in *.
    assert (Ll : Z.of_nat (length l) = windowSize f b) by (unfold l; rewrite map_length; apply (positions_count f b Hfb)).
    destruct (Sorting_exists' l) as (s & Hs). assert (Oc := fun l' r => filter_odd l s l' r Hs ltac:(now rewrite Ll)).
    assert (Hub' : exists p0 q, In p0 ps /\ In q (positions f b) /\ ext (vplus p0 q) = UB).
    { destruct Hub as (p0 & q & [<-|I] & Iq & E); [rewrite A' in E by auto; discriminate|eauto]. }
    specialize (IH (fun p' q I => Hext p' q (or_intror I)) Hub').
    assert (Step : forall l' v, filterMedian l l' (Ok v) -> exists out1, rset n out p v = Ok out1 /\
      Z.of_nat (length l') = windowSize f b /\ WF out1 /\ rshape out1 = rshape out).
    { intros l' v Hm. destruct (Oc l' (Ok v) Hm) as (Pl & _).
      destruct (rset_domain n out p v Hwf Hp) as (out1 & R1 & R2 & R3 & R4 & R5). exists out1. split; [auto|].
      split; [rewrite <- (Permutation_length Pl); auto|auto]. }
    split.
    + destruct (filter_possible l) as (l' & r1 & Hm); [intros E; rewrite E in Ll; cbn in Ll; rewrite <- Ll in Hodd; discriminate|].
      destruct (Oc l' r1 Hm) as (_ & v & -> & _). destruct (Step l' v Hm) as (out1 & R1 & R2 & R3 & R4).
      destruct (IH l' out1 R2 R3 ltac:(now rewrite R4) ltac:(now rewrite R4)) as ((r & Hr) & _).
      exists r. eapply filter_step; eauto; [lia|]. now rewrite E4.
    + intros r H. inversion H as [|? ? ? ? qs' xs' l' v out1 r' F1 F2 F3 F4 F5 F6|? ? ? ? ? F1 F2|? ? ? ? ? ? F1 F2 F3|? ? ? ? ? ? l' F1 F2 F3 F4|? ? ? ? ? ? l' v F1 F2 F3 F4 F5]; subst; auto.
      rewrite E1 in F1; injection F1 as <-; rewrite E2 in F2; injection F2 as <-; rewrite E4 in F4.
      destruct (Step l' v F4) as (out1' & R1 & R2 & R3 & R4). rewrite R1 in F5. injection F5 as <-.
      destruct (IH l' out1' R2 R3 ltac:(now rewrite R4) ltac:(now rewrite R4)) as (_ & G). now apply G.
  - split; [exists UB; eapply filter_read; eauto|]. intros r H.
    inversion H as [|? ? ? ? qs' xs' l' v out1 r' F1 F2 F3 F4 F5 F6|? ? ? ? ? F1 F2|? ? ? ? ? ? F1 F2 F3|? ? ? ? ? ? l' F1 F2 F3 F4|? ? ? ? ? ? l' v F1 F2 F3 F4 F5]; subst; auto.
    rewrite E1 in F1; injection F1 as <-. congruence.
Qed.

Lemma filter_outside region out ext : (forall p q, InBox region p -> InBox (mkBox f b) q -> ext (vplus p q) = Ok (X (vplus p q)) \/ ext (vplus p q) = UB) ->
  (exists p q, InBox region p /\ InBox (mkBox f b) q /\ ext (vplus p q) = UB) -> (forall p, InBox region p -> InDomain (rshape out) p) ->
  WF out -> length (rshape out) = length f ->
  exists enough, forall fuel, (enough <= fuel)%nat ->
  (exists r, filterApplyTo fuel n window region ext out r) /\ forall r, filterApplyTo fuel n window region ext out r -> r = UB.
Proof.
  intros Hext Hub Hd Hwf Lo. destruct region as [xf xb]. 
  assert (Hn : NonEmpty xf xb) by (apply (Nonempty_iff (mkBox xf xb)); destruct Hub as (p & _ & I & _); exists p; exact I).
  assert (Hxf : xf <> []).
  { assert (H := Hd xf ltac:(now apply NonEmpty_front)). apply InDomain_length in H. intros ->. cbn in H. destruct f; [congruence|]. cbn in Lo. lia. }
  exists (S (Nat.max (length (positions f b)) (length (positions xf xb)))). intros fuel Hfuel.
  assert (Eb : boxForeach fuel (mkBox xf xb) = Some (Ok (positions xf xb))) by (apply boxForeach_positions; auto; lia).
  assert (Ls : Z.of_nat (length (repeat 0%Q (Z.to_nat (boxSize window)))) = windowSize f b).
  { rewrite repeat_length. unfold window. rewrite boxSize_window by auto. unfold windowSize. assert (P := prod_pos _ (wshape_positive f b Hfb)). lia. }
  destruct (filter_loop_ub fuel ext (positions xf xb)) with (buffer := repeat 0%Q (Z.to_nat (boxSize window))) (out := out) as ((r & Hr) & G); auto; try lia.
  - intros p q Ip Iq. apply Hext; now apply In_positions.
  - destruct Hub as (p & q & Ip & Iq & E). exists p, q. split; [now apply In_positions|]. split; [now apply In_positions|auto].
  - apply Forall_forall. intros p Hp. apply Hd. now apply In_positions.
  - split; [exists r; econstructor; eauto|]. intros r' H. inversion H as [ps r0 E1 E2]; subst. rewrite Eb in E1. injection E1 as <-. now apply G.
Qed.
End Filter.

Lemma filter_raster n f b region (r out : raster Q) : f <> [] -> NonEmpty f b -> windowSize f b mod 2 = 1 -> Nonempty region -> WF r -> WF out ->
  length (rshape out) = length f -> (forall p, InBox region p -> InDomain (rshape out) p) ->
  (forall p q, InBox region p -> InBox (mkBox f b) q -> InDomain (rshape r) (neighbor p q)) ->
  exists X, (forall q, InDomain (rshape r) q -> rget n r q = Ok (X q)) /\
  exists enough, forall fuel, (enough <= fuel)%nat ->
  (exists r', filterApplyTo fuel n (mkBox f b) region (rget n r) out r') /\
  forall r', filterApplyTo fuel n (mkBox f b) region (rget n r) out r' ->
    exists out', r' = Ok out' /\ WF out' /\ rshape out' = rshape out /\
      (forall p, InBox region p -> exists v, rget n out' p = Ok v /\ WindowMedian f b X p v) /\
      (forall p, InDomain (rshape out) p -> ~ InBox region p -> rget n out' p = rget n out p).
Proof.
  intros Hne Hfb Ho Hn Wr Wo Lo Hd Hin. exists (fun q => match rget n r q with Ok v => v | _ => 0%Q end).
  assert (G : forall q, InDomain (rshape r) q -> rget n r q = Ok (match rget n r q with Ok v => v | _ => 0%Q end)).
  { intros q Hq. destruct (rget_domain n r q Wr Hq) as (v & E & _). now rewrite E. }
  split; [exact G|]. apply filter_to; auto. intros p q Ip Iq. apply G. now apply Hin.
Qed.

Lemma filter_all_spec n shape f b X ext : n = Z.of_nat (length shape) -> shape <> [] -> Positive shape -> length f = length shape -> NonEmpty f b ->
  windowSize f b mod 2 = 1 -> (forall q, length q = length shape -> ext q = Ok (X q)) ->
  exists enough, forall fuel, (enough <= fuel)%nat ->
  (exists r, filterApply fuel n (mkBox f b) shape ext r) /\
  forall r, filterApply fuel n (mkBox f b) shape ext r ->
    exists out, r = Ok out /\ WF out /\ rshape out = shape /\
      forall p, InDomain shape p -> exists v, rget n out p = Ok v /\ WindowMedian f b X p v.
Proof.
  intros Hn Hs Hp Hl Hfb Ho Hext. assert (Hne : f <> []) by (destruct f; [destruct shape; [congruence|discriminate]|discriminate]).
  assert (Lb : length b = length shape) by (rewrite <- Hl; symmetry; now apply Forall2_len in Hfb).
  destruct (inner_box n shape f b Hn Hl Lb) as (I1 & _ & _). assert (Pp := prod_pos _ Hp).
  set (out0 := mkRaster shape (repeat 0%Q (Z.to_nat (shapeSize shape)))).
  assert (W0 : WF out0).
  { split; [auto|]. split; cbn [rshape rdata out0]; [eapply Forall_impl; [|exact Hp]; cbn; intros; lia|]. rewrite repeat_length, shapeSize_prod by auto. lia. }
  destruct (filter_to n f b X Hne Hfb Ho (fromShape (repeat 0 (length shape)) shape) out0 ext) as (e & H); auto.
  - intros p q Ip Iq. apply Hext. apply InBox_domain, InDomain_length in Ip. apply Between_length in Iq. cbn [bfront] in Iq. rewrite vplus_vadd. unfold vadd. rewrite map2_length; lia.
  - exists (repeat 0 (length shape)). apply InBox_domain. now apply domain_zero.
  - intros p Hb. now apply InBox_domain.
  - exists e. intros fuel Hf. destruct (H fuel Hf) as ((r & Hr) & G). split; [exists r; econstructor; eauto|].
    intros r' Hr'. inversion Hr' as [d r0 E1 E2]; subst. rewrite I1 in E1. injection E1 as <-. destruct (G r' E2) as (out & -> & W & S' & P & _).
    exists out. split; [auto|]. split; [auto|]. split; [auto|]. intros p Hd. apply P. now apply InBox_domain.
Qed.

Lemma filterWindow_odd n radius : 0 < n -> 0 <= radius ->
  filterWindow n radius = mkBox (repeat (- radius) (Z.to_nat n)) (repeat radius (Z.to_nat n)) /\
  NonEmpty (repeat (- radius) (Z.to_nat n)) (repeat radius (Z.to_nat n)) /\
  windowSize (repeat (- radius) (Z.to_nat n)) (repeat radius (Z.to_nat n)) mod 2 = 1.
Proof.
  intros Hn Hr. split; [|split].
  - unfold filterWindow, fromCenter, vzero, tplDim, vsubs, vadds. replace (Z.abs n) with n by lia. f_equal; induction (Z.to_nat n); cbn [repeat map]; f_equal; auto; lia.
  - induction (Z.to_nat n); cbn [repeat]; constructor; auto. lia.
  - unfold windowSize. induction (Z.to_nat n) as [|m IH]; [reflexivity|]. cbn [repeat combine map fst snd]. rewrite prod_cons.
    rewrite Z.mul_mod, IH by lia. replace ((radius - - radius + 1) mod 2) with 1; [reflexivity|]. replace (radius - - radius + 1) with (1 + radius * 2) by lia. now rewrite Z.mod_add by lia.
Qed.
