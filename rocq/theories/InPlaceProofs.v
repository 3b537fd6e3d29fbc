(** Filters in place. *)
From Coq Require Import Permutation Sorted.
From Verif Require Import Res VecModel TypesModel BoxModel RasterModel SamplingModel DistModel LineKernelModel MedianModel InterpModel
  InPlaceModel Spec BoxSpec RasterSpec KernelSpec DistSpec MedianSpec InterpSpec InPlaceSpec
  Lemmas ContainerProofs IndexProofs BoxIterProofs BoxGeomProofs AccessProofs SamplingProofs DistProofs SeparableProofs ComposeProofs
  KernelProofs MedianProofs InterpProofs.

Section Self.
Variables (n : Z) (f b : list Z) (view : raster Q -> list Z -> res Q) (shape : list Z).
Hypothesis Hne : f <> [].
Hypothesis Hfb : NonEmpty f b.
Hypothesis Hodd : windowSize f b mod 2 = 1.

Definition seen (s : raster Q) (q : list Z) : Q := match view s q with Ok v => v | _ => 0%Q end.

Lemma self_loop fuel ps :
  (forall r p q, WF r -> rshape r = shape -> In p ps -> In q (positions f b) -> exists v, view r (vplus p q) = Ok v) ->
  (length (positions f b) < fuel)%nat -> NoDup ps -> length shape = length f -> Forall (InDomain shape) ps ->
  forall buffer cur, Z.of_nat (length buffer) = windowSize f b -> WF cur -> rshape cur = shape ->
  (exists r, selfLoop fuel n (mkBox f b) view ps buffer cur r) /\
  forall r, selfLoop fuel n (mkBox f b) view ps buffer cur r ->
    exists out, r = Ok out /\ WF out /\ rshape out = shape /\
      (forall p, InDomain shape p -> ~ In p ps -> rget n out p = rget n cur p) /\
      (forall ps1 p ps2, ps = ps1 ++ p :: ps2 -> exists s v, WF s /\ rshape s = shape /\
        (forall y, In y ps1 -> rget n s y = rget n out y) /\
        (forall y, InDomain shape y -> ~ In y ps1 -> rget n s y = rget n cur y) /\
        rget n out p = Ok v /\ WindowMedian f b (seen s) p v).
Proof.
  intros Hv Hf. induction ps as [|p ps IH]; intros Hnd Lo Hd buffer cur Lb Hwf Hs; [clear Hv|specialize (IH (fun r p' q W S' I => Hv r p' q W S' (or_intror I)))].
  - split; [eexists; constructor|]. intros r H. inversion H; subst. exists cur. split; [auto|]. split; [auto|]. split; [auto|]. split; [auto|].
    intros ps1 p ps2 E. destruct ps1; discriminate.
  - inversion Hnd as [|? ? N1 N2]; subst. inversion Hd as [|? ? Hp Hps]; subst. assert (Lp := InDomain_length _ _ Hp).
    destruct (filter_pixel f b (seen cur) Hne Hfb Hodd fuel p buffer ltac:(lia) Lb Hf) as (qs & xs & E1 & _ & E2 & E3 & E4).
    specialize (E2 (view cur)).
    assert (V : forall q, In q (positions f b) -> view cur (vplus p q) = Ok (seen cur (vplus p q))).
    { intros q Hq. destruct (Hv cur p q Hwf eq_refl (or_introl eq_refl) Hq) as (v & E). unfold seen. now rewrite E. }
    specialize (E2 V).
    set (l := map (fun q => seen cur (vplus p q)) (positions f b)) in *.
    assert (Ll : Z.of_nat (length l) = windowSize f b) by (unfold l; rewrite map_length; apply (positions_count f b Hfb)).
    destruct (Sorting_exists' l) as (s & Hs). assert (Oc := fun l' r => filter_odd l s l' r Hs ltac:(now rewrite Ll)).
    assert (Step : forall l' v, filterMedian l l' (Ok v) -> exists out1, rset n cur p v = Ok out1 /\
      Z.of_nat (length l') = windowSize f b /\ WF out1 /\ rshape out1 = rshape cur /\ rget n out1 p = Ok v /\ WindowMedian f b (seen cur) p v /\
      (forall q, InDomain (rshape cur) q -> q <> p -> rget n out1 q = rget n cur q)).
    { intros l' v Hm. destruct (Oc l' (Ok v) Hm) as (Pl & v' & Ev & M). injection Ev as <-.
      destruct (rset_domain n cur p v Hwf Hp) as (out1 & R1 & R2 & R3 & R4 & R5). exists out1. split; [auto|].
      split; [rewrite <- (Permutation_length Pl); auto|]. split; [auto|]. split; [auto|]. split; [auto|]. split; [exists s; auto|auto]. }
    split.
    + destruct (filter_possible l) as (l' & r1 & Hm); [intros E; rewrite E in Ll; cbn in Ll; rewrite <- Ll in Hodd; discriminate|].
      destruct (Oc l' r1 Hm) as (_ & v & -> & _). destruct (Step l' v Hm) as (out1 & R1 & R2 & R3 & R4 & R5 & R6 & R7).
      destruct (IH N2 Lo Hps l' out1 R2 R3 R4) as ((r & Hr) & _).
      exists r. eapply self_step; eauto; [lia|]. now rewrite E4.
    + intros r H. inversion H as [|? ? ? ? qs' xs' l' v out1 r' F1 F2 F3 F4 F5 F6|? ? ? ? ? F1 F2|? ? ? ? ? ? F1 F2 F3|? ? ? ? ? ? l' F1 F2 F3 F4|? ? ? ? ? ? l' v F1 F2 F3 F4 F5]; subst;
        rewrite E1 in F1; injection F1 as <-; rewrite E2 in F2; try discriminate; injection F2 as <-; try (exfalso; lia); rewrite E4 in F4.
      * destruct (Step l' v F4) as (out1' & R1 & R2 & R3 & R4 & R5 & R6 & R7). rewrite R1 in F5. injection F5 as <-.
        destruct (IH N2 Lo Hps l' out1' R2 R3 R4) as (_ & G). destruct (G r F6) as (out' & -> & W & S' & Q & P).
        exists out'. split; [auto|]. split; [auto|]. split; [auto|]. split.
        -- intros q Hq Nq. rewrite Q; auto; [apply R7; auto; intros ->; apply Nq; now left|]. intros I. apply Nq. now right.
        -- intros [|p1 ps1] p' ps2 E; cbn [app] in E; injection E as <- E.
           ++ subst ps2. exists cur, v. split; [auto|]. split; [auto|]. split; [intros y []|]. split; [auto|]. split; [|auto].
              rewrite Q; auto.
           ++ destruct (P ps1 p' ps2 E) as (s' & v' & W1 & W2 & W3 & W4 & W5 & W6). exists s', v'. split; [auto|]. split; [auto|].
              assert (Np : ~ In p ps1) by (intros I; apply N1; rewrite E; apply in_or_app; now left).
              split; [|split; [|auto]].
              ** intros y [<-|Iy]; [|auto]. rewrite W4 by auto. rewrite Q by auto. reflexivity.
              ** intros y Dy Ny. rewrite W4; [|auto|intros I; apply Ny; now right]. apply R7; [auto|]. intros ->. apply Ny. now left.
      * destruct (Oc l' UB F4) as (_ & v & C & _). discriminate.
      * destruct (Step l' v F4) as (out1' & R1 & _). congruence.
Qed.
End Self.

Lemma sorted_split {A} (R : A -> A -> Prop) l1 p l2 :
  StronglySorted R (l1 ++ p :: l2) -> (forall y, In y l1 -> R y p) /\ (forall y, In y l2 -> R p y).
Proof.
  induction l1 as [|x l1 IH]; cbn [app]; intros H; apply StronglySorted_inv in H as [H1 H2].
  - split; [intros y []|]. now apply Forall_forall.
  - destruct (IH H1) as [I1 I2]. split; [|auto]. intros y [<-|Hy]; [|auto]. rewrite Forall_forall in H2. apply H2.
    apply in_or_app. right. now left.
Qed.

Lemma lexLt_irrefl p : ~ lexLt p p.
Proof. induction p as [|x p IH]; cbn; [tauto|]. intros [H|[_ H]]; [auto|lia]. Qed.

Lemma lexLt_asym p : forall q, lexLt p q -> ~ lexLt q p.
Proof.
  induction p as [|x p IH]; intros [|y q]; cbn; try tauto. intros [H|[-> H]] [K|[E K]].
  - now apply (IH q).
  - subst. now apply lexLt_irrefl in H.
  - now apply lexLt_irrefl in K.
  - lia.
Qed.

(** The recursion. *)
Lemma self_recursive n f b view region r :
  f <> [] -> Forall2 Z.le f b -> windowSize f b mod 2 = 1 -> Nonempty region ->
  (forall p, InBox region p -> InDomain (rshape r) p) -> WF r -> length (rshape r) = length f ->
  (forall s p q, WF s -> rshape s = rshape r -> InBox region p -> InBox (mkBox f b) q -> exists v, view s (neighbor p q) = Ok v) ->
  exists enough, forall fuel, (enough <= fuel)%nat ->
  (exists o, selfApplyTo fuel n (mkBox f b) region view r o) /\
  forall o, selfApplyTo fuel n (mkBox f b) region view r o ->
    exists out, o = Ok out /\ WF out /\ rshape out = rshape r /\
      (forall p, InDomain (rshape r) p -> ~ InBox region p -> rget n out p = rget n r p) /\
      (forall p, InBox region p -> exists s v X, Halfway n region p r out s /\
        (forall q, InBox (mkBox f b) q -> view s (neighbor p q) = Ok (X (neighbor p q))) /\
        rget n out p = Ok v /\ WindowMedian f b X p v).
Proof.
  intros Hne Hfb Hodd Hn Hd Hwf Lo Hv. destruct region as [xf xb]. apply Nonempty_iff in Hn. cbn [bfront bback] in Hn.
  assert (Hxf : xf <> []).
  { assert (H := Hd xf ltac:(now apply NonEmpty_front)). apply InDomain_length in H. intros ->. cbn in H. destruct f; [congruence|]. cbn in Lo. lia. }
  exists (S (Nat.max (length (positions f b)) (length (positions xf xb)))). intros fuel Hfuel.
  assert (Eb : boxForeach fuel (mkBox xf xb) = Some (Ok (positions xf xb))) by (apply boxForeach_positions; auto; lia).
  assert (Ls : Z.of_nat (length (repeat 0%Q (Z.to_nat (boxSize (mkBox f b))))) = windowSize f b).
  { rewrite repeat_length. rewrite boxSize_window by auto. unfold windowSize. assert (P := prod_pos _ (wshape_positive f b Hfb)). lia. }
  destruct (self_loop n f b view (rshape r) Hne Hfb Hodd fuel (positions xf xb)) with (buffer := repeat 0%Q (Z.to_nat (boxSize (mkBox f b)))) (cur := r)
    as ((o & Ho) & G); auto; try lia.
  - intros s p q W S' Ip Iq. apply Hv; auto; now apply In_positions.
  - apply positions_NoDup.
  - apply Forall_forall. intros p Hp. apply Hd. now apply In_positions.
  - split; [exists o; econstructor; eauto|]. intros o' H. inversion H as [ps o0 E1 E2]; subst. rewrite Eb in E1. injection E1 as <-.
    destruct (G o' E2) as (out & -> & W & S' & Q & P). exists out. split; [auto|]. split; [auto|]. split; [auto|]. split.
    + intros p Hp Np. apply Q; auto. now rewrite In_positions.
    + intros p Hp. assert (I : In p (positions xf xb)) by now apply In_positions.
      destruct (in_split _ _ I) as (ps1 & ps2 & E). destruct (P ps1 p ps2 E) as (s & v & W1 & W2 & W3 & W4 & W5 & W6).
      assert (Srt := positions_sorted xf xb). rewrite E in Srt. destruct (sorted_split _ _ _ _ Srt) as [B A].
      assert (Iff : forall y, InBox (mkBox xf xb) y /\ lexLt y p <-> In y ps1).
      { intros y. split.
        - intros [Iy Ly]. assert (J : In y (positions xf xb)) by now apply In_positions. rewrite E in J. apply in_app_or in J as [J|[<-|J]]; [auto| |].
          + exfalso. now apply (lexLt_irrefl p).
          + exfalso. apply (lexLt_asym _ _ Ly). now apply A.
        - intros Iy. split; [|now apply B]. assert (J : In y (positions xf xb)) by (rewrite E; apply in_or_app; now left). now apply In_positions in J. }
      exists s, v, (seen view s). split; [|split; [|auto]].
      * split; [auto|]. split; [auto|]. intros y Dy. rewrite Iff. split; auto.
      * intros q Hq. destruct (Hv s p q W1 W2 Hp Hq) as (x & Ex). unfold seen. now rewrite Ex.
Qed.

(** Nothing which was already filtered is read. *)
Lemma self_right n f b view region r X :
  f <> [] -> Forall2 Z.le f b -> windowSize f b mod 2 = 1 -> Nonempty region ->
  (forall p, InBox region p -> InDomain (rshape r) p) -> WF r -> length (rshape r) = length f ->
  (forall s p q, WF s -> rshape s = rshape r -> InBox region p -> InBox (mkBox f b) q -> exists v, view s (neighbor p q) = Ok v) ->
  (forall p q, InBox region p -> InBox (mkBox f b) q -> view r (neighbor p q) = Ok (X (neighbor p q))) ->
  (forall s p q, WF s -> rshape s = rshape r -> InBox region p -> InBox (mkBox f b) q ->
     (forall y, InDomain (rshape r) y -> ~ (InBox region y /\ lexLt y p) -> rget n s y = rget n r y) ->
     view s (neighbor p q) = view r (neighbor p q)) ->
  exists enough, forall fuel, (enough <= fuel)%nat ->
  (exists o, selfApplyTo fuel n (mkBox f b) region view r o) /\
  forall o, selfApplyTo fuel n (mkBox f b) region view r o ->
    exists out, o = Ok out /\ WF out /\ rshape out = rshape r /\
      (forall p, InBox region p -> exists v, rget n out p = Ok v /\ WindowMedian f b X p v) /\
      (forall p, InDomain (rshape r) p -> ~ InBox region p -> rget n out p = rget n r p).
Proof.
  intros Hne Hfb Hodd Hn Hd Hwf Lo Hv HX Hs.
  destruct (self_recursive n f b view region r Hne Hfb Hodd Hn Hd Hwf Lo Hv) as (enough & G). exists enough. intros fuel Hf.
  destruct (G fuel Hf) as (Ex & G'). split; [exact Ex|]. intros o Ho. destruct (G' o Ho) as (out & -> & W & S' & Q & P).
  exists out. split; [auto|]. split; [auto|]. split; [auto|]. split; [|auto]. intros p Hp.
  destruct (P p Hp) as (s & v & Y & (H1 & H2 & H3) & V & E & (srt & M1 & M2)). exists v. split; [auto|]. exists srt. split; [|auto].
  replace (map (fun q => X (neighbor p q)) (positions f b)) with (map (fun q => Y (neighbor p q)) (positions f b)); [auto|].
  apply map_ext_in. intros q Iq. apply In_positions in Iq.
  assert (E2 : view s (neighbor p q) = view r (neighbor p q)) by (apply Hs; auto; intros y Dy Ny; apply H3; auto).
  rewrite V, HX in E2 by auto. congruence.
Qed.

(** A window without negative offset *)
Lemma ahead p : forall q y, Forall (fun x => 0 <= x) q -> length p = length q -> Forall2 Z.le p y -> ~ lexLt y p.
Proof.
  induction p as [|x p IH]; intros [|z q] y Hq L H; inversion H as [|? a ? y' Ha Hy]; subst; cbn in *; try discriminate; [tauto|].
  inversion Hq as [|? ? Hz Hq']; subst. intros [K|[-> K]]; [|lia]. apply (IH q y'); auto.
Qed.

Lemma neighbor_ge p : forall q, Forall (fun x => 0 <= x) q -> length p = length q -> Forall2 Z.le p (neighbor p q).
Proof.
  induction p as [|x p IH]; intros [|z q] Hq L; cbn in *; try discriminate; constructor.
  - inversion Hq; subst. cbn. lia.
  - apply IH; [now inversion Hq|lia].
Qed.

Lemma clamp_ge shape : forall p y, InDomain shape p -> Forall2 Z.le p y -> Forall2 Z.le p (vclamp y shape).
Proof.
  induction shape as [|s shape IH]; intros p y D H; inversion D as [|? x ? p' Hx D']; subst; inversion H as [|? a ? y' Ha Hy]; subst.
  - constructor.
  - change (vclamp (a :: y') (s :: shape)) with (clampZ a 0 (s - 1) :: vclamp y' shape). constructor; [|now apply IH].
    unfold clampZ. destruct (Z.ltb_spec a 0); [lia|]. destruct (Z.ltb_spec (s - 1) a); lia.
Qed.

Lemma window_nonneg f b q : Forall (fun x => 0 <= x) f -> InBox (mkBox f b) q -> Forall (fun x => 0 <= x) q.
Proof.
  intros Hf H. unfold InBox in H. cbn [bfront bback] in H. revert Hf.
  induction H as [|? ? ? ? ? ? Ha Hb IH]; intros Hf; [constructor|]. inversion Hf; subst. constructor; [lia|auto].
Qed.

Lemma box_length f b q : InBox (mkBox f b) q -> length q = length f.
Proof. intros H. apply Between_length in H. cbn in H. lia. Qed.

Lemma self_raster n f b region r :
  f <> [] -> Forall2 Z.le f b -> windowSize f b mod 2 = 1 -> Nonempty region -> WF r -> length (rshape r) = length f ->
  (forall p q, InBox region p -> InBox (mkBox f b) q -> InDomain (rshape r) (neighbor p q)) ->
  (forall p, InBox region p -> InDomain (rshape r) p) -> Forall (fun x => 0 <= x) f ->
  exists X enough, (forall y, InDomain (rshape r) y -> rget n r y = Ok (X y)) /\ forall fuel, (enough <= fuel)%nat ->
  (exists o, selfApplyTo fuel n (mkBox f b) region (fun s => rget n s) r o) /\
  forall o, selfApplyTo fuel n (mkBox f b) region (fun s => rget n s) r o ->
    exists out, o = Ok out /\ WF out /\ rshape out = rshape r /\
      (forall p, InBox region p -> exists v, rget n out p = Ok v /\ WindowMedian f b X p v) /\
      (forall p, InDomain (rshape r) p -> ~ InBox region p -> rget n out p = rget n r p).
Proof.
  intros Hne Hfb Hodd Hn Hwf Lo Hq Hd Hpos. set (X := seen (fun s => rget n s) r).
  assert (HX : forall y, InDomain (rshape r) y -> rget n r y = Ok (X y)).
  { intros y Dy. destruct (rget_domain n r y Hwf Dy) as (a & Ha & _). unfold X, seen. now rewrite Ha. }
  destruct (self_right n f b (fun s => rget n s) region r X Hne Hfb Hodd Hn Hd Hwf Lo) as (enough & G).
  - intros s p q W S' Hp Hq'. destruct (rget_domain n s (neighbor p q) W) as (a & Ha & _); [rewrite S'; auto|eauto].
  - intros p q Hp Hq'. apply HX; auto.
  - intros s p q W S' Hp Hq' A. apply A; [auto|]. intros [_ K].
    assert (Lq := box_length _ _ _ Hq'). assert (Lp := InDomain_length _ _ (Hd p Hp)).
    assert (Pq := window_nonneg _ _ _ Hpos Hq'). revert K. apply (ahead p q); [auto|lia|]. apply neighbor_ge; [auto|lia].
  - exists X, enough. auto.
Qed.

Lemma self_nearest n f b region r :
  f <> [] -> Forall2 Z.le f b -> windowSize f b mod 2 = 1 -> Nonempty region -> WF r -> length (rshape r) = length f -> Positive (rshape r) ->
  (forall p, InBox region p -> InDomain (rshape r) p) -> Forall (fun x => 0 <= x) f ->
  exists X enough, (forall y, length y = length f -> nearestAt n r y = Ok (X y)) /\ forall fuel, (enough <= fuel)%nat ->
  (exists o, selfApplyTo fuel n (mkBox f b) region (nearestAt n) r o) /\
  forall o, selfApplyTo fuel n (mkBox f b) region (nearestAt n) r o ->
    exists out, o = Ok out /\ WF out /\ rshape out = rshape r /\
      (forall p, InBox region p -> exists v, rget n out p = Ok v /\ WindowMedian f b X p v) /\
      (forall p, InDomain (rshape r) p -> ~ InBox region p -> rget n out p = rget n r p).
Proof.
  intros Hne Hfb Hodd Hn Hwf Lo Hsh Hd Hpos. set (X := seen (nearestAt n) r).
  assert (Near : forall (s : raster Q) y, WF s -> rshape s = rshape r -> length y = length f -> InDomain (rshape r) (vclamp y (rshape r)) /\
    nearestAt n s y = rget n s (vclamp y (rshape r)) /\ exists v, nearestAt n s y = Ok v).
  { intros s y W S' Ly. assert (C := clamp_spec y (rshape r) ltac:(lia) Hsh). destruct C as (C & _). split; [auto|]. unfold nearestAt.
    rewrite S'. replace (Nat.eqb (length y) (length (rshape r))) with true by (symmetry; apply Nat.eqb_eq; lia). split; [auto|].
    destruct (rget_domain n s (vclamp y (rshape r)) W) as (a & Ha & _); [now rewrite S'|eauto]. }
  assert (HX : forall y, length y = length f -> nearestAt n r y = Ok (X y)).
  { intros y Ly. destruct (Near r y Hwf eq_refl Ly) as (_ & _ & v & E). unfold X, seen. now rewrite E. }
  assert (Ln : forall p q, InBox region p -> InBox (mkBox f b) q -> length (neighbor p q) = length f).
  { intros p q Hp Hq. assert (Lq := box_length _ _ _ Hq). assert (Lp := InDomain_length _ _ (Hd p Hp)). unfold neighbor.
    rewrite map_length, combine_length. lia. }
  destruct (self_right n f b (nearestAt n) region r X Hne Hfb Hodd Hn Hd Hwf Lo) as (enough & G).
  - intros s p q W S' Hp Hq. apply Near; auto.
  - intros p q Hp Hq. apply HX; auto.
  - intros s p q W S' Hp Hq A. destruct (Near s (neighbor p q) W S' (Ln p q Hp Hq)) as (D & -> & _).
    destruct (Near r (neighbor p q) Hwf eq_refl (Ln p q Hp Hq)) as (_ & -> & _). apply A; [auto|]. intros [_ K].
    assert (Lq := box_length _ _ _ Hq). assert (Lp := InDomain_length _ _ (Hd p Hp)).
    assert (Pq := window_nonneg _ _ _ Hpos Hq). revert K. apply (ahead p q); [auto|lia|]. apply clamp_ge; [now apply Hd|].
    apply neighbor_ge; [auto|lia].
  - exists X, enough. auto.
Qed.

(** Line kernels *)
Lemma inner_ahead n : forall k m1 m2 a b stride acc, 0 < stride -> (forall x, b <= x -> zget m1 x = zget m2 x) ->
  innerLoop n k m1 a b stride acc = innerLoop n k m2 a b stride acc.
Proof.
  induction n as [|n IH]; intros k m1 m2 a b stride acc Hs H; [reflexivity|]. cbn [innerLoop].
  destruct (zget k a); cbn [bind]; auto. rewrite (H b) by lia. destruct (zget m2 b); cbn [bind]; auto. apply IH; [lia|]. intros x Hx. apply H. lia.
Qed.

Lemma loop_ahead cond value valueSelf step stride mem : 0 < step -> 0 < stride ->
  (forall m i it, (forall x, it <= x -> zget m x = zget mem x) -> valueSelf m i it = value i it) ->
  forall fuel s, cout s = cin s -> (forall x, cin s <= x -> zget (cmem s) x = zget mem x) ->
  corrLoopSelf fuel cond valueSelf step stride (step * stride) s = corrLoop fuel cond value step stride (step * stride) s /\
  forall s', corrLoop fuel cond value step stride (step * stride) s = Some (Ok s') ->
    cout s' = cin s' /\ forall x, cin s' <= x -> zget (cmem s') x = zget mem x.
Proof.
  intros H1 H2 Hv. induction fuel as [|fuel IH]; intros s Ec Em; cbn [corrLoop corrLoopSelf]; [split; [reflexivity|discriminate]|].
  destruct (cond (ci s)).
  - rewrite (Hv _ _ _ Em). destruct (value (ci s) (cin s)) as [v|e|]; [|split; [reflexivity|discriminate]|split; [reflexivity|discriminate]].
    destruct (zset (cmem s) (cout s) v) as [m|e|] eqn:Ez; [|split; [reflexivity|discriminate]|split; [reflexivity|discriminate]].
    apply IH; cbn [cin cout cmem]; [lia|]. intros x Hx. assert (0 < step * stride) by nia.
    assert (G : zget m x = zget (cmem s) x) by (eapply zset_get_neq; [exact Ez|lia]). rewrite G. apply Em. lia.
  - split; [reflexivity|]. intros s' E. injection E as <-. auto.
Qed.

Lemma line_self fuel k mem d : lorigin k = 0 -> 0 <= sfront (dSampling d) -> 0 < sstep (dSampling d) -> 0 < dStride d ->
  correlateSelf fuel k mem d = correlate fuel k mem d mem d.
Proof.
  intros Ho Hf Hs Hd. unfold correlateSelf, correlate. rewrite Ho.
  set (begin := dsIter _ 0). assert (Eb : begin = dsIter d 0) by (unfold begin, dsIter, dsMake; cbn; lia). clearbody begin. subst begin.
  set (s0 := mkCstate _ _ _ mem).
  destruct fuel as [|fuel]; [reflexivity|].
  assert (L1 : forall value, corrLoop (S fuel) (fun i => i <? 0) value (sstep (dSampling d)) (dStride d) (sstep (dSampling d) * dStride d) s0 = Some (Ok s0)).
  { intros value. cbn [corrLoop]. unfold s0 at 1. cbn [ci]. destruct (Z.ltb_spec (sfront (dSampling d)) 0); [lia|reflexivity]. }
  assert (L2 : forall value, corrLoopSelf (S fuel) (fun i => i <? 0) value (sstep (dSampling d)) (dStride d) (sstep (dSampling d) * dStride d) s0 = Some (Ok s0)).
  { intros value. cbn [corrLoopSelf]. unfold s0 at 1. cbn [ci]. destruct (Z.ltb_spec (sfront (dSampling d)) 0); [lia|reflexivity]. }
  rewrite L1, L2. cbn [obind].
  set (v2 := fun i it : Z => innerProduct (lvalues k) mem 0 (lsize k) it (dStride d) 0).
  set (w2 := fun (m : list Z) (i it : Z) => innerProduct (lvalues k) m 0 (lsize k) it (dStride d) 0).
  set (v3 := fun i it : Z => innerProduct (lvalues k) mem 0 (0 + (dSize d - i)) it (dStride d) 0).
  set (w3 := fun (m : list Z) (i it : Z) => innerProduct (lvalues k) m 0 (0 + (dSize d - i)) it (dStride d) 0).
  assert (V2 : forall m i it, (forall x, it <= x -> zget m x = zget mem x) -> w2 m i it = v2 i it).
  { intros m i it H. unfold w2, v2, innerProduct. destruct (_ <? _); [reflexivity|]. now apply inner_ahead. }
  assert (V3 : forall m i it, (forall x, it <= x -> zget m x = zget mem x) -> w3 m i it = v3 i it).
  { intros m i it H. unfold w3, v3, innerProduct. destruct (_ <? _); [reflexivity|]. now apply inner_ahead. }
  destruct (loop_ahead (fun i => u64 i <=? u64 (dSize d - u64 (lsize k - 0 - 1) - sstep (dSampling d))) v2 w2 _ _ mem Hs Hd V2 (S fuel) s0) as [E2 I2].
  { unfold s0. cbn [cout cin]. lia. }
  { reflexivity. }
  rewrite E2. destruct (corrLoop (S fuel) _ v2 _ _ _ s0) as [[s1|e|]|]; cbn [obind]; auto.
  destruct (I2 s1 eq_refl) as [J1 J2].
  destruct (loop_ahead (fun i => i <=? sback (dSampling d)) v3 w3 _ _ mem Hs Hd V3 (S fuel) s1 J1 J2) as [E3 _].
  rewrite E3. reflexivity.
Qed.

Lemma line_self_refuted :
  correlate 10 (mkLkernel [1; 1; 1] 1) [1; 2; 3; 4] (mkDsamples 0 4 (mkSampling 0 3 1) 1) [1; 2; 3; 4] (mkDsamples 0 4 (mkSampling 0 3 1) 1)
    = Some (Ok [3; 6; 9; 7]) /\
  correlateSelf 10 (mkLkernel [1; 1; 1] 1) [1; 2; 3; 4] (mkDsamples 0 4 (mkSampling 0 3 1) 1) = Some (Ok [3; 8; 15; 19]).
Proof. split; reflexivity. Qed.

(** A witness for medians *)
Lemma med3 a b c l' v s : filterMedian [a; b; c] l' (Ok v) -> Sorting qltb [a; b; c] s -> In v [a; b; c] /\ length l' = 3%nat /\ Median s v.
Proof.
  intros H Hs. destruct (filter_odd _ _ _ _ Hs eq_refl H) as (P & v' & E & M). injection E as <-.
  split; [|split; [now rewrite <- (Permutation_length P)|exact M]].
  remember (Ok v) as rv eqn:Er. destruct H as [l' n Hm Hn|l1 l2 n Hm|l1 n Hm|Hm]; try (cbn in Hm; discriminate).
  apply (Permutation_in _ (Permutation_sym P)). unfold zget in Er. destruct (n <? 0); [discriminate|].
  destruct (nth_error l' (Z.to_nat n)) as [x|] eqn:E; [|discriminate]. injection Er as <-. now apply nth_error_In in E.
Qed.

Lemma sorting3 a b c s : Permutation [a; b; c] s -> is_sorted qltb s = true -> Sorting qltb [a; b; c] s.
Proof. intros P H. apply (Sorting_iff qltb qltb_swo). split; [auto|now apply (is_sorted_spec qltb)]. Qed.

Lemma median3 a b c v : Median [a; b; c] v -> (v == b)%Q.
Proof. intros (x & y & Hx & Hy & E). cbn in Hx, Hy. injection Hx as <-. injection Hy as <-. rewrite E. field. Qed.

Lemma noisy_met : WF noisy /\ windowSize [0] [2] mod 2 = 1 /\
  forall p q, InBox (mkBox [0] [2]) p -> InBox (mkBox [0] [2]) q -> InDomain (rshape noisy) (neighbor p q).
Proof.
  split; [|split; [reflexivity|]].
  - unfold WF. vm_compute. repeat constructor; discriminate.
  - intros p q Hp Hq. unfold InBox in *. cbn [bfront bback] in *.
    inversion Hp as [|? ? ? ? ? ? A1 A2]; subst. inversion A2; subst. inversion Hq as [|? ? ? ? ? ? B1 B2]; subst. inversion B2; subst.
    cbn. repeat constructor; lia.
Qed.

Lemma noisy_view : WF noisy /\ windowSize [-1] [1] mod 2 = 1 /\
  forall (s : raster Q) p q, WF s -> rshape s = rshape noisy -> InBox (mkBox [1] [3]) p -> InBox (mkBox [-1] [1]) q -> exists v, rget 1 s (neighbor p q) = Ok v.
Proof.
  split; [apply noisy_met|]. split; [reflexivity|]. intros s p q Ws Es Hp Hq. unfold InBox in *. cbn [bfront bback] in *.
  inversion Hp as [|? ? ? ? ? ? A1 A2]; subst. inversion A2; subst. inversion Hq as [|? ? ? ? ? ? B1 B2]; subst. inversion B2; subst.
  destruct (rget_domain 1 s (neighbor [z] [z0])) as (v & E & _); [auto| |eauto]. rewrite Es. cbn. repeat constructor; lia.
Qed.

Ltac qcase H := destruct H as [<-|[<-|[<-|[]]]].

Lemma first_pixel l' v : filterMedian [0; 5; 1]%Q l' (Ok v) -> v = 1%Q /\ length l' = 3%nat.
Proof.
  intros H. destruct (med3 _ _ _ _ _ [0; 1; 5]%Q H) as (I & L & M).
  - apply sorting3; [apply perm_skip, perm_swap|reflexivity].
  - apply median3 in M. split; [|auto]. qcase I; try reflexivity; discriminate M.
Qed.

Lemma second_pixel l' v : filterMedian [1; 1; 6]%Q l' (Ok v) -> v = 1%Q /\ length l' = 3%nat.
Proof.
  intros H. destruct (med3 _ _ _ _ _ [1; 1; 6]%Q H) as (I & L & M).
  - apply sorting3; [apply Permutation_refl|reflexivity].
  - apply median3 in M. split; [|auto]. qcase I; try reflexivity; discriminate M.
Qed.

Lemma second_pixel_apart l' v : filterMedian [5; 1; 6]%Q l' (Ok v) -> v = 5%Q /\ length l' = 3%nat.
Proof.
  intros H. destruct (med3 _ _ _ _ _ [1; 5; 6]%Q H) as (I & L & M).
  - apply sorting3; [apply perm_swap|reflexivity].
  - apply median3 in M. split; [|auto]. qcase I; try reflexivity; discriminate M.
Qed.

Lemma no_ub3 a b c l' : filterMedian [a; b; c] l' UB -> False.
Proof.
  intros H. destruct (Sorting_exists' [a; b; c]) as (s & Hs). destruct (filter_odd _ _ _ _ Hs eq_refl H) as (_ & v & E & _). discriminate.
Qed.

Ltac step H F1 F2 F3 F4 F5 F6 :=
  inversion H as [|? ? ? ? ? ? ? ? ? ? F1 F2 F3 F4 F5 F6|? ? ? ? ? F1 F2|? ? ? ? ? ? F1 F2 F3|? ? ? ? ? ? ? F1 F2 F3 F4|? ? ? ? ? ? ? ? F1 F2 F3 F4 F5]; subst;
  vm_compute in F1; injection F1 as <-; vm_compute in F2; try discriminate F2; injection F2 as <-.

Lemma app_skip {A} (l b : list A) : length b = length l -> l ++ skipn (length l) b = l.
Proof. intros H. rewrite skipn_all2 by lia. apply app_nil_r. Qed.

Lemma in_place_differs :
  (forall o, selfApplyTo 9 1 (mkBox [-1] [1]) (mkBox [1] [2]) (fun s => rget 1 s) noisy o ->
     o = Ok (mkRaster [5] [0; 1; 1; 6; 0]%Q)) /\
  (forall o, filterApplyTo 9 1 (mkBox [-1] [1]) (mkBox [1] [2]) (rget 1 noisy) noisy o ->
     o = Ok (mkRaster [5] [0; 1; 5; 6; 0]%Q)) /\
  (exists o, selfApplyTo 9 1 (mkBox [-1] [1]) (mkBox [1] [2]) (fun s => rget 1 s) noisy o).
Proof.
  split; [|split].
  - intros o H. inversion H as [ps r E1 E2]; subst. vm_compute in E1. injection E1 as <-.
    change (repeat 0%Q _) with [0; 0; 0]%Q in E2.
    step E2 F1 F2 F3 F4 F5 F6.
    + rewrite app_skip in F4 by reflexivity. destruct (first_pixel _ _ F4) as [-> L1]. vm_compute in F5. injection F5 as <-.
      step F6 G1 G2 G3 G4 G5 G6.
      * rewrite app_skip in G4 by (rewrite L1; reflexivity). destruct (second_pixel _ _ G4) as [-> _]. vm_compute in G5. injection G5 as <-.
        inversion G6; subst. reflexivity.
      * rewrite L1 in G3. cbn in G3. exfalso. lia.
      * rewrite app_skip in G4 by (rewrite L1; reflexivity). now apply no_ub3 in G4.
      * rewrite app_skip in G4 by (rewrite L1; reflexivity). destruct (second_pixel _ _ G4) as [-> _]. vm_compute in G5. discriminate.
    + cbn in F3. exfalso. lia.
    + rewrite app_skip in F4 by reflexivity. now apply no_ub3 in F4.
    + rewrite app_skip in F4 by reflexivity. destruct (first_pixel _ _ F4) as [-> L1]. vm_compute in F5. discriminate.
  - intros o H. inversion H as [ps r E1 E2]; subst. vm_compute in E1. injection E1 as <-.
    change (repeat 0%Q _) with [0; 0; 0]%Q in E2.
    step E2 F1 F2 F3 F4 F5 F6.
    + rewrite app_skip in F4 by reflexivity. destruct (first_pixel _ _ F4) as [-> L1]. vm_compute in F5. injection F5 as <-.
      step F6 G1 G2 G3 G4 G5 G6.
      * rewrite app_skip in G4 by (rewrite L1; reflexivity). destruct (second_pixel_apart _ _ G4) as [-> _]. vm_compute in G5. injection G5 as <-.
        inversion G6; subst. reflexivity.
      * rewrite L1 in G3. cbn in G3. exfalso. lia.
      * rewrite app_skip in G4 by (rewrite L1; reflexivity). now apply no_ub3 in G4.
      * rewrite app_skip in G4 by (rewrite L1; reflexivity). destruct (second_pixel_apart _ _ G4) as [-> _]. vm_compute in G5. discriminate.
    + cbn in F3. exfalso. lia.
    + rewrite app_skip in F4 by reflexivity. now apply no_ub3 in F4.
    + rewrite app_skip in F4 by reflexivity. destruct (first_pixel _ _ F4) as [-> L1]. vm_compute in F5. discriminate.
  - destruct (filter_possible [0; 5; 1]%Q) as (l1 & r1 & H1); [discriminate|].
    destruct r1 as [v1|e|]; [|destruct (Sorting_exists' [0; 5; 1]%Q) as (s & Hs); destruct (filter_odd _ _ _ _ Hs eq_refl H1) as (_ & v & E & _); discriminate|now apply no_ub3 in H1].
    destruct (first_pixel _ _ H1) as [-> L1].
    destruct (filter_possible [1; 1; 6]%Q) as (l2 & r2 & H2); [discriminate|].
    destruct r2 as [v2|e|]; [|destruct (Sorting_exists' [1; 1; 6]%Q) as (s & Hs); destruct (filter_odd _ _ _ _ Hs eq_refl H2) as (_ & v & E & _); discriminate|now apply no_ub3 in H2].
    eexists. eapply self_apply; [reflexivity|]. eapply self_step; [reflexivity|reflexivity|apply Nat.leb_le; reflexivity|exact H1|reflexivity|].
    eapply self_step; [reflexivity|reflexivity|rewrite L1; apply Nat.leb_le; reflexivity|rewrite app_skip by (rewrite L1; reflexivity); exact H2|reflexivity|].
    constructor.
Qed.
