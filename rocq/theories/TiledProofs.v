(** Proofs about filters applied by regions. *)
From Coq Require Import Permutation.
From Verif Require Import Res VecModel TypesModel BoxModel RasterModel SamplingModel DistModel MedianModel WidthModel TypedMedianModel TiledModel
  Spec BoxSpec RasterSpec KernelSpec ContainerSpec DistSpec MedianSpec TypedMedianSpec TiledSpec
  Lemmas ContainerProofs IndexProofs BoxIterProofs BoxGeomProofs AccessProofs SamplingProofs DistProofs SeparableProofs ComposeProofs KernelProofs MedianProofs TypedMedianProofs TypedMedianFloatProofs.
From Verif Require Import WidthModel TypedMedianSpec.
Open Scope Z_scope.

Section Tiles.
Context {A B : Type}.
Variables (lt : A -> A -> bool) (ordered : list A -> bool) (conv : A -> res B) (middle : A -> A -> res B).
Variables (n : Z) (f b : list Z) (X : list Z -> A).
Hypothesis Hne : f <> [].
Hypothesis Hfb : NonEmpty f b.
Notation window := (mkBox f b).
Notation out_of p := (Outcome lt ordered conv middle (neighbors f b X p)).
Notation cstep := (callStep lt ordered conv middle).
Notation cfails := (callFails lt ordered conv middle).
Notation runs := (interleaved lt ordered conv middle).

Definition reads (ext : list Z -> res A) (p : list Z) : Prop := forall q, In q (positions f b) -> ext (vplus p q) = Ok (X (vplus p q)).

Lemma call_possible fuel ext p ps buffer (out : raster B) : reads ext p -> (length (positions f b) < fuel)%nat -> Z.of_nat (length buffer) = windowSize f b ->
  WF out -> length (rshape out) = length f -> InDomain (rshape out) p ->
  Partitions lt ordered -> NoThrow conv -> (forall x y e, middle x y <> Throw e) ->
  (exists c' out', cstep fuel n window ext (mkCall (p :: ps) buffer) out c' out') \/ cfails fuel n window ext (mkCall (p :: ps) buffer) out.
Proof.
  intros He Hf Lb W Lo Hp Pa Nc Nm. assert (Lp := InDomain_length _ _ Hp).
  destruct (typed_pixel lt ordered conv middle f b X Hne Hfb fuel p buffer ltac:(lia) Lb Hf) as (qs & xs & E1 & _ & E2 & E3 & E4). specialize (E2 ext He).
  destruct (median_possible lt ordered conv middle _ Pa (neighbors_some f b X Hfb p)) as (l' & r & Hm). destruct r as [v|e|].
  - left. destruct (rset_domain n out p v W Hp) as (out' & R & _). exists (mkCall ps l'), out'. eapply call_step; eauto; [lia|]. now rewrite E4.
  - destruct (outcome_throw lt ordered conv middle _ e Nc Nm (proj2 (median_outcome lt ordered conv middle _ _ _ (neighbors_some f b X Hfb p) Hm))).
  - right. eapply fails_median; eauto; [lia|]. rewrite E4. exact Hm.
Qed.

Lemma call_stepped fuel ext p ps buffer (out : raster B) c' out' : reads ext p -> (length (positions f b) < fuel)%nat -> Z.of_nat (length buffer) = windowSize f b ->
  WF out -> length (rshape out) = length f -> InDomain (rshape out) p -> cstep fuel n window ext (mkCall (p :: ps) buffer) out c' out' ->
  ctodo c' = ps /\ Z.of_nat (length (cneighbors c')) = windowSize f b /\ WF out' /\ rshape out' = rshape out /\
  (exists v, rget n out' p = Ok v /\ out_of p (Ok v)) /\ (forall q, InDomain (rshape out) q -> q <> p -> rget n out' q = rget n out q).
Proof.
  intros He Hf Lb W Lo Hp H. assert (Lp := InDomain_length _ _ Hp).
  destruct (typed_pixel lt ordered conv middle f b X Hne Hfb fuel p buffer ltac:(lia) Lb Hf) as (qs & xs & E1 & _ & E2 & E3 & E4). specialize (E2 ext He).
  inversion H as [? ? ? ? qs' xs' l' v out1 F1 F2 F3 F4 F5]; subst. rewrite E1 in F1; injection F1 as <-; rewrite E2 in F2; injection F2 as <-; rewrite E4 in F4.
  destruct (median_outcome lt ordered conv middle _ _ _ (neighbors_some f b X Hfb p) F4) as [Pl O].
  destruct (rset_domain n out p v W Hp) as (out1 & R1 & R2 & R3 & R4 & R5). rewrite R1 in F5. injection F5 as <-.
  cbn [ctodo cneighbors]. split; [reflexivity|]. split; [rewrite <- (Permutation_length Pl); apply (neighbors_count f b X Hfb)|]. split; [exact R2|]. split; [exact R3|]. split; [exists v; auto|exact R5].
Qed.

Lemma call_failed fuel ext p ps buffer (out : raster B) : reads ext p -> (length (positions f b) < fuel)%nat -> Z.of_nat (length buffer) = windowSize f b ->
  WF out -> length (rshape out) = length f -> InDomain (rshape out) p -> cfails fuel n window ext (mkCall (p :: ps) buffer) out -> out_of p UB.
Proof.
  intros He Hf Lb W Lo Hp H. assert (Lp := InDomain_length _ _ Hp).
  destruct (typed_pixel lt ordered conv middle f b X Hne Hfb fuel p buffer ltac:(lia) Lb Hf) as (qs & xs & E1 & _ & E2 & E3 & E4). specialize (E2 ext He).
  inversion H as [? ? ? ? ? F1 F2|? ? ? ? ? ? F1 F2 F3|? ? ? ? ? ? l' F1 F2 F3 F4|? ? ? ? ? ? l' v F1 F2 F3 F4 F5]; subst;
    rewrite E1 in F1; injection F1 as <-; rewrite E2 in F2; try discriminate; injection F2 as <-; try (exfalso; lia); rewrite E4 in F4.
  - exact (proj2 (median_outcome lt ordered conv middle _ _ _ (neighbors_some f b X Hfb p) F4)).
  - destruct (rset_domain n out p v W Hp) as (out1 & R1 & _). congruence.
Qed.

Definition todo (calls : list (call A)) : list (list Z) := concat (map (@ctodo A) calls).

Lemma todo_replace calls i c c' p : nth_error calls i = Some c -> ctodo c = p :: ctodo c' -> Permutation (todo calls) (p :: todo (replace calls i c')).
Proof.
  revert i. induction calls as [|d calls IH]; intros [|i] E Ec; try discriminate; cbn [nth_error replace] in *.
  - injection E as <-. unfold todo. cbn [map concat]. rewrite Ec. reflexivity.
  - unfold todo in *. cbn [map concat]. eapply Permutation_trans; [apply Permutation_app_head, (IH i E Ec)|]. apply Permutation_sym, Permutation_middle.
Qed.

Definition readyCall (fuel : nat) (ext : list Z -> res A) (out : raster B) (calls : list (call A)) : Prop :=
  NoDup (todo calls) /\ (forall p, In p (todo calls) -> reads ext p /\ InDomain (rshape out) p) /\ Forall (fun c => Z.of_nat (length (cneighbors c)) = windowSize f b) calls /\
  WF out /\ length (rshape out) = length f /\ (length (positions f b) < fuel)%nat.

Lemma replace_forall {C} (P : C -> Prop) l i c : Forall P l -> P c -> Forall P (replace l i c).
Proof. intros F. revert i. induction F as [|x l Hx F IH]; intros [|i] Hc; cbn [replace]; constructor; auto. Qed.

Lemma in_todo calls i c p ps : nth_error calls i = Some c -> ctodo c = p :: ps -> In p (todo calls).
Proof. intros E Ec. unfold todo. apply in_concat. exists (ctodo c). split; [apply in_map; exact (nth_error_In _ _ E)|]. rewrite Ec. left. reflexivity. Qed.

Lemma tiles_run fuel ext calls out r : runs fuel n window ext calls out r -> readyCall fuel ext out calls ->
  (r = UB /\ exists p, In p (todo calls) /\ out_of p UB) \/
  exists out', r = Ok out' /\ WF out' /\ rshape out' = rshape out /\
    (forall p, In p (todo calls) -> exists v, rget n out' p = Ok v /\ out_of p (Ok v)) /\
    (forall p, InDomain (rshape out) p -> ~ In p (todo calls) -> rget n out' p = rget n out p).
Proof.
  induction 1 as [calls out Hd|calls i c c' out out' r Ei Hs Hr IH|calls i c out Ei Hf]; intros (Nd & Rd & Bu & W & Lo & Fu).
  - right. exists out. split; [reflexivity|]. split; [exact W|]. split; [reflexivity|]. split; [|auto]. intros p I. exfalso. unfold todo in I. apply in_concat in I as (l & Il & I).
    apply in_map_iff in Il as (c & <- & Ic). rewrite Forall_forall in Hd. rewrite (Hd c Ic) in I. destruct I.
  - destruct c as [[|p ps] buffer]; [inversion Hs|]. assert (Ip := in_todo calls i _ p ps Ei eq_refl). destruct (Rd p Ip) as [Re Dp].
    assert (Lb : Z.of_nat (length buffer) = windowSize f b) by (rewrite Forall_forall in Bu; exact (Bu _ (nth_error_In _ _ Ei))).
    destruct (call_stepped fuel ext p ps buffer out c' out' Re Fu Lb W Lo Dp Hs) as (Ec & Lc & W' & S' & (v & Gv & Ov) & Ot).
    assert (P := todo_replace calls i _ c' p Ei (eq_trans eq_refl (f_equal (cons p) (eq_sym Ec)))).
    assert (Nd' := Permutation_NoDup P Nd). inversion Nd' as [|? ? Np Nd'']; subst.
    assert (Rd' : readyCall fuel ext out' (replace calls i c')).
    { split; [exact Nd''|]. split; [|split; [apply replace_forall; auto|split; [exact W'|split; [congruence|exact Fu]]]].
      intros q Iq. rewrite S'. apply Rd. apply (Permutation_in _ (Permutation_sym P)). right. exact Iq. }
    destruct (IH Rd') as [(-> & q & Iq & Oq)|(out2 & -> & W2 & S2 & P2 & Q2)].
    + left. split; [reflexivity|]. exists q. split; [|exact Oq]. apply (Permutation_in _ (Permutation_sym P)). right. exact Iq.
    + right. exists out2. split; [reflexivity|]. split; [exact W2|]. split; [congruence|]. split.
      * intros q Iq. apply (Permutation_in _ P) in Iq as [<-|Iq]; [|auto]. exists v. split; [|exact Ov]. rewrite Q2; auto. rewrite S'. exact Dp.
      * intros q Dq Nq. assert (Nq' : q <> p /\ ~ In q (todo (replace calls i c'))).
        { split; [intros ->; exact (Nq Ip)|]. intros I. apply Nq. apply (Permutation_in _ (Permutation_sym P)). right. exact I. }
        rewrite Q2 by (try rewrite S'; tauto). apply Ot; tauto.
  - left. split; [reflexivity|]. destruct c as [[|p ps] buffer]; [inversion Hf|]. assert (Ip := in_todo calls i _ p ps Ei eq_refl). destruct (Rd p Ip) as [Re Dp].
    assert (Lb : Z.of_nat (length buffer) = windowSize f b) by (rewrite Forall_forall in Bu; exact (Bu _ (nth_error_In _ _ Ei))).
    exists p. split; [exact Ip|]. exact (call_failed fuel ext p ps buffer out Re Fu Lb W Lo Dp Hf).
Qed.

(** Every call which is not finished can go on: no schedule is stuck. *)
Lemma tiles_progress fuel ext calls out : readyCall fuel ext out calls -> Partitions lt ordered -> NoThrow conv -> (forall x y e, middle x y <> Throw e) ->
  forall i c, nth_error calls i = Some c -> ctodo c <> [] ->
  (exists c' out', cstep fuel n window ext c out c' out' /\ readyCall fuel ext out' (replace calls i c') /\ length (todo calls) = S (length (todo (replace calls i c')))) \/ cfails fuel n window ext c out.
Proof.
  intros (Nd & Rd & Bu & W & Lo & Fu) Pa Nc Nm i c Ei Hc. destruct c as [[|p ps] buffer]; [contradiction|]. assert (Ip := in_todo calls i _ p ps Ei eq_refl). destruct (Rd p Ip) as [Re Dp].
  assert (Lb : Z.of_nat (length buffer) = windowSize f b) by (rewrite Forall_forall in Bu; exact (Bu _ (nth_error_In _ _ Ei))).
  destruct (call_possible fuel ext p ps buffer out Re Fu Lb W Lo Dp Pa Nc Nm) as [(c' & out' & Hs)|Hf]; [left|right; exact Hf].
  exists c', out'. split; [exact Hs|]. destruct (call_stepped fuel ext p ps buffer out c' out' Re Fu Lb W Lo Dp Hs) as (Ec & Lc & W' & S' & _ & _).
  assert (P := todo_replace calls i _ c' p Ei (eq_trans eq_refl (f_equal (cons p) (eq_sym Ec)))). split.
  - assert (Nd' := Permutation_NoDup P Nd). inversion Nd' as [|? ? Np Nd'']; subst. split; [exact Nd''|]. split; [|split; [apply replace_forall; auto|split; [exact W'|split; [congruence|exact Fu]]]].
    intros q Iq. rewrite S'. apply Rd. apply (Permutation_in _ (Permutation_sym P)). right. exact Iq.
  - exact (Permutation_length P).
Qed.

Lemma tiles_exist fuel ext calls out : readyCall fuel ext out calls -> Partitions lt ordered -> NoThrow conv -> (forall x y e, middle x y <> Throw e) ->
  exists r, runs fuel n window ext calls out r.
Proof.
  intros R Pa Nc Nm. remember (length (todo calls)) as k eqn:Ek. revert calls out R Ek. induction k as [|k IH]; intros calls out R Ek.
  - exists (Ok out). apply all_done. apply Forall_forall. intros c Ic. destruct (ctodo c) as [|p ps] eqn:E; [reflexivity|]. exfalso.
    apply In_nth_error in Ic as [i Ei]. assert (I := in_todo calls i c p ps Ei E). destruct (todo calls); [destruct I|discriminate].
  - assert (Ex : exists i c, nth_error calls i = Some c /\ ctodo c <> []).
    { destruct (todo calls) as [|p l] eqn:Et; [discriminate|]. assert (I : In p (todo calls)) by (rewrite Et; left; reflexivity). unfold todo in I. apply in_concat in I as (m & Im & I).
      apply in_map_iff in Im as (c & <- & Ic). apply In_nth_error in Ic as [i Ei]. exists i, c. split; [exact Ei|]. intros E. rewrite E in I. destruct I. }
    destruct Ex as (i & c & Ei & Hc). destruct (tiles_progress fuel ext calls out R Pa Nc Nm i c Ei Hc) as [(c' & out' & Hs & R' & L)|Hf].
    + destruct (IH (replace calls i c') out' R') as [r Hr]; [lia|]. exists r. exact (one_step _ _ _ _ fuel n window ext calls i c c' out out' r Ei Hs Hr).
    + exists UB. exact (one_fails _ _ _ _ fuel n window ext calls i c out Ei Hf).
Qed.

(** At any moment *)
Lemma tiles_reach fuel ext calls out calls' out' : reaches lt ordered conv middle fuel n window ext calls out calls' out' -> readyCall fuel ext out calls ->
  readyCall fuel ext out' calls' /\ rshape out' = rshape out /\ incl (todo calls') (todo calls) /\
  (forall p, In p (todo calls) -> ~ In p (todo calls') -> exists v, rget n out' p = Ok v /\ out_of p (Ok v)) /\
  (forall p, InDomain (rshape out) p -> In p (todo calls') \/ ~ In p (todo calls) -> rget n out' p = rget n out p).
Proof.
  intros H R0. induction H as [|calls' i c c' out' out'' Hr IH Ei Hs].
  - split; [exact R0|]. split; [reflexivity|]. split; [apply incl_refl|]. split; [intros; contradiction|reflexivity].
  - destruct IH as (R & Sh & Inc & Fin & Unch). destruct R as (Nd & Rd & Bu & W & Lo & Fu).
    destruct c as [[|p ps] buffer]; [inversion Hs|]. assert (Ip := in_todo calls' i _ p ps Ei eq_refl). destruct (Rd p Ip) as [Re Dp].
    assert (Lb : Z.of_nat (length buffer) = windowSize f b) by (rewrite Forall_forall in Bu; exact (Bu _ (nth_error_In _ _ Ei))).
    destruct (call_stepped fuel ext p ps buffer out' c' out'' Re Fu Lb W Lo Dp Hs) as (Ec & Lc & W' & S' & (v & Gv & Ov) & Ot).
    assert (P := todo_replace calls' i _ c' p Ei (eq_trans eq_refl (f_equal (cons p) (eq_sym Ec)))).
    assert (Nd' := Permutation_NoDup P Nd). inversion Nd' as [|? ? Np Nd'']; subst.
    assert (Inc' : incl (todo (replace calls' i c')) (todo calls')) by (intros q Iq; apply (Permutation_in _ (Permutation_sym P)); right; exact Iq).
    split; [|split; [congruence|split; [intros q Iq; apply Inc, Inc', Iq|split]]].
    + split; [exact Nd''|]. split; [|split; [apply replace_forall; auto|split; [exact W'|split; [congruence|exact Fu]]]]. intros q Iq. rewrite S'. apply Rd, Inc', Iq.
    + intros q Iq Nq. destruct (list_eq_dec Z.eq_dec q p) as [->|N]; [exists v; auto|].
      assert (Nq' : ~ In q (todo calls')) by (intros I; apply (Permutation_in _ P) in I as [I|I]; [congruence|contradiction]).
      destruct (Fin q Iq Nq') as (w & Gw & Ow). exists w. split; [|exact Ow]. rewrite Ot; [exact Gw| |exact N]. rewrite Sh. exact (proj2 (proj1 (proj2 R0) q Iq)).
    + intros q Dq Hq. assert (N : q <> p) by (intros ->; destruct Hq as [Hq|Hq]; [exact (Np Hq)|exact (Hq (Inc p Ip))]).
      rewrite Ot by (try rewrite Sh; auto). apply Unch; [exact Dq|]. destruct Hq as [Hq|Hq]; [left; apply Inc', Hq|right; exact Hq].
Qed.
End Tiles.

Lemma regions_positions fuel (regions : list box) : Forall (fun r => NonEmpty (bfront r) (bback r) /\ bfront r <> [] /\ (length (positions (bfront r) (bback r)) < fuel)%nat) regions ->
  forall pss, Forall2 (fun region ps => boxForeach fuel region = Some (Ok ps)) regions pss <-> pss = map (fun r => positions (bfront r) (bback r)) regions.
Proof.
  induction 1 as [|r regions (N & E & L) _ IH]; intros pss; split; intros H.
  - inversion H. reflexivity.
  - subst. constructor.
  - inversion H as [|? ps ? pss' H1 H2]; subst. destruct r as [xf xb]. cbn [bfront bback] in *. rewrite boxForeach_positions in H1 by auto. injection H1 as <-. cbn [map bfront bback]. f_equal. now apply IH.
  - subst. cbn [map]. constructor; [|now apply IH]. destruct r as [xf xb]. cbn [bfront bback] in *. now apply boxForeach_positions.
Qed.

Lemma in_regions regions p : In p (concat (map (fun r => positions (bfront r) (bback r)) regions)) <-> InSome regions p.
Proof.
  rewrite in_concat. unfold InSome. split.
  - intros (l & Il & I). apply in_map_iff in Il as (r & <- & Ir). exists r. split; [exact Ir|]. destruct r as [xf xb]. cbn [bfront bback] in *. now apply In_positions in I.
  - intros (r & Ir & I). exists (positions (bfront r) (bback r)). split; [apply in_map_iff; exists r; auto|]. destruct r as [xf xb]. now apply In_positions.
Qed.

Lemma disjoint_NoDup regions : Disjoint regions -> NoDup (concat (map (fun r => positions (bfront r) (bback r)) regions)).
Proof.
  induction regions as [|r regions IH]; intros D; cbn [map concat]; [constructor|].
  assert (NoDup_app' : forall (l m : list (list Z)), NoDup l -> NoDup m -> (forall p, In p l -> In p m -> False) -> NoDup (l ++ m)).
  { induction l as [|a l IHl]; intros m N1 N2 H; [exact N2|]. inversion N1; subst. cbn [app]. constructor.
    - rewrite in_app_iff. intros [I|I]; [contradiction|]. exact (H a (or_introl eq_refl) I).
    - apply IHl; auto. intros p I1 I2. exact (H p (or_intror I1) I2). }
  apply NoDup_app'.
  - apply positions_NoDup.
  - apply IH. intros i j a b p Hij Ha Hb. apply (D (S i) (S j) a b p); auto.
  - intros p I1 I2. apply in_regions in I2 as (c & Ic & I2). apply In_nth_error in Ic as [j Ej]. destruct r as [xf xb]. cbn [bfront bback] in I1.
    apply (D O (S j) (mkBox xf xb) c p); auto. now apply In_positions.
Qed.

Lemma tiled_ready {A B} (zero : A) f b X regions (out : raster B) ext : RunnableOn f b regions X ext out -> Disjoint regions ->
  let pss := map (fun r => positions (bfront r) (bback r)) regions in let calls := map (fun ps => mkCall ps (repeat zero (Z.to_nat (boxSize (mkBox f b))))) pss in
  f <> [] /\ NonEmpty f b /\ todo calls = concat pss /\ exists enough, forall fuel, (enough <= fuel)%nat ->
  readyCall f b X fuel ext out calls /\ forall pss', Forall2 (fun region ps => boxForeach fuel region = Some (Ok ps)) regions pss' <-> pss' = pss.
Proof.
  intros [Hr HR] D pss calls.
  assert (R0 : exists r0, In r0 regions) by (destruct regions as [|r0 ?]; [congruence|exists r0; left; reflexivity]). destruct R0 as [r0 I0].
  rewrite Forall_forall in HR. destruct (HR r0 I0) as (Hne & Hfb & _ & _ & _ & Hwf & Lo).
  assert (Et : todo calls = concat pss) by (unfold todo, calls; rewrite map_map; cbn [ctodo]; rewrite map_id; reflexivity).
  split; [exact Hne|]. split; [exact Hfb|]. split; [exact Et|].
  exists (S (Nat.max (length (positions f b)) (list_max (map (@length _) pss)))). intros fuel Hf.
  assert (Ok' : Forall (fun r => NonEmpty (bfront r) (bback r) /\ bfront r <> [] /\ (length (positions (bfront r) (bback r)) < fuel)%nat) regions).
  { apply Forall_forall. intros r Ir. destruct (HR r Ir) as (_ & _ & _ & Hn & Hd & _ & _). destruct r as [xf xb]. apply Nonempty_iff in Hn. cbn [bfront bback] in *. split; [exact Hn|]. split.
    - assert (H := Hd xf ltac:(now apply NonEmpty_front)). apply InDomain_length in H. intros ->. cbn in H. destruct f; [congruence|]. cbn in Lo. lia.
    - assert (L : (length (positions xf xb) <= list_max (map (@length _) pss))%nat); [|lia].
      assert (G := proj1 (list_max_le (map (@length _) pss) _) (le_n _)). rewrite Forall_forall in G. apply G. apply in_map. unfold pss. apply in_map_iff. exists (mkBox xf xb). auto. }
  split; [|intros pss'; exact (regions_positions fuel regions Ok' pss')].
  split; [|split; [|split; [|split; [exact Hwf|split; [exact Lo|lia]]]]].
    - rewrite Et. now apply disjoint_NoDup.
    - intros p Ip. rewrite Et in Ip. apply in_regions in Ip as (r & Ir & Ip). destruct (HR r Ir) as (_ & _ & He & _ & Hd & _ & _). split; [|now apply Hd].
      intros q Iq. apply He; [exact Ip|]. now apply In_positions.
    - apply Forall_forall. intros c Ic. unfold calls in Ic. apply in_map_iff in Ic as (ps & <- & _). cbn [cneighbors]. rewrite repeat_length, boxSize_window by auto.
      unfold windowSize. assert (P := prod_pos _ (wshape_positive f b Hfb)). lia.
Qed.

Lemma tiled_to {A B} (lt : A -> A -> bool) ordered (conv : A -> res B) middle zero n f b X regions out ext : RunnableOn f b regions X ext out -> Disjoint regions ->
  Partitions lt ordered -> NoThrow conv -> (forall x y e, middle x y <> Throw e) ->
  exists enough, forall fuel, (enough <= fuel)%nat ->
  (exists r, tiledApplyTo lt ordered conv middle zero fuel n (mkBox f b) regions ext out r) /\
  forall r, tiledApplyTo lt ordered conv middle zero fuel n (mkBox f b) regions ext out r ->
    (r = UB /\ exists p, InSome regions p /\ Outcome lt ordered conv middle (neighbors f b X p) UB) \/
    exists out', r = Ok out' /\ WF out' /\ rshape out' = rshape out /\
      (forall p, InSome regions p -> exists v, rget n out' p = Ok v /\ Outcome lt ordered conv middle (neighbors f b X p) (Ok v)) /\
      (forall p, InDomain (rshape out) p -> ~ InSome regions p -> rget n out' p = rget n out p).
Proof.
  intros HR D Pa Nc Nm. destruct (tiled_ready zero f b X regions out ext HR D) as (Hne & Hfb & Et & enough & Hen). set (pss := map _ regions) in *. set (calls := map _ pss) in *.
  exists enough. intros fuel Hf. destruct (Hen fuel Hf) as [Rd Ep].
  split.
  - destruct (tiles_exist lt ordered conv middle n f b X Hne Hfb fuel ext calls out Rd Pa Nc Nm) as [r Hrun]. exists r. apply (tiled_apply lt ordered conv middle zero fuel n _ regions ext out pss); [|exact Hrun].
    now apply Ep.
  - intros r H. inversion H as [pss' r' E1 E2]; subst. apply Ep in E1. subst pss'. fold calls in E2.
    destruct (tiles_run lt ordered conv middle n f b X Hne Hfb fuel ext calls out r E2 Rd) as [(-> & p & Ip & Op)|(out' & -> & W & S' & P & Q)].
    + left. split; [reflexivity|]. exists p. split; [|exact Op]. rewrite Et in Ip. now apply in_regions.
    + right. exists out'. split; [reflexivity|]. split; [exact W|]. split; [exact S'|]. rewrite Et in *. split.
      * intros p Ip. apply P. now apply in_regions.
      * intros p Dp Np. apply Q; auto. intros I. apply Np. now apply in_regions.
Qed.

(** At any moment, each pixel has its initial or final value, and each call can go on. *)
Lemma tiled_moment {A B} (lt : A -> A -> bool) ordered (conv : A -> res B) middle zero n f b X regions out ext : RunnableOn f b regions X ext out -> Disjoint regions ->
  Partitions lt ordered -> NoThrow conv -> (forall x y e, middle x y <> Throw e) ->
  exists enough, forall fuel, (enough <= fuel)%nat ->
  forall calls out', tiledReaches lt ordered conv middle zero fuel n (mkBox f b) regions ext out calls out' ->
  WF out' /\ rshape out' = rshape out /\
  (forall p, InDomain (rshape out) p -> rget n out' p = rget n out p \/ InSome regions p /\ exists v, rget n out' p = Ok v /\ Outcome lt ordered conv middle (neighbors f b X p) (Ok v)) /\
  (forall i c, nth_error calls i = Some c -> ctodo c <> [] ->
    (exists c' out'', callStep lt ordered conv middle fuel n (mkBox f b) ext c out' c' out'') \/ callFails lt ordered conv middle fuel n (mkBox f b) ext c out') /\
  (exists r, interleaved lt ordered conv middle fuel n (mkBox f b) ext calls out' r).
Proof.
  intros HR D Pa Nc Nm. destruct (tiled_ready zero f b X regions out ext HR D) as (Hne & Hfb & Et & enough & Hen). set (pss := map _ regions) in *. set (calls0 := map _ pss) in *.
  exists enough. intros fuel Hf. destruct (Hen fuel Hf) as [Rd Ep]. intros calls out' H. inversion H as [pss' c' o' E1 E2]; subst. apply Ep in E1. subst pss'. fold calls0 in E2.
  destruct (tiles_reach lt ordered conv middle n f b X Hne Hfb fuel ext calls0 out calls out' E2 Rd) as (R & Sh & _ & Fin & Unch).
  split; [exact (proj1 (proj2 (proj2 (proj2 R))))|]. split; [exact Sh|]. split; [|split].
  - intros p Dp. destruct (in_dec (list_eq_dec Z.eq_dec) p (todo calls)) as [I|I]; [left; auto|]. destruct (in_dec (list_eq_dec Z.eq_dec) p (todo calls0)) as [J|J]; [right|left; auto].
    split; [|auto]. rewrite Et in J. now apply in_regions.
  - intros i c Ei Hc. destruct (tiles_progress lt ordered conv middle n f b X Hne Hfb fuel ext calls out' R Pa Nc Nm i c Ei Hc) as [(c' & o'' & Hs & _)|Hs]; [left|right; exact Hs]. exists c', o''. exact Hs.
  - exact (tiles_exist lt ordered conv middle n f b X Hne Hfb fuel ext calls out' R Pa Nc Nm).
Qed.

(** Integers: all schedules have the same result, which is that of one call. *)
Lemma int_partitions : Partitions Z.ltb (fun _ : list Z => true). Proof. apply order_partitions, Zltb_swo. Qed.

Lemma odd_pixel t u f b X p r : NonEmpty f b -> windowSize f b mod 2 = 1 ->
  Outcome Z.ltb (fun _ => true) (fun x => Ok (convert u x)) (fun x y => h <- halfInt t x y ;; dtruncTo u h) (neighbors f b X p) r ->
  exists x, MiddleValue Z.ltb (neighbors f b X p) x /\ r = Ok (convert u x).
Proof. intros Hfb M O. apply odd_outcome in O as (x & Mx & E); [exists x; auto|reflexivity|]. rewrite (neighbors_count f b X Hfb). exact M. Qed.

Lemma tiled_integers t u n f b X regions out ext : RunnableOn f b regions X ext out -> Disjoint regions -> windowSize f b mod 2 = 1 ->
  exists enough, forall fuel, (enough <= fuel)%nat -> exists out',
  (forall r, intTiled t u fuel n (mkBox f b) regions ext out r <-> r = Ok out') /\ WF out' /\ rshape out' = rshape out /\
  (forall p, InSome regions p -> exists x, MiddleValue Z.ltb (neighbors f b X p) x /\ rget n out' p = Ok (convert u x)) /\
  (forall p, InDomain (rshape out) p -> ~ InSome regions p -> rget n out' p = rget n out p).
Proof.
  intros R D M. assert (Hfb : NonEmpty f b) by (destruct R as [Hr HR]; rewrite Forall_forall in HR; destruct regions as [|r0 ?]; [congruence|exact (proj1 (proj2 (HR r0 (or_introl eq_refl))))]).
  assert (Odd : forall p, Z.of_nat (length (neighbors f b X p)) mod 2 = 1) by (intros p; rewrite (neighbors_count f b X Hfb); exact M).
  destruct (tiled_to Z.ltb (fun _ => true) (fun x => Ok (convert u x)) (fun x y => h <- halfInt t x y ;; dtruncTo u h) 0 n f b X regions out ext R D int_partitions (int_throw u) (halfTrunc_throw t u)) as (e & H).
  exists e. intros fuel Hf. destruct (H fuel Hf) as ((r0 & H0) & G). fold (intTiled t u) in *.
  assert (K : forall r, intTiled t u fuel n (mkBox f b) regions ext out r -> exists out', r = Ok out' /\ WF out' /\ rshape out' = rshape out /\
    (forall p, InSome regions p -> exists x, MiddleValue Z.ltb (neighbors f b X p) x /\ rget n out' p = Ok (convert u x)) /\
    (forall p, InDomain (rshape out) p -> ~ InSome regions p -> rget n out' p = rget n out p)).
  { intros r Hr. destruct (G r Hr) as [(_ & p & _ & Op)|(out' & E & W & S' & P & Q)].
    - apply (odd_pixel t u f b X p UB Hfb M) in Op as (x & _ & E). discriminate.
    - exists out'. split; [exact E|]. split; [exact W|]. split; [exact S'|]. split; [|exact Q]. intros p Ip. destruct (P p Ip) as (v & Ev & Ov).
      apply (odd_pixel t u f b X p _ Hfb M) in Ov as (x & Mx & E'). exists x. split; [exact Mx|]. congruence. }
  destruct (K r0 H0) as (out' & E0 & W & S' & P & Q). exists out'. split; [|auto]. intros r. split; [|intros ->; subst r0; exact H0]. intros Hr.
  destruct (K r Hr) as (out2 & -> & W2 & S2 & P2 & Q2). f_equal. apply (raster_ext n); auto; [congruence|]. intros p Dp. rewrite S2 in Dp.
  assert (Dec : {InSome regions p} + {~ InSome regions p}).
  { destruct (in_dec (list_eq_dec Z.eq_dec) p (concat (map (fun r => positions (bfront r) (bback r)) regions))) as [I|I]; [left; now apply in_regions|right; intros J; apply I; now apply in_regions]. }
  destruct Dec as [Ip|Np]; [|rewrite Q, Q2; auto]. destruct (P p Ip) as (x & Mx & Ex), (P2 p Ip) as (y & My & Ey).
  rewrite Ex, Ey. now rewrite (middle_integer _ x y (Odd p) Mx My).
Qed.

Lemma union_runnable {A B} f b regions region X ext (out : raster B) : RunnableOn f b regions (X : list Z -> A) ext out -> (forall p, InBox region p <-> InSome regions p) -> Runnable f b region X ext out.
Proof.
  intros [Hr HR] U. rewrite Forall_forall in HR. destruct regions as [|r0 rs]; [congruence|]. destruct (HR r0 (or_introl eq_refl)) as (H1 & H2 & _ & (p0 & I0) & _ & H6 & H7).
  split; [exact H1|]. split; [exact H2|]. split; [|split; [exists p0; apply U; exists r0; split; [left; reflexivity|exact I0]|split; [|auto]]].
  - intros p q Ip Iq. apply U in Ip as (r & Ir & Ip). destruct (HR r Ir) as (_ & _ & E & _). now apply E.
  - intros p Ip. apply U in Ip as (r & Ir & Ip). destruct (HR r Ir) as (_ & _ & _ & _ & E & _). now apply E.
Qed.

Lemma tiled_same t u n f b X regions region out ext : RunnableOn f b regions X ext out -> Disjoint regions -> windowSize f b mod 2 = 1 -> (forall p, InBox region p <-> InSome regions p) ->
  exists enough, forall fuel, (enough <= fuel)%nat ->
  (exists r, intTiled t u fuel n (mkBox f b) regions ext out r) /\
  forall r, intTiled t u fuel n (mkBox f b) regions ext out r <-> intFilter t u fuel n (mkBox f b) region ext out r.
Proof.
  intros R D M U. assert (R1 := union_runnable f b regions region X ext out R U).
  assert (Odd : forall p, Z.of_nat (length (neighbors f b X p)) mod 2 = 1) by (intros p; rewrite (neighbors_count f b X (proj1 (proj2 R1))); exact M).
  destruct (tiled_integers t u n f b X regions out ext R D M) as (e1 & H1). destruct (filter_integers t u n f b X region out ext R1 M) as (e2 & H2).
  exists (Nat.max e1 e2). intros fuel Hf. destruct (H1 fuel ltac:(lia)) as (out1 & T & W1 & S1 & P1 & Q1). destruct (H2 fuel ltac:(lia)) as ((r0 & Hr0) & G).
  split; [exists (Ok out1); now apply T|].
  assert (K : forall r, intFilter t u fuel n (mkBox f b) region ext out r -> r = Ok out1).
  { intros r Hr. destruct (G r Hr) as (out2 & -> & W2 & S2 & P2 & Q2). f_equal. apply (raster_ext n); auto; [congruence|]. intros p Dp. rewrite S2 in Dp.
    assert (Dec : {InSome regions p} + {~ InSome regions p}).
    { destruct (in_dec (list_eq_dec Z.eq_dec) p (concat (map (fun r => positions (bfront r) (bback r)) regions))) as [I|I]; [left; now apply in_regions|right; intros J; apply I; now apply in_regions]. }
    destruct Dec as [Ip|Np]; [|rewrite Q1, Q2; auto; intros I; apply Np; now apply U]. destruct (P1 p Ip) as (x & Mx & Ex), (P2 p (proj2 (U p) Ip)) as (y & My & Ey).
    rewrite Ex, Ey. now rewrite (middle_integer _ x y (Odd p) Mx My). }
  intros r. rewrite T. split; [intros ->; rewrite <- (K r0 Hr0); exact Hr0|apply K].
Qed.

(** Different calls write different cells. *)
Lemma distinct_cells {A} n (out : raster A) regions i j a c p q : WF out -> Disjoint regions -> i <> j -> nth_error regions i = Some a -> nth_error regions j = Some c ->
  InBox a p -> InBox c q -> InDomain (rshape out) p -> InDomain (rshape out) q -> rindex n (rshape out) p <> rindex n (rshape out) q.
Proof.
  intros (Hs & _) D Hij Ea Ec Ip Iq Dp Dq E. rewrite !rindex_rank in E by (auto using InDomain_length). injection E as E.
  apply (rank_inj _ _ _ Dp Dq) in E. subst q. exact (D i j a c p Hij Ea Ec Ip Iq).
Qed.

(** In place *)
Lemma in_place_step t window p ps buffer out qs xs l' x out' fuel : boxForeach fuel (boxShift window p) = Some (Ok qs) -> mapRes (rget 1 out) qs = Ok xs -> length xs = length buffer ->
  Z.of_nat (length xs) mod 2 = 1 -> NthElement Z.ltb xs (Z.of_nat (length xs) / 2) l' -> zget l' (Z.of_nat (length xs) / 2) = Ok x -> rset 1 out p (convert t x) = Ok out' ->
  forall r, inPlaceLoop fuel t 1 window ps l' out' r -> inPlaceLoop fuel t 1 window (p :: ps) buffer out r.
Proof.
  intros E1 E2 L M N G S' r H. apply (place_step fuel t 1 window p ps buffer out (mkCall ps l') out' r); [|exact H]. eapply call_step; eauto; [lia|].
  assert (K : xs ++ skipn (length xs) buffer = xs) by (rewrite L, skipn_all2 by lia; apply app_nil_r). rewrite K.
  exact (typed_odd Z.ltb (fun _ => true) (fun x => Ok (convert t x)) (fun x y => h <- halfInt t x y ;; dtruncTo t h) xs l' x eq_refl M N G).
Qed.

Lemma in_place_witness : let l := [0; 5; 0; 5; 0] in exists out, inPlace 10 int32 1 (mkBox [-1] [1]) (mkBox [1] [3]) (rowOf l) (Ok out) /\ rget 1 out [2] = Ok 0 /\
  MiddleValue Z.ltb (neighbors [-1] [1] (pixel [5] l) [2]) 5 /\ convert int32 5 = 5.
Proof.
  cbv zeta. exists (rowOf [0; 0; 0; 0; 0]). split; [|split; [reflexivity|split; [split; [vm_compute; tauto|split; vm_compute; try reflexivity; try discriminate]|reflexivity]]].
  apply (place_apply 10 int32 1 _ _ _ [[1]; [2]; [3]]); [reflexivity|].
  assert (S3 : forall l l' : list Z, Permutation l l' -> (forall x y, In x (firstn 2 l') -> In y (skipn 1 l') -> (y <? x) = false) -> NthElement Z.ltb l (Z.of_nat 3 / 2) l').
  { intros l l' P H. apply nth_sorted; [exact P|exact H|vm_compute; discriminate]. }
  eapply (in_place_step int32 _ [1] _ _ _ _ [0; 5; 0] [0; 0; 5] 0); [reflexivity|reflexivity|reflexivity|reflexivity|apply S3; [apply perm_skip, perm_swap|]|reflexivity|reflexivity|].
  { intros x y Hx Hy; vm_compute in Hx, Hy; intuition (subst; reflexivity). }
  eapply (in_place_step int32 _ [2] _ _ _ _ [0; 0; 5] [0; 0; 5] 0); [reflexivity|reflexivity|reflexivity|reflexivity|apply S3; [apply Permutation_refl|]|reflexivity|reflexivity|].
  { intros x y Hx Hy; vm_compute in Hx, Hy; intuition (subst; reflexivity). }
  eapply (in_place_step int32 _ [3] _ _ _ _ [0; 5; 0] [0; 0; 5] 0); [reflexivity|reflexivity|reflexivity|reflexivity|apply S3; [apply perm_skip, perm_swap|]|reflexivity|reflexivity|].
  { intros x y Hx Hy; vm_compute in Hx, Hy; intuition (subst; reflexivity). }
  constructor.
Qed.

(** For the examples *)
Lemma row_runnable_part lo hi : 1 <= lo -> lo <= hi -> hi <= 3 -> Runnable [-1] [1] (mkBox [lo] [hi]) (pixel [5] [3; 1; 4; 1; 5]) (rget 1 (rowOf [3; 1; 4; 1; 5])) (rowOf (repeat 0 5)).
Proof.
  intros H1 H2 H3. split; [discriminate|]. split; [constructor; [lia|constructor]|]. split; [|split; [exists [lo]; constructor; [lia|constructor]|split; [|split; [|reflexivity]]]].
  - intros p q Hp Hq. inversion Hp as [|? ? i ? ? ? Hi Hp']; subst. inversion Hp'; subst. inversion Hq as [|? ? j ? ? ? Hj Hq']; subst. inversion Hq'; subst.
    unfold neighbor. cbn [combine map fst snd].
    assert (C : i + j = 0 \/ i + j = 1 \/ i + j = 2 \/ i + j = 3 \/ i + j = 4) by lia. destruct C as [->|[->|[->|[->| ->]]]]; reflexivity.
  - intros p Hp. inversion Hp as [|? ? i ? ? ? Hi Hp']; subst. inversion Hp'; subst. constructor; [cbn; lia|constructor].
  - split; [discriminate|]. split; [constructor; [cbn; lia|constructor]|reflexivity].
Qed.

Lemma two_tiles : let regions := [mkBox [3] [3]; mkBox [1] [2]] in
  RunnableOn [-1] [1] regions (pixel [5] [3; 1; 4; 1; 5]) (rget 1 (rowOf [3; 1; 4; 1; 5])) (rowOf (repeat 0 5)) /\ Disjoint regions /\ windowSize [-1] [1] mod 2 = 1 /\
  (forall p, InBox (mkBox [1] [3]) p <-> InSome regions p).
Proof.
  cbv zeta. split; [|split; [|split; [reflexivity|]]].
  - split; [discriminate|]. apply Forall_cons; [apply row_runnable_part; lia|]. apply Forall_cons; [apply row_runnable_part; lia|]. constructor.
  - intros i j a c p Hij Ea Ec Ip Iq. destruct i as [|[|i]], j as [|[|j]]; try (now apply Hij); cbn [nth_error] in *; try (destruct i; discriminate); try (destruct j; discriminate);
      injection Ea as <-; injection Ec as <-; inversion Ip as [|? ? k ? ? ? Hk Hp']; subst; inversion Iq; subst; lia.
  - intros p. split.
    + intros H. inversion H as [|? ? k ? ? ? Hk Hp']; subst. inversion Hp'; subst. destruct (Z.eq_dec k 3) as [->|N].
      * exists (mkBox [3] [3]). split; [left; reflexivity|]. constructor; [lia|constructor].
      * exists (mkBox [1] [2]). split; [right; left; reflexivity|]. constructor; [lia|constructor].
    + intros (r & [<-|[<-|[]]] & H); inversion H as [|? ? k ? ? ? Hk Hp']; subst; inversion Hp'; subst; constructor; try lia; constructor.
Qed.
