(** Proofs about images with several channels. *)
From Coq Require Import QArith Lqa.
From Verif Require Import Res Lemmas VecModel BoxModel RasterModel ArithModel TypesModel ContainerProofs ChannelModel Spec ChannelSpec RasterSpec ArithSpec IndexProofs AccessProofs ViewProofs ArithProofs.
Open Scope Z_scope.

Lemma zsetN_spec {A} (ys : list A) : forall out a, Allocated out a (length ys) ->
  exists o, zsetN out a ys = Ok o /\ Frame out o a (length ys) /\ forall k, 0 <= k < Z.of_nat (length ys) -> zget o (a + k) = zget ys k.
Proof.
  induction ys as [|y ys IH]; intros out a HA; cbn [zsetN length].
  - exists out. split; [reflexivity|]. split; [apply Frame_refl|]. intros; lia.
  - destruct (Allocated_zset _ _ _ y HA) as [o1 E1]. rewrite E1. cbn [bind].
    destruct (IH o1 (a + 1)) as (o & E & F & P); [exact (Allocated_step _ _ _ _ _ E1 HA)|].
    exists o. split; [exact E|]. split; [exact (Frame_step _ _ _ _ _ _ E1 F)|]. intros k Hk. destruct (Z.eq_dec k 0) as [->|N].
    + rewrite Z.add_0_r, zget_cons_0. exact (Frame_first _ _ _ _ _ _ E1 F).
    + rewrite zget_cons_S by lia. rewrite <- P by (cbn in Hk; lia). f_equal. lia.
Qed.

Section Blocks.
Context {A B : Type}.
Variables (c d : Z) (g : list A -> list B).
Hypothesis Hc : 1 <= c.
Hypothesis Hd : 0 <= d.
Hypothesis Hg : forall xs, length xs = Z.to_nat c -> length (g xs) = Z.to_nat d.

Lemma blockLoop_spec m fuel : forall j data out, (m < fuel)%nat -> 0 <= j ->
  Z.of_nat (length data) = c * (j + Z.of_nat m) -> Z.of_nat (length out) = d * (j + Z.of_nat m) ->
  exists o, blockLoop fuel c d g (c * j) (d * j) data out = Some (Ok o) /\ length o = length out /\
    (forall i, i < d * j -> zget o i = zget out i) /\
    forall i k, j <= i < j + Z.of_nat m -> 0 <= k < d ->
      exists xs, zgetN (Z.to_nat c) data (c * i) = Ok xs /\ zget o (d * i + k) = zget (g xs) k.
Proof.
  revert fuel. induction m as [|m IH]; intros [|fuel] j data out HF Hj LD LO; try lia; cbn [blockLoop].
  - replace (c * j =? Z.of_nat (length data)) with true by nia. exists out. repeat split; auto. intros; lia.
  - replace (c * j =? Z.of_nat (length data)) with false by nia.
    destruct (zgetN_spec (Z.to_nat c) data (c * j)) as (xs & Ex & Lx & Px); [split; nia|]. rewrite Ex. cbn [bind].
    destruct (zsetN_spec (g xs) out (d * j)) as (o1 & E1 & [L1 F1] & P1); [rewrite (Hg xs Lx); split; nia|]. rewrite E1.
    replace (c * j + c) with (c * (j + 1)) by lia. replace (d * j + d) with (d * (j + 1)) by lia.
    destruct (IH fuel (j + 1) data o1) as (o & E & L & F & P); [lia|lia|lia|lia|].
    exists o. split; [exact E|]. split; [lia|]. split.
    + intros i Hi. rewrite F by nia. apply F1. unfold Outside. rewrite (Hg xs Lx). lia.
    + intros i k Hi Hk. destruct (Z.eq_dec i j) as [->|N].
      * exists xs. split; [exact Ex|]. rewrite F by nia. apply P1. rewrite (Hg xs Lx). lia.
      * apply P; lia.
Qed.
End Blocks.

Section Weighted.
Context {A : Type}.
Variables (zero : A) (add mul : A -> A -> A).

Lemma weightedLoop_spec n ws m fuel : forall j data image, (m < fuel)%nat -> 0 <= j -> 0 <= n -> Z.of_nat (length ws) <= n ->
  Z.of_nat (length data) = n * (j + Z.of_nat m) -> Z.of_nat (length image) = j + Z.of_nat m ->
  exists o, weightedLoop zero add mul fuel n ws (n * j) j data image = Some (Ok o) /\ length o = length image /\
    (forall i, i < j -> zget o i = zget image i) /\
    forall i, j <= i < j + Z.of_nat m ->
      exists xs, zgetN (length ws) data (n * i) = Ok xs /\ zget o i = Ok (innerProduct add mul zero ws xs).
Proof.
  revert fuel. induction m as [|m IH]; intros [|fuel] j data image HF Hj Hn HW LD LO; try lia; cbn [weightedLoop].
  - replace (j =? Z.of_nat (length image)) with true by lia. exists image. repeat split; auto. intros; lia.
  - replace (j =? Z.of_nat (length image)) with false by lia.
    destruct (zgetN_spec (length ws) data (n * j)) as (xs & Ex & Lx & Px); [split; nia|]. rewrite Ex. cbn [bind].
    destruct (zset image j (innerProduct add mul zero ws xs)) as [o1| |] eqn:E1.
    2,3: exfalso; rewrite zset_ok in E1 by lia; discriminate.
    pose proof (zset_length _ _ _ _ E1) as L1. replace (n * j + n) with (n * (j + 1)) by lia.
    destruct (IH fuel (j + 1) data o1) as (o & E & L & F & P); [lia|lia|lia|lia|lia|lia|].
    exists o. split; [exact E|]. split; [lia|]. split.
    + intros i Hi. rewrite F by lia. apply (zset_get_neq _ _ _ _ _ E1). lia.
    + intros i Hi. destruct (Z.eq_dec i j) as [->|N].
      * exists xs. split; [exact Ex|]. rewrite F by lia. exact (zset_get_eq _ _ _ _ E1).
      * apply P; lia.
Qed.
End Weighted.

Lemma zgetN_elements {A} n (mem : list A) a l : zgetN n mem a = Ok l -> length l = n /\ forall k, 0 <= k < Z.of_nat n -> zget l k = zget mem (a + k).
Proof.
  revert a l. induction n as [|n IH]; intros a l E; cbn [zgetN] in E.
  - injection E as <-. split; [reflexivity|]. intros; lia.
  - destruct (zget mem a) as [x| |] eqn:Ex; cbn [bind] in E; try discriminate. destruct (zgetN n mem (a + 1)) as [t| |] eqn:Et; cbn [bind] in E; try discriminate.
    injection E as <-. destruct (IH _ _ Et) as [L P]. split; [cbn; lia|]. intros k Hk. destruct (Z.eq_dec k 0) as [->|N].
    + rewrite Z.add_0_r, zget_cons_0. congruence.
    + rewrite zget_cons_S by lia. rewrite P by lia. f_equal. lia.
Qed.

Lemma rget_cons {A} n (r : raster A) c shape k p : rshape r = c :: shape -> n = -1 \/ n = Z.of_nat (length (rshape r)) ->
  length p = length shape -> rget n r (k :: p) = zget (rdata r) (k + c * rank shape p).
Proof.
  intros E HN L. unfold rget. rewrite rindex_rank; [|rewrite E; discriminate|rewrite E; cbn; lia]. cbn [bind]. rewrite E, rank_cons. reflexivity.
Qed.

Lemma channels_first {A B} (g : list A -> list B) c d shape (inp : raster A) (out : raster B) fuel :
  WF inp -> WF out -> rshape inp = c :: shape -> rshape out = d :: shape -> 1 <= c ->
  (forall xs, length xs = Z.to_nat c -> length (g xs) = Z.to_nat d) -> prod shape < Z.of_nat fuel ->
  exists out', mapChannels fuel c d g inp out = Some (Ok out') /\ WF out' /\ rshape out' = rshape out /\
    forall p, InDomain shape p -> exists xs, length xs = Z.to_nat c /\
      Channels (1 + Z.of_nat (length shape)) inp p xs /\ Channels (1 + Z.of_nat (length shape)) out' p (g xs).
Proof.
  intros [_ [NI LI]] [_ [NO LO]] SI SO Hc Hg HF. rewrite SI in *. rewrite SO in *. inversion NI as [|? ? _ NS]; subst. inversion NO as [|? ? Hd _]; subst.
  change (prod (c :: shape)) with (c * prod shape) in LI. change (prod (d :: shape)) with (d * prod shape) in LO.
  assert (P0 : 0 <= prod shape). { clear -NS. induction NS; cbn; [lia|]. change (fold_right Z.mul 1 l) with (prod l). nia. }
  unfold mapChannels. destruct (blockLoop_spec c d g Hc Hd Hg (Z.to_nat (prod shape)) fuel 0 (rdata inp) (rdata out)) as (o & E & L & _ & P); [lia|lia|nia|nia|].
  rewrite !Z.mul_0_r in E. rewrite E. cbn [bind]. exists (mkRaster (d :: shape) o). rewrite SO. split; [reflexivity|].
  split; [split; [discriminate|]; split; [exact NO|cbn [rdata rshape]; change (prod (d :: shape)) with (d * prod shape); lia]|]. split; [reflexivity|].
  intros p Hp. pose proof (rank_bounds shape p Hp) as RB. pose proof (InDomain_length shape p Hp) as LP.
  assert (X : exists xs, zgetN (Z.to_nat c) (rdata inp) (c * rank shape p) = Ok xs /\ forall k, 0 <= k < d -> zget o (d * rank shape p + k) = zget (g xs) k).
  { destruct (Z.eq_dec d 0) as [->|N].
    - destruct (zgetN_spec (Z.to_nat c) (rdata inp) (c * rank shape p)) as (xs & Ex & _); [split; nia|]. exists xs. split; [exact Ex|]. intros; lia.
    - destruct (P (rank shape p) 0) as (xs & Ex & _); [lia|lia|]. exists xs. split; [exact Ex|]. intros k Hk.
      destruct (P (rank shape p) k) as (xs' & Ex' & Ek); [lia|lia|]. congruence. }
  destruct X as (xs & Ex & Ek). destruct (zgetN_elements _ _ _ _ Ex) as [LX PX]. exists xs. split; [exact LX|]. split.
  - intros k Hk. rewrite (rget_cons _ inp c shape); [|exact SI|right; rewrite SI; cbn [length]; lia|lia]. rewrite PX by lia. f_equal. lia.
  - intros k Hk. rewrite Hg in Hk by exact LX. rewrite (rget_cons _ (mkRaster (d :: shape) o) d shape); [|reflexivity|right; cbn [rshape length]; lia|lia].
    cbn [rdata]. rewrite <- Ek by lia. f_equal. lia.
Qed.

Lemma weighted_sum {A} (zero : A) add mul ws shape (cube image : raster A) fuel :
  WF cube -> WF image -> rshape cube = Z.of_nat (length ws) :: shape -> rshape image = shape -> prod shape < Z.of_nat fuel ->
  exists image', weightedSum zero add mul fuel (Z.of_nat (length ws)) ws cube image = Some (Ok image') /\ WF image' /\ rshape image' = shape /\
    forall p, InDomain shape p -> exists xs, length xs = length ws /\ Channels (1 + Z.of_nat (length shape)) cube p xs /\
      rget (Z.of_nat (length shape)) image' p = Ok (innerProduct add mul zero ws xs).
Proof.
  intros [_ [NI LI]] [NE [NO LO]] SI SO HF. rewrite SI in *. rewrite SO in *.
  change (prod (Z.of_nat (length ws) :: shape)) with (Z.of_nat (length ws) * prod shape) in LI.
  unfold weightedSum. destruct (weightedLoop_spec zero add mul (Z.of_nat (length ws)) ws (Z.to_nat (prod shape)) fuel 0 (rdata cube) (rdata image)) as (o & E & L & _ & P); [lia|lia|lia|lia|lia|lia|].
  rewrite !Z.mul_0_r in E. rewrite E. cbn [bind]. exists (mkRaster shape o). rewrite SO. split; [reflexivity|].
  split; [split; [exact NE|]; split; [exact NO|cbn [rdata rshape]; lia]|]. split; [reflexivity|].
  intros p Hp. pose proof (rank_bounds shape p Hp) as RB. pose proof (InDomain_length shape p Hp) as LP.
  destruct (P (rank shape p)) as (xs & Ex & Ek); [lia|]. destruct (zgetN_elements _ _ _ _ Ex) as [LX PX]. exists xs. split; [exact LX|]. split.
  - intros k Hk. rewrite (rget_cons _ cube (Z.of_nat (length ws)) shape); [|exact SI|right; rewrite SI; cbn [length]; lia|lia]. rewrite PX by lia. f_equal. lia.
  - unfold rget. cbn [rshape rdata]. rewrite rindex_rank by (auto; lia). exact Ek.
Qed.

Lemma section_offset n s1 l k : n = Z.of_nat (length (s1 ++ [l])) -> s1 <> [] -> Positive s1 -> 0 <= k < l ->
  exists v, section1 n (s1 ++ [l]) k = Ok v /\ vshape v = s1 /\ voffset v = prod s1 * k.
Proof.
  intros Hn Hne Hp Hk. destruct (section1_spec n s1 l k (n - 1) Hn (or_intror eq_refl) Hne Hp Hk) as (v & E & S & P).
  exists v. split; [exact E|]. split; [exact S|].
  assert (HD : InDomain s1 (repeat 0 (length s1))). { clear -Hp. induction Hp; cbn [length repeat]; constructor; auto; lia. }
  destruct (P _ HD) as (i & Ei & Ej & _). rewrite S in Ei. rewrite app_length in Hn; cbn in Hn.
  pose proof (InDomain_length _ _ HD) as L.
  rewrite rindex_rank in Ei by (auto; lia). rewrite rindex_rank in Ej; [|destruct s1; discriminate|rewrite !app_length; cbn; lia].
  rewrite rank_app in Ej by exact L. replace (rank [l] [k]) with k in Ej by (unfold rank; cbn; lia).
  assert (Ei' : rank s1 (repeat 0 (length s1)) = i) by congruence. assert (Ej' : rank s1 (repeat 0 (length s1)) + prod s1 * k = voffset v + i) by congruence. lia.
Qed.

Lemma channel_last {A} (f : A -> A) n s1 l k (r : raster A) :
  WF r -> rshape r = s1 ++ [l] -> n = Z.of_nat (length (rshape r)) -> s1 <> [] -> Positive s1 -> 0 <= k < l ->
  exists r', updateSection f n k r = Ok r' /\ WF r' /\ rshape r' = rshape r /\
    forall q z, InDomain (rshape r) (q ++ [z]) ->
      rget n r' (q ++ [z]) = (x <- rget n r (q ++ [z]) ;; Ok (if z =? k then f x else x)).
Proof.
  intros [W1 [W2 W3]] S Hn Hne Hp Hk. unfold updateSection. rewrite S in *.
  destruct (section_offset n s1 l k Hn Hne Hp Hk) as (v & E & SV & OV). rewrite E. cbn [bind]. rewrite SV, OV, shapeSize_prod by auto.
  pose proof (prod_pos s1 Hp) as PP.
  assert (PA : prod (s1 ++ [l]) = prod s1 * l) by (rewrite prod_app; unfold prod at 2; cbn; lia).
  assert (HA : Allocated (rdata r) (prod s1 * k) (Z.to_nat (prod s1))) by (split; nia).
  destruct (transform1_spec (fun x => Ok (f x)) _ _ _ HA) as (mem & Em & [FL F] & P).
  { intros i Hi. destruct (zget_in_range (rdata r) (prod s1 * k + i)) as [x Ex]; [nia|]. rewrite Ex. cbn [bind]. eauto. }
  rewrite Em. cbn [bind]. eexists. split; [reflexivity|]. split; [split; [destruct s1; discriminate|split; [exact W2|cbn [rdata rshape]; lia]]|]. split; [reflexivity|].
  intros q z Hq. pose proof (InDomain_length _ _ Hq) as L. rewrite !app_length in L. cbn in L.
  pose proof Hq as Hq'. rewrite (InDomain_app s1 [l] q [z]) in Hq' by lia. destruct Hq' as [H1 H2]. clear E SV OV. inversion H2 as [|? ? ? ? Hz _]; subst.
  pose proof (rank_bounds _ _ H1) as RB. unfold rget. cbn [rshape rdata]. rewrite S.
  rewrite rindex_rank; [|destruct s1; discriminate|rewrite !app_length; cbn; lia]. cbn [bind]. rewrite rank_app by lia.
  replace (rank [l] [z]) with z by (unfold rank; cbn; lia).
  destruct (z =? k) eqn:EZ.
  - assert (z = k) by lia. subst z. rewrite (Z.add_comm (rank s1 q)). rewrite P by lia. reflexivity.
  - rewrite F by (unfold Outside; nia). destruct (zget_in_range (rdata r) (rank s1 q + prod s1 * z)) as [x Ex]; [nia|]. rewrite Ex. reflexivity.
Qed.

(** Hue, saturation and value. *)
Definition nrm (z : Z) : Q := (1 / 255 * inject_Z z)%Q.
Lemma nrm_def z : (nrm z == (1 # 255) * inject_Z z)%Q.
Proof. unfold nrm. field. Qed.
Lemma nrm_le a b : (nrm a <= nrm b)%Q <-> a <= b.
Proof. rewrite !nrm_def, Zle_Qle. split; intros; lra. Qed.
Lemma nrm_lt a b : (nrm a < nrm b)%Q <-> a < b.
Proof. rewrite !nrm_def, Zlt_Qlt. split; intros; lra. Qed.
Lemma nrm_eq a b : (nrm a == nrm b)%Q <-> a = b.
Proof. rewrite !nrm_def. split; [intros H; apply inject_Z_injective; lra|intros ->; reflexivity]. Qed.
Lemma qltb_nrm a b : qltb (nrm a) (nrm b) = (a <? b).
Proof.
  destruct (a <? b) eqn:E; [apply qltb_spec, nrm_lt; lia|apply qltb_false, nrm_le; lia].
Qed.
Lemma qmax3_nrm a b c : qmax3 (nrm a) (nrm b) (nrm c) = nrm (Z.max a (Z.max b c)).
Proof.
  unfold qmax3. rewrite qltb_nrm. destruct (a <? b) eqn:E; rewrite qltb_nrm.
  - destruct (b <? c) eqn:F; f_equal; lia.
  - destruct (a <? c) eqn:F; f_equal; lia.
Qed.
Lemma qmin3_nrm a b c : qmin3 (nrm a) (nrm b) (nrm c) = nrm (Z.min a (Z.min b c)).
Proof.
  unfold qmin3. rewrite qltb_nrm. destruct (b <? a) eqn:E; rewrite qltb_nrm.
  - destruct (c <? b) eqn:F; f_equal; lia.
  - destruct (c <? a) eqn:F; f_equal; lia.
Qed.

Lemma hue_difference (M D x y : Z) : 0 < D -> 
  ((60 * (nrm M - nrm x) + 180 * (nrm D)) / nrm D - (60 * (nrm M - nrm y) + 180 * nrm D) / nrm D == 60 * (inject_Z (y - x) / inject_Z D))%Q.
Proof.
  intros HD. unfold nrm. unfold Z.sub. rewrite inject_Z_plus, inject_Z_opp. field.
  intros H. apply (inject_Z_injective D 0) in H. lia.
Qed.
Lemma ratio_bounds x D : 0 < D -> - D <= x <= D -> (-1 <= inject_Z x / inject_Z D <= 1)%Q.
Proof.
  intros HD Hx. assert (0 < inject_Z D)%Q by (change 0%Q with (inject_Z 0); rewrite <- Zlt_Qlt; lia).
  assert (inject_Z x <= inject_Z D)%Q by (rewrite <- Zle_Qle; lia).
  assert (- inject_Z D <= inject_Z x)%Q by (rewrite <- inject_Z_opp, <- Zle_Qle; lia).
  set (d := inject_Z D) in *. set (y := inject_Z x) in *. clearbody d y. split; [apply Qle_shift_div_l|apply Qle_shift_div_r]; try assumption; ring_simplify; lra.
Qed.

Lemma hsv_spec r g b lo hi : 0 <= r <= 255 -> 0 <= g <= 255 -> 0 <= b <= 255 ->
  hi = Z.max r (Z.max g b) -> lo = Z.min r (Z.min g b) -> lo < hi ->
  exists h s v, rgbToHsv r g b = mkHsv (Some h) (Some s) (Some v) /\
    (0 <= h < 360)%Q /\ (0 < s <= 1)%Q /\ (0 < v <= 1)%Q /\
    (v == inject_Z hi / 255)%Q /\ (s == inject_Z (hi - lo) / inject_Z hi)%Q /\ HueOf r g b lo hi h.
Proof.
  intros Hr Hg Hb Hhi Hlo Hlt. unfold rgbToHsv. fold (nrm r). fold (nrm g). fold (nrm b). rewrite qmin3_nrm, qmax3_nrm, <- Hhi, <- Hlo.
  assert (ED : (nrm hi - nrm lo == nrm (hi - lo))%Q) by (unfold nrm, Z.sub; rewrite inject_Z_plus, inject_Z_opp; ring).
  assert (PD : (0 < inject_Z (hi - lo))%Q) by (change 0%Q with (inject_Z 0); rewrite <- Zlt_Qlt; lia).
  assert (PH : (0 < inject_Z hi)%Q) by (change 0%Q with (inject_Z 0); rewrite <- Zlt_Qlt; lia).
  assert (UH : (inject_Z hi <= 255)%Q) by (change 255%Q with (inject_Z 255); rewrite <- Zle_Qle; lia).
  assert (DH : (inject_Z (hi - lo) <= inject_Z hi)%Q) by (rewrite <- Zle_Qle; lia).
  destruct (Qeq_bool (nrm hi) 0) eqn:E1; [apply Qeq_bool_iff in E1; exfalso; rewrite nrm_def in E1; lra|].
  destruct (Qeq_bool (nrm hi - nrm lo) 0) eqn:E2; [apply Qeq_bool_iff in E2; exfalso; rewrite ED in E2; rewrite nrm_def in E2; lra|].
  do 3 eexists. split; [reflexivity|].
  set (h0 := if Qeq_bool (nrm r) (nrm hi) then _ else _).
  assert (K : (h0 < 0 /\ -60 <= h0)%Q /\ HueOf r g b lo hi (h0 + 360)%Q \/ (0 <= h0 < 360)%Q /\ HueOf r g b lo hi h0).
  { pose proof (fun x y => hue_difference hi (hi - lo) x y ltac:(lia)) as HDF.
    assert (SAME : forall x, ((60 * (nrm hi - nrm x) + 180 * (nrm hi - nrm lo)) / (nrm hi - nrm lo) == (60 * (nrm hi - nrm x) + 180 * nrm (hi - lo)) / nrm (hi - lo))%Q) by (intros x; rewrite ED; reflexivity).
    subst h0. destruct (Qeq_bool (nrm r) (nrm hi)) eqn:ER.
    - apply Qeq_bool_iff in ER; apply (proj1 (nrm_eq _ _)) in ER.
      match goal with |- context [(?x < 0)%Q] => assert (EH : (x == 60 * (inject_Z (g - b) / inject_Z (hi - lo)))%Q) by (rewrite !SAME; apply HDF); set (h := x) in * end. clearbody h. clear SAME HDF.
      pose proof (ratio_bounds (g - b) (hi - lo) ltac:(lia) ltac:(lia)) as RB. set (q := (inject_Z (g - b) / inject_Z (hi - lo))%Q) in *.
      destruct (Qlt_le_dec h 0) as [N|N]; [left|right].
      + split; [lra|]. exists 1. left. split; [unfold Largest; lia|]. fold q. change (inject_Z 1) with 1%Q. lra.
      + split; [lra|]. exists 0. left. split; [unfold Largest; lia|]. fold q. change (inject_Z 0) with 0%Q. lra.
    - destruct (Qeq_bool (nrm g) (nrm hi)) eqn:EG; right.
      + apply Qeq_bool_iff in EG; apply (proj1 (nrm_eq _ _)) in EG.
        match goal with |- context [(0 <= ?x < 360)%Q] => assert (EH : (x == 120 + 60 * (inject_Z (b - r) / inject_Z (hi - lo)))%Q) by (rewrite !SAME, <- HDF; ring); set (h := x) in * end. clearbody h. clear SAME HDF.
        pose proof (ratio_bounds (b - r) (hi - lo) ltac:(lia) ltac:(lia)) as RB. set (q := (inject_Z (b - r) / inject_Z (hi - lo))%Q) in *.
        split; [lra|]. exists 0. right; left. split; [unfold Largest; lia|]. fold q. change (inject_Z 0) with 0%Q. lra.
      + assert (b = hi). { assert (r <> hi) by (intros X; apply (proj2 (nrm_eq _ _)) in X; apply Qeq_bool_iff in X; congruence). assert (g <> hi) by (intros X; apply (proj2 (nrm_eq _ _)) in X; apply Qeq_bool_iff in X; congruence). lia. }
        match goal with |- context [(0 <= ?x < 360)%Q] => assert (EH : (x == 240 + 60 * (inject_Z (r - g) / inject_Z (hi - lo)))%Q) by (rewrite !SAME, <- HDF; ring); set (h := x) in * end. clearbody h. clear SAME HDF.
        pose proof (ratio_bounds (r - g) (hi - lo) ltac:(lia) ltac:(lia)) as RB. set (q := (inject_Z (r - g) / inject_Z (hi - lo))%Q) in *.
        split; [lra|]. exists 0. right; right. split; [unfold Largest; lia|]. fold q. change (inject_Z 0) with 0%Q. lra. }
  clearbody h0. assert (KS : ((nrm hi - nrm lo) / nrm hi == inject_Z (hi - lo) / inject_Z hi)%Q) by (rewrite ED; unfold nrm; field; lra).
  assert (KV : (nrm hi == inject_Z hi / 255)%Q) by (unfold nrm; field).
  repeat apply conj.
  1,2,9: destruct K as [[K1 K2]|[K1 K2]]; [destruct (qltb h0 0) eqn:E; [|apply qltb_false in E; lra]|destruct (qltb h0 0) eqn:E; [apply qltb_spec in E; lra|destruct (Qle_bool 360 h0) eqn:E'; [apply Qle_bool_iff in E'; lra|]]]; try lra; auto.
  - rewrite KS. apply Qlt_shift_div_l; lra.
  - rewrite KS. apply Qle_shift_div_r; lra.
  - rewrite nrm_def; lra.
  - rewrite nrm_def; lra.
  - exact KV.
  - exact KS.
Qed.

Lemma hsv_grey_iff r g b : 0 <= r <= 255 -> 0 <= g <= 255 -> 0 <= b <= 255 ->
  (hsvH (rgbToHsv r g b) = None <-> r = g /\ g = b) /\ (hsvS (rgbToHsv r g b) = None <-> r = g /\ g = b) /\
  (hsvV (rgbToHsv r g b) = None <-> r = 0 /\ g = 0 /\ b = 0).
Proof.
  intros Hr Hg Hb. destruct (Z.eq_dec (Z.min r (Z.min g b)) (Z.max r (Z.max g b))) as [E|N].
  - assert (r = g /\ g = b) as [-> ->] by lia. unfold rgbToHsv. fold (nrm b). rewrite qmin3_nrm, qmax3_nrm. rewrite !Z.max_id, !Z.min_id.
    destruct (Qeq_bool (nrm b) 0) eqn:E1.
    + apply Qeq_bool_iff in E1. assert (nrm b == nrm 0)%Q by (rewrite nrm_def in E1 |- *; rewrite nrm_def; change (inject_Z 0) with 0%Q; lra). apply (proj1 (nrm_eq _ _)) in H. cbn. tauto.
    + assert (b <> 0) by (intros ->; discriminate E1). assert (E2 : Qeq_bool (nrm b - nrm b) 0 = true) by (apply Qeq_bool_iff; ring). rewrite E2. cbn. split; [tauto|]. split; [tauto|]. split; [discriminate|lia].
  - destruct (hsv_spec r g b _ _ Hr Hg Hb eq_refl eq_refl) as (h & s & v & E & _); [lia|]. rewrite E. cbn.
    split; [split; [discriminate|lia]|]. split; split; try discriminate; lia.
Qed.

Lemma zget_concat {A} c (l : list (list A)) i xs k : Forall (fun x => Z.of_nat (length x) = c) l ->
  zget l i = Ok xs -> 0 <= k < c -> zget (concat l) (k + c * i) = zget xs k.
Proof.
  intros H. revert i. induction H as [|x l Hx H IH]; intros i E Hk.
  - pose proof (zget_range _ _ _ E). cbn in *. lia.
  - pose proof (zget_range _ _ _ E) as B. cbn [concat]. destruct (Z.eq_dec i 0) as [->|N].
    + rewrite zget_cons_0 in E. injection E as <-. rewrite zget_app_l by lia. f_equal. lia.
    + rewrite zget_cons_S in E by lia. rewrite zget_app_r by nia. rewrite <- (IH (i - 1)) by auto. f_equal. nia.
Qed.
Lemma concat_length_all {A} c (l : list (list A)) : Forall (fun x => Z.of_nat (length x) = c) l -> Z.of_nat (length (concat l)) = c * Z.of_nat (length l).
Proof. intros H. induction H; cbn [concat length]; [lia|]. rewrite app_length. lia. Qed.

Lemma flattened_spec {A} c (r : raster (list A)) : WF r -> Structures c r -> 0 <= c ->
  WF (flattened c r) /\ forall p, InDomain (rshape r) p -> exists xs, rget (Z.of_nat (length (rshape r))) r p = Ok xs /\
    Z.of_nat (length xs) = c /\ Channels (1 + Z.of_nat (length (rshape r))) (flattened c r) p xs.
Proof.
  intros [W1 [W2 W3]] HS Hc. split.
  - split; [discriminate|]. split; [constructor; auto|]. cbn [flattened rdata rshape]. rewrite (concat_length_all c) by exact HS.
    change (prod (c :: rshape r)) with (c * prod (rshape r)). congruence.
  - intros p Hp. pose proof (rank_bounds _ _ Hp) as RB. pose proof (InDomain_length _ _ Hp) as LP.
    destruct (zget_in_range (rdata r) (rank (rshape r) p)) as [xs Ex]; [lia|]. exists xs.
    assert (LX : Z.of_nat (length xs) = c).
    { unfold Structures in HS. rewrite Forall_forall in HS. apply HS. apply zget_ok in Ex as [_ Ex]. exact (nth_error_In _ _ Ex). }
    split; [unfold rget; rewrite rindex_rank by (auto; lia); exact Ex|]. split; [exact LX|].
    intros k Hk. rewrite (rget_cons _ (flattened c r) c (rshape r)); [|reflexivity|right; cbn [flattened rshape length]; lia|lia].
    cbn [flattened rdata]. rewrite (zget_concat c (rdata r) _ xs) by (auto; lia). reflexivity.
Qed.

Lemma blockLoop_concat {A B} c d (g : list A -> list B) (l : list (list A)) fuel (out : list B) : 1 <= c -> 0 <= d ->
  (forall xs, length xs = Z.to_nat c -> length (g xs) = Z.to_nat d) -> Forall (fun x => Z.of_nat (length x) = c) l ->
  Z.of_nat (length out) = d * Z.of_nat (length l) -> (length l < fuel)%nat ->
  blockLoop fuel c d g 0 0 (concat l) out = Some (Ok (concat (map g l))).
Proof.
  intros Hc Hd Hg Hl LO HF. pose proof (concat_length_all c l Hl) as LC.
  destruct (blockLoop_spec c d g Hc Hd Hg (length l) fuel 0 (concat l) out) as (o & E & L & _ & P); [lia|lia|lia|lia|].
  rewrite !Z.mul_0_r in E. rewrite E. do 2 f_equal.
  assert (HM : Forall (fun x => Z.of_nat (length x) = d) (map g l)).
  { rewrite Forall_map. apply Forall_impl with (2 := Hl). intros x Hx. rewrite Hg; lia. }
  apply zget_ext; [pose proof (concat_length_all d _ HM) as X; rewrite map_length in X; lia|].
  intros i Hi. assert (0 < d) by nia. pose proof (Z.div_mod i d ltac:(lia)) as DM. pose proof (Z.mod_pos_bound i d ltac:(lia)) as MB.
  set (q := i / d) in *. set (k := i mod d) in *. clearbody q k.
  assert (HQ : 0 <= q < Z.of_nat (length l)) by nia.
  destruct (P q k) as (xs & Ex & Ek); [lia|lia|]. destruct (zget_in_range l q HQ) as [ys Ey].
  assert (xs = ys).
  { destruct (zgetN_elements _ _ _ _ Ex) as [LX PX]. assert (LY : Z.of_nat (length ys) = c). { rewrite Forall_forall in Hl. apply Hl. apply zget_ok in Ey as [_ Ey]. exact (nth_error_In _ _ Ey). }
    apply zget_ext; [lia|]. intros j Hj. rewrite PX by lia. rewrite (Z.add_comm (c * q)). apply zget_concat; auto. lia. }
  subst ys. replace i with (d * q + k) by lia. rewrite Ek, (Z.add_comm (d * q)). symmetry. apply zget_concat; auto. rewrite zget_map, Ey. reflexivity.
Qed.

Lemma structures_or_axis {A B} c d (g : list A -> list B) (rgb : raster (list A)) (out : raster B) fuel :
  WF rgb -> WF out -> Structures c rgb -> rshape out = d :: rshape rgb -> 1 <= c -> 
  (forall xs, length xs = Z.to_nat c -> length (g xs) = Z.to_nat d) -> prod (rshape rgb) < Z.of_nat fuel ->
  mapChannels fuel c d g (flattened c rgb) out = Some (Ok (flattened d (mkRaster (rshape rgb) (map g (rdata rgb))))).
Proof.
  intros [W1 [W2 W3]] [_ [NO LO]] HS SO Hc Hg HF. rewrite SO in *. inversion NO as [|? ? Hd _]; subst.
  change (prod (d :: rshape rgb)) with (d * prod (rshape rgb)) in LO.
  unfold mapChannels, flattened. cbn [rdata rshape]. rewrite (blockLoop_concat c d g) by (auto; lia). rewrite SO. reflexivity.
Qed.

Lemma innerProduct_fold {A} (add mul : A -> A -> A) ws : forall xs acc,
  innerProduct add mul acc ws xs = fold_left (fun acc wx => add acc (mul (fst wx) (snd wx))) (combine ws xs) acc.
Proof. induction ws as [|w ws IH]; intros [|x xs] acc; cbn [innerProduct combine fold_left]; auto. Qed.

Lemma weighted_sum_fold {A} (zero : A) add mul ws shape (cube image : raster A) fuel :
  WF cube -> WF image -> rshape cube = Z.of_nat (length ws) :: shape -> rshape image = shape -> prod shape < Z.of_nat fuel ->
  exists image', weightedSum zero add mul fuel (Z.of_nat (length ws)) ws cube image = Some (Ok image') /\ WF image' /\ rshape image' = shape /\
    forall p, InDomain shape p -> exists xs, length xs = length ws /\ Channels (1 + Z.of_nat (length shape)) cube p xs /\
      rget (Z.of_nat (length shape)) image' p = Ok (fold_left (fun acc wx => add acc (mul (fst wx) (snd wx))) (combine ws xs) zero).
Proof.
  intros WC WI SC SI HF. destruct (weighted_sum zero add mul ws shape cube image fuel WC WI SC SI HF) as (i & E & W & S & P).
  exists i. repeat split; auto; try apply W. intros p Hp. destruct (P p Hp) as (xs & L & C & G). exists xs. rewrite <- innerProduct_fold. auto.
Qed.
