From Verif Require Import Res VecModel BoxModel RasterModel SamplingModel LineKernelModel SeparableModel
  Spec BoxSpec RasterSpec KernelSpec SeparableSpec Lemmas IndexProofs BoxIterProofs BoxGeomProofs ContainerProofs LineKernelProofs.
From Coq Require Import Permutation.

(** Domains *)
Lemma inside_spec shape p : inside shape p = true <-> InDomain shape p.
Proof.
  revert p. induction shape as [|s shape IH]; intros [|x p]; cbn [inside].
  - split; auto; constructor.
  - split; [discriminate|inversion 1].
  - split; [discriminate|inversion 1].
  - rewrite InDomain_cons_iff, !andb_true_iff, IH, Z.leb_le, Z.ltb_lt. tauto.
Qed.

Lemma inside_false shape p : inside shape p = false <-> ~ InDomain shape p.
Proof. rewrite <- inside_spec. destruct (inside shape p); split; congruence. Qed.

Lemma rank_replace_gen shape pos k x y :
  length shape = length pos -> nth_error pos k = Some x ->
  rank shape (replace pos k y) = rank shape pos + (y - x) * prod (firstn k shape).
Proof.
  revert pos k; induction shape as [|s shape IH]; intros [|p pos] k Hl Hk; cbn in Hl; try lia.
  - destruct k; discriminate.
  - destruct k as [|k]; cbn in Hk.
    + injection Hk as ->. cbn [replace firstn]. rewrite !rank_cons. cbn. lia.
    + cbn [replace firstn]. rewrite !rank_cons, prod_cons, (IH pos k) by (auto; lia). lia.
Qed.

Lemma InDomain_replace shape p k y : InDomain shape p -> (k < length p)%nat -> 0 <= y < nth k shape 0 -> InDomain shape (replace p k y).
Proof.
  intros H. revert k. induction H as [|s x shape p Hx H IH]; intros [|k] Hk Hy; cbn in *; try lia; constructor; auto; lia || apply IH; lia.
Qed.

Lemma InDomain_replace_inv shape p k y : InDomain shape (replace p k y) -> (k < length p)%nat -> 0 <= y < nth k shape 0.
Proof.
  revert p k. induction shape as [|s shape IH]; intros [|x p] [|k] H Hk; cbn in *; try lia; inversion H; subst; auto.
  apply (IH p k); auto. lia.
Qed.

Lemma InDomain_nth shape p k x : InDomain shape p -> nth_error p k = Some x -> 0 <= x < nth k shape 0.
Proof.
  intros H. revert k. induction H as [|s y shape p Hy H IH]; intros [|k] Hk; cbn in *; try discriminate; auto. injection Hk as ->. auto.
Qed.

Lemma nth_replace_eq {A} (l : list A) k x d : (k < length l)%nat -> nth k (replace l k x) d = x.
Proof. revert k; induction l as [|a l IH]; intros [|k] H; cbn in *; try lia; auto. apply IH. lia. Qed.

Lemma nth_replace_neq {A} (l : list A) k j x d : k <> j -> nth j (replace l k x) d = nth j l d.
Proof. revert k j; induction l as [|a l IH]; intros [|k] [|j] H; cbn in *; auto; try lia; apply IH; lia. Qed.

Lemma replace_replace {A} (l : list A) k x y : replace (replace l k x) k y = replace l k y.
Proof. revert k; induction l as [|a l IH]; intros [|k]; cbn; auto. f_equal. apply IH. Qed.

Lemma replace_comm {A} (l : list A) j k x y : j <> k -> replace (replace l j x) k y = replace (replace l k y) j x.
Proof. revert j k; induction l as [|a l IH]; intros [|j] [|k] H; cbn; auto; try lia. f_equal. apply IH. lia. Qed.

Lemma replace_same {A} (l : list A) k x : nth_error l k = Some x -> replace l k x = l.
Proof. revert k; induction l as [|a l IH]; intros [|k] H; cbn in *; try discriminate; [congruence|]. f_equal. apply IH, H. Qed.

Lemma pixel_in shape data p : InDomain shape p -> Z.of_nat (length data) = prod shape -> zget data (rank shape p) = Ok (pixel shape data p).
Proof.
  intros H Hl. unfold pixel. rewrite (proj2 (inside_spec _ _) H). apply padded_in. rewrite Hl. now apply rank_bounds.
Qed.

Lemma pixel_out shape data p : ~ InDomain shape p -> pixel shape data p = 0.
Proof. intros H. unfold pixel. now rewrite (proj2 (inside_false _ _) H). Qed.

Lemma InBox_domain shape p : InBox (fromShape (repeat 0 (length shape)) shape) p <-> InDomain shape p.
Proof.
  unfold InBox, fromShape. cbn [bfront bback]. rewrite InDomain_Between.
  assert (E : vadd (repeat 0 (length shape)) shape = shape).
  { induction shape as [|s shape IH]; auto. cbn [length repeat vadd map2]. change (map2 Z.add) with vadd. now rewrite IH. }
  now rewrite E.
Qed.

(** One axis *)
Section Along.
Variables (shape data : list Z) (k : list Z) (o : Z) (a : nat).
Let n := Z.of_nat (length shape).
Let len := nth a shape 0.
Let stride := prod (firstn a shape).
Hypothesis Ha : (a < length shape)%nat.
Hypothesis Hpos : Positive shape.
Hypothesis Hdata : Z.of_nat (length data) = prod shape.
Hypothesis Ho : 0 <= o < Z.of_nat (length k).
Hypothesis Hk : Z.of_nat (length k) <= len.
Hypothesis Hlen : len < 2 ^ 61.

Let goal p := axisCorrelation shape k o a (pixel shape data) p.

Lemma stride_pos : 0 < stride.
Proof. apply prod_pos, Positive_firstn, Hpos. Qed.

Lemma row_line p : InDomain shape p -> nth_error p a = Some 0 ->
  Line data (rank shape p) len stride (fun t => pixel shape data (replace p a t)).
Proof.
  intros Hp H0. assert (Hl := InDomain_length _ _ Hp). split.
  - intros t Ht. rewrite <- pixel_in; auto.
    + f_equal. rewrite (rank_replace_gen _ _ _ 0); auto. fold stride. lia.
    + apply InDomain_replace; auto. lia.
  - intros t Ht. apply pixel_out. intros H. apply InDomain_replace_inv in H; [|lia]. now apply Ht.
Qed.

Lemma goal_row p t : InDomain shape p -> nth_error p a = Some 0 -> 0 <= t < len ->
  goal (replace p a t) = correlation k o (fun t => pixel shape data (replace p a t)) t.
Proof.
  intros Hp H0 Ht. assert (Hl := InDomain_length _ _ Hp). unfold goal, axisCorrelation.
  rewrite (proj2 (inside_spec _ _)) by (apply InDomain_replace; auto; lia). rewrite nth_replace_eq by lia.
  unfold correlation. apply total_ext. intros j _. now rewrite replace_replace.
Qed.

Definition Done (rows : list (list Z)) (out : list Z) : Prop :=
  Z.of_nat (length out) = prod shape /\
  forall q, InDomain shape q -> zget out (rank shape q) = Ok (if in_dec (list_eq_dec Z.eq_dec) (replace q a 0) rows then goal q else 0).

Lemma row_step fuel rows out p : (Z.to_nat len < fuel)%nat -> InDomain shape p -> nth_error p a = Some 0 -> ~ In p rows -> Done rows out ->
  exists out', obind (lift (rindex n shape p)) (fun a0 =>
     correlate fuel (mkLkernel k o) data (dsMake a0 len sdefault stride) out (dsMake a0 len sdefault stride)) = Some (Ok out') /\
     Done (p :: rows) out'.
Proof.
  intros Hfuel Hp H0 Hnew (D1 & D2). assert (Hl := InDomain_length _ _ Hp). assert (Hs := stride_pos).
  rewrite rindex_rank; [|destruct shape; [cbn in Ha; lia|congruence]|auto]. cbn [lift obind].
  assert (ES : dsMake (rank shape p) len sdefault stride = mkDsamples (rank shape p) len (mkSampling 0 (len - 1) 1) stride).
  { unfold dsMake, sdefault. cbn [sfront sback sstep]. rewrite Z.eqb_refl, s64_wrap by lia. reflexivity. }
  rewrite ES.
  assert (HR : forall t, rank shape p + t * stride = rank shape (replace p a t)).
  { intros t. rewrite (rank_replace_gen _ _ _ 0); auto. fold stride. lia. }
  destruct (correlate_spec k o data (rank shape p) len stride (fun t => pixel shape data (replace p a t)) Ho Hk (row_line p Hp H0)
              0 (len - 1) 1 out (mkDsamples (rank shape p) len (mkSampling 0 (len - 1) 1) stride)
              ltac:(lia) ltac:(lia) ltac:(lia) ltac:(lia) ltac:(lia) ltac:(lia) ltac:(cbn [dSampling sstep dStride]; lia)) with (fuel := fuel) as (out' & E & E1 & E2 & E3).
  { intros t Ht Ht'. unfold dsIter. cbn [dSampling sstep sfront dStride dData].
    replace (rank shape p + 0 * stride + 1 * stride * 0 + t * (1 * stride)) with (rank shape p + t * stride) by lia.
    rewrite HR, D1. apply rank_bounds, InDomain_replace; auto; lia. }
  { exact Hfuel. }
  { intros t Ht. lia. }
  exists out'. split; [exact E|]. unfold dsIter in E2, E3. cbn [dSampling sstep sfront dStride dData] in E2, E3.
  split; [rewrite E1; exact D1|]. intros q Hq. assert (Hlq := InDomain_length _ _ Hq).
  destruct (nth_error q a) as [t|] eqn:Et; [|apply nth_error_None in Et; lia].
  destruct (in_dec _ (replace q a 0) (p :: rows)) as [I|I].
  - destruct I as [I|I].
    + assert (Q : q = replace p a t). { rewrite I, replace_replace. symmetry. now apply replace_same. }
      assert (Ht := InDomain_nth _ _ _ _ Hq Et). fold len in Ht.
      rewrite Q, goal_row by auto. specialize (E2 t ltac:(lia) ltac:(lia)).
      replace (0 + t * 1) with t in E2 by lia. rewrite <- E2. f_equal. rewrite <- HR. lia.
    + assert (NI : replace q a 0 <> p) by congruence.
      rewrite E3; [|intros t' Ht' Ht'']; [rewrite D2 by auto; destruct (in_dec _ _ rows); [reflexivity|contradiction]|].
      replace (rank shape p + 0 * stride + 1 * stride * 0 + t' * (1 * stride)) with (rank shape p + t' * stride) by lia.
      rewrite HR. intros X. apply rank_inj in X; [|auto|apply InDomain_replace; auto; lia]. apply NI. rewrite X, replace_replace.
      now apply replace_same.
  - assert (NI : replace q a 0 <> p) by (intros E0; apply I; left; auto).
    rewrite E3; [|intros t' Ht' Ht'']; [rewrite D2 by auto; destruct (in_dec _ _ rows); [exfalso; apply I; now right|reflexivity]|].
    replace (rank shape p + 0 * stride + 1 * stride * 0 + t' * (1 * stride)) with (rank shape p + t' * stride) by lia.
    rewrite HR. intros X. apply rank_inj in X; [|auto|apply InDomain_replace; auto; lia]. apply NI. rewrite X, replace_replace.
    now apply replace_same.
Qed.

Lemma rows_spec fuel : (Z.to_nat len < fuel)%nat -> forall ps rows out, NoDup ps -> (forall p, In p ps -> InDomain shape p /\ nth_error p a = Some 0 /\ ~ In p rows) ->
  Done rows out ->
  exists out', eachRow (fun out p => obind (lift (rindex n shape p)) (fun a0 =>
     correlate fuel (mkLkernel k o) data (dsMake a0 len sdefault stride) out (dsMake a0 len sdefault stride))) ps out = Some (Ok out') /\
     Done (rev ps ++ rows) out'.
Proof.
  intros Hfuel. induction ps as [|p ps IH]; intros rows out Hnd Hps HD; cbn [eachRow].
  - exists out. auto.
  - destruct (Hps p (or_introl eq_refl)) as (P1 & P2 & P3).
    destruct (row_step fuel rows out p Hfuel P1 P2 P3 HD) as (out1 & E & HD1). rewrite E. cbn [obind].
    inversion Hnd as [|? ? N1 N2]; subst.
    destruct (IH (p :: rows) out1 N2) as (out' & E' & HD').
    { intros q Hq. destruct (Hps q (or_intror Hq)) as (Q1 & Q2 & Q3). split; auto. split; auto. intros [->|I]; auto. }
    { exact HD1. }
    exists out'. split; [exact E'|]. cbn [rev]. rewrite <- app_assoc. exact HD'.
Qed.

Lemma along_spec : exists out, Z.of_nat (length out) = prod shape /\
  (forall p, pixel shape out p = goal p) /\
  exists enough, forall fuel, (enough <= fuel)%nat ->
    correlateAlong fuel n (mkLkernel k o) (Z.of_nat a) (mkRaster shape data) = Some (Ok (mkRaster shape out)).
Proof.
  assert (Hne : shape <> []) by (destruct shape; [cbn in Ha; lia|congruence]).
  assert (Hzero : length (vzero n) = length shape).
  { unfold vzero, n. rewrite repeat_length. unfold tplDim. replace (Z.of_nat (length shape) =? -1) with false by lia. lia. }
  assert (EV : vzero n = repeat 0 (length shape)).
  { unfold vzero in *. rewrite repeat_length in Hzero. now rewrite Hzero. }
  assert (ED : rdomain n shape = Ok (fromShape (repeat 0 (length shape)) shape)).
  { unfold rdomain. rewrite Hzero, Nat.leb_refl, EV. reflexivity. }
  assert (Elen : zget shape (Z.of_nat a) = Ok len).
  { rewrite zget_nat. rewrite (nth_error_nth' shape 0 Ha). reflexivity. }
  assert (Hlp : 1 <= len) by lia.
  destruct (project_spec (repeat 0 (length shape)) (vsubs shape 1) (Z.of_nat a) 0 (len - 1)) as (pr & EP & HP & _).
  { now rewrite repeat_length, vsubs_length. }
  { rewrite zget_nat. rewrite (nth_error_nth' _ 0) by (rewrite repeat_length; lia). now rewrite nth_repeat. }
  { unfold vsubs. rewrite zget_map, Elen. reflexivity. }
  { lia. }
  assert (EB : fromShape (repeat 0 (length shape)) shape = mkBox (repeat 0 (length shape)) (vsubs shape 1)).
  { unfold fromShape. f_equal. f_equal. clear. induction shape as [|s l IH]; auto. cbn [length repeat vadd map2]. change (map2 Z.add) with vadd. now rewrite IH. }
  assert (HP' : forall p, InBox pr p <-> InDomain shape p /\ nth_error p a = Some 0).
  { intros p. rewrite HP, <- EB, InBox_domain, zget_nat. split; intros [H1 H2]; split; auto; destruct (nth_error p a); congruence. }
  assert (HNE : Nonempty pr). { exists (repeat 0 (length shape)). apply HP'. split; [now apply domain_zero|].
    rewrite (nth_error_nth' _ 0) by (rewrite repeat_length; lia). now rewrite nth_repeat. }
  destruct pr as [pf pb].
  assert (Hpf : pf <> []).
  { destruct HNE as [p Hp]. unfold InBox in Hp. cbn in Hp. inversion Hp; subst; [|congruence].
    apply HP' in Hp as [_ Hp]. destruct a; discriminate. }
  destruct (iteration_full pf pb Hpf HNE) as (ps & (e1 & Hps) & Hnd & Hin & _).
  assert (H0 : Done [] (repeat 0 (Z.to_nat (shapeSize shape)))).
  { split.
    - rewrite repeat_length, shapeSize_prod by auto. assert (0 < prod shape) by (apply prod_pos, Hpos). lia.
    - intros q Hq. cbn [in_dec]. apply rank_bounds in Hq. rewrite shapeSize_prod by auto.
      replace (rank shape q) with (Z.of_nat (Z.to_nat (rank shape q))) by lia. rewrite zget_nat.
      rewrite (nth_error_nth' _ 0) by (rewrite repeat_length; lia). now rewrite nth_repeat. }
  destruct (rows_spec (S (Z.to_nat len)) ltac:(lia) ps [] _ Hnd ltac:(intros p Hp; apply Hin, HP' in Hp as [? ?]; auto) H0) as (out & _ & HD).
  exists out. rewrite app_nil_r in HD. destruct HD as [D1 D2]. split; [exact D1|]. split.
  { intros p. destruct (inside shape p) eqn:E.
    - apply inside_spec in E. assert (Hl := InDomain_length _ _ E). assert (X := D2 p E). rewrite (pixel_in _ _ _ E D1) in X. injection X as ->.
      destruct (in_dec _ (replace p a 0) (rev ps)) as [I|I]; auto. exfalso. apply I, in_rev. rewrite rev_involutive. apply Hin, HP'.
      split; [apply InDomain_replace; auto; lia|apply nth_error_replace_eq; lia].
    - rewrite pixel_out by (now apply inside_false). unfold goal, axisCorrelation. now rewrite E. }
  exists (Nat.max e1 (S (Z.to_nat len))). intros fuel Hf.
  destruct (rows_spec fuel ltac:(lia) ps [] _ Hnd ltac:(intros p Hp; apply Hin, HP' in Hp as [? ?]; auto) H0) as (out2 & E2 & HD2).
  assert (out2 = out).
  { rewrite app_nil_r in HD2. destruct HD2 as [D3 D4]. apply zget_ext; [lia|]. intros i Hi. rewrite D3 in Hi.
    rewrite <- (rank_unrank shape i Hpos Hi). assert (Hu := unrank_domain shape i Hpos). rewrite D2, D4; auto. }
  subst out2. unfold correlateAlong. cbn [rshape rdata]. rewrite Elen. cbn [lift obind].
  rewrite ED. cbn [bind]. rewrite EB, EP. cbn [obind].
  rewrite Hps by lia. cbn [obind]. rewrite Nat2Z.id, shapeStride_prod. fold stride. cbn [lift obind] in E2 |- *. rewrite E2. reflexivity.
Qed.
End Along.

(** Operators on images *)
Lemma axis_ext shape k o a X Y : (forall p, X p = Y p) -> forall p, axisCorrelation shape k o a X p = axisCorrelation shape k o a Y p.
Proof. intros H p. unfold axisCorrelation. destruct (inside shape p); auto. unfold correlation. apply total_ext. intros j _. now rewrite H. Qed.

Lemma axes_ext shape ks : forall X Y, (forall p, X p = Y p) -> forall p, axesCorrelation shape ks X p = axesCorrelation shape ks Y p.
Proof. induction ks as [|[[k o] a] ks IH]; intros X Y H p; cbn [axesCorrelation]; auto. apply IH. now apply axis_ext. Qed.

Lemma pixel_supported shape data : Supported shape (pixel shape data).
Proof. intros p. apply pixel_out. Qed.

Lemma axis_supported shape k o a X : Supported shape (axisCorrelation shape k o a X).
Proof. intros p H. unfold axisCorrelation. now rewrite (proj2 (inside_false _ _) H). Qed.

Lemma total_scale {A} c (f : A -> Z) l : c * total (map f l) = total (map (fun a => c * f a) l).
Proof. unfold total. induction l as [|a l IH]; cbn; lia. Qed.

Lemma total_plus {A} (f g : A -> Z) l : total (map f l) + total (map g l) = total (map (fun a => f a + g a) l).
Proof. unfold total. induction l as [|a l IH]; cbn; lia. Qed.

Lemma total_swap {A B} (f : A -> B -> Z) l m :
  total (map (fun a => total (map (f a) m)) l) = total (map (fun b => total (map (fun a => f a b) l)) m).
Proof.
  induction l as [|a l IH]; cbn [map].
  - cbn. symmetry. now apply total_zero.
  - change (total (?x :: ?y)) with (x + total y). unfold total at 1. cbn [fold_right]. fold (total (map (fun a => total (map (f a) m)) l)).
    rewrite IH. fold (total (map (f a) m)). rewrite total_plus. apply total_ext. intros b _. reflexivity.
Qed.

Lemma InDomain_inside_axis shape p a y : (a < length p)%nat -> InDomain shape p -> 0 <= y < nth a shape 0 -> inside shape (replace p a y) = true.
Proof. intros. apply inside_spec. now apply InDomain_replace. Qed.

(** Two axes: the inner crop is harmless. *)
Lemma two_axes shape k o a l u b X p : a <> b -> InDomain shape p -> (a < length shape)%nat -> (b < length shape)%nat -> Supported shape X ->
  axisCorrelation shape k o a (axisCorrelation shape l u b X) p =
  total (map (fun j => total (map (fun i => padded k j * (padded l i * X (replace (replace p a (nth a p 0 - o + j)) b (nth b p 0 - u + i))))
    (zrange 0 (Z.of_nat (length l) - 1)))) (zrange 0 (Z.of_nat (length k) - 1))).
Proof.
  intros Hab Hp Ha Hb HX. assert (Hl := InDomain_length _ _ Hp). unfold axisCorrelation at 1. rewrite (proj2 (inside_spec _ _) Hp).
  unfold correlation. apply total_ext. intros j _. rewrite <- total_scale. f_equal. unfold axisCorrelation.
  destruct (inside shape (replace p a (nth a p 0 - o + j))) eqn:E.
  - unfold correlation. apply total_ext. intros i _. now rewrite nth_replace_neq by auto.
  - symmetry. apply total_zero. intros i _. rewrite HX, Z.mul_0_r; auto. apply inside_false in E. intros H. apply E.
    rewrite replace_comm in H by auto. apply InDomain_replace; [auto|lia|].
    apply InDomain_replace_inv in H; auto. rewrite replace_length. lia.
Qed.

Lemma axes_commute shape k o a l u b X : a <> b -> (a < length shape)%nat -> (b < length shape)%nat -> Supported shape X ->
  forall p, axisCorrelation shape k o a (axisCorrelation shape l u b X) p = axisCorrelation shape l u b (axisCorrelation shape k o a X) p.
Proof.
  intros Hab Ha Hb HX p. destruct (inside shape p) eqn:E.
  - apply inside_spec in E. rewrite !two_axes by auto. rewrite total_swap. apply total_ext. intros i _. apply total_ext. intros j _.
    rewrite (replace_comm p a b) by auto. lia.
  - rewrite !axis_supported; auto; now apply inside_false.
Qed.

Lemma axes_permutation shape ks ks' : Permutation ks ks' -> NoDup (map snd ks) -> Forall (fun koa => (snd koa < length shape)%nat) ks ->
  forall X, Supported shape X -> forall p, axesCorrelation shape ks X p = axesCorrelation shape ks' X p.
Proof.
  induction 1 as [|[[k o] a] ks ks' HP IH|[[k o] a] [[l u] b] ks|ks1 ks2 ks3 H1 IH1 H2 IH2]; intros Hnd Hin X HX p; cbn [axesCorrelation]; auto.
  - cbn in Hnd. inversion Hnd; subst. inversion Hin; subst. apply IH; auto. apply axis_supported.
  - cbn in Hnd. inversion Hnd as [|? ? N1 N2]; subst. inversion Hin as [|? ? I1 I2]; subst. inversion I2; subst.
    apply axes_ext. apply axes_commute; auto. intros ->. apply N1. now left.
  - rewrite IH1 by auto. apply IH2; auto.
    + eapply Permutation_NoDup; [apply Permutation_map, H1|auto].
    + eapply Permutation_Forall; eauto.
Qed.

(** Linearity *)
Lemma axis_linear shape k o a X Y c d p :
  axisCorrelation shape k o a (fun q => c * X q + d * Y q) p = c * axisCorrelation shape k o a X p + d * axisCorrelation shape k o a Y p.
Proof.
  unfold axisCorrelation. destruct (inside shape p); [|lia]. unfold correlation. rewrite !total_scale, total_plus. apply total_ext. intros j _. lia.
Qed.

Lemma axes_linear shape ks : forall X Y c d p,
  axesCorrelation shape ks (fun q => c * X q + d * Y q) p = c * axesCorrelation shape ks X p + d * axesCorrelation shape ks Y p.
Proof.
  induction ks as [|[[k o] a] ks IH]; intros X Y c d p; cbn [axesCorrelation]; auto. rewrite <- IH. apply axes_ext. intros q. apply axis_linear.
Qed.

Lemma axes_app shape ks ks' : forall X p, axesCorrelation shape (ks ++ ks') X p = axesCorrelation shape ks' (axesCorrelation shape ks X) p.
Proof. induction ks as [|[[k o] a] ks IH]; intros X p; cbn [app axesCorrelation]; auto. Qed.

(** Sequences *)
Lemma seq_spec shape m axes ks : Positive shape -> Forall2 (Found m) axes ks -> Forall (Fits shape) ks ->
  forall data, Z.of_nat (length data) = prod shape ->
  exists out, Z.of_nat (length out) = prod shape /\
    (forall p, pixel shape out p = axesCorrelation shape ks (pixel shape data) p) /\
    exists enough, forall fuel, (enough <= fuel)%nat ->
      correlateSeq fuel (Z.of_nat (length shape)) m axes (mkRaster shape data) = Some (Ok (mkRaster shape out)).
Proof.
  intros Hpos HF. induction HF as [|axis [[k o] a] axes ks Hf HF IH]; intros HT data Hd.
  - exists data. split; [auto|]. split; [reflexivity|]. exists O. reflexivity.
  - inversion HT as [|? ? T T5]; subst. destruct T as (T1 & T2 & T3 & T4). destruct Hf as [-> Hm].
    destruct (along_spec shape data k o a T1 Hpos Hd T2 T3 T4) as (tmp & L1 & P1 & e1 & E1).
    destruct (IH T5 tmp L1) as (out & L2 & P2 & e2 & E2). exists out. split; [auto|]. split.
    + intros p. rewrite P2. cbn [axesCorrelation]. apply axes_ext, P1.
    + exists (Nat.max e1 e2). intros fuel Hfu. cbn [correlateSeq]. rewrite Hm. cbn [lift obind]. rewrite E1 by lia. cbn [obind]. apply E2. lia.
Qed.

Lemma image_unique shape d1 d2 : Positive shape -> Z.of_nat (length d1) = prod shape -> Z.of_nat (length d2) = prod shape ->
  (forall p, pixel shape d1 p = pixel shape d2 p) -> d1 = d2.
Proof.
  intros Hpos H1 H2 H. apply zget_ext; [lia|]. intros i Hi. rewrite H1 in Hi. rewrite <- (rank_unrank shape i Hpos Hi).
  assert (Hu := unrank_domain shape i Hpos). rewrite !pixel_in by auto. now rewrite H.
Qed.

(** The order of the axes does not matter. *)
Lemma apply_order shape m axes axes' ks data : Positive shape -> Forall2 (Found m) axes ks -> Forall (Fits shape) ks -> NoDup axes ->
  Permutation axes axes' -> Z.of_nat (length data) = prod shape ->
  exists out, exists enough, forall fuel, (enough <= fuel)%nat ->
    sapply fuel (Z.of_nat (length shape)) (mkSkernel axes m) (mkRaster shape data) = Some (Ok (mkRaster shape out)) /\
    sapply fuel (Z.of_nat (length shape)) (mkSkernel axes' m) (mkRaster shape data) = Some (Ok (mkRaster shape out)).
Proof.
  intros Hpos HF HT Hnd HP Hd.
  assert (HX : exists ks', Forall2 (Found m) axes' ks' /\ Permutation ks ks').
  { clear - HF HP. revert ks HF. induction HP as [|x l l' HP IH|x y l|l1 l2 l3 H1 IH1 H2 IH2]; intros ks HF.
    - inversion HF; subst. exists []. auto.
    - inversion HF as [|? y ? ks0 Hy HF0]; subst. destruct (IH ks0 HF0) as (ks' & A & B). exists (y :: ks'). split; auto.
    - inversion HF as [|? u ? ks0 Hu HF0]; subst. inversion HF0 as [|? v ? ks1 Hv HF1]; subst. exists (v :: u :: ks1). split; auto. constructor.
    - destruct (IH1 ks HF) as (ks' & A & B). destruct (IH2 ks' A) as (ks'' & C & D). exists ks''. split; auto. now transitivity ks'. }
  destruct HX as (ks' & HF' & HPk).
  assert (HT' : Forall (Fits shape) ks') by (eapply Permutation_Forall; eauto).
  destruct (seq_spec shape m axes ks Hpos HF HT data Hd) as (out & L1 & P1 & e1 & E1).
  destruct (seq_spec shape m axes' ks' Hpos HF' HT' data Hd) as (out' & L2 & P2 & e2 & E2).
  assert (NK : NoDup (map snd ks)).
  { clear - HF Hnd. revert Hnd. induction HF as [|axis [[k o] a] axes ks [-> Hm] HF IH]; intros Hnd; cbn; constructor; inversion Hnd; subst; auto.
    intros I. apply H1. clear - HF I. induction HF as [|axis [[k o] b] axes ks [-> Hm] HF IH]; [destruct I|]. destruct I as [I|I]; [left; cbn in I; now subst|right; auto]. }
  assert (out' = out); [|subst out'].
  { apply (image_unique shape); auto. intros p. rewrite P1, P2. symmetry. apply axes_permutation; auto using pixel_supported.
    clear - HT. induction HT as [|[[k o] a] ks (H & _) HT IH]; constructor; auto. }
  exists out, (Nat.max e1 e2). intros fuel Hf. unfold sapply. cbn [saxes smap]. rewrite E1, E2 by lia. auto.
Qed.

(** Combinations *)
Lemma mapAt_app m m' axis : mapAt (m ++ m') axis = match mapAt m axis with Ok k => Ok k | _ => mapAt m' axis end.
Proof.
  induction m as [|[i k] m IH]; cbn [app mapAt]; [destruct (mapAt m' axis) eqn:E; auto|]. destruct (i =? axis); auto.
Qed.

Lemma mapAt_cases m axis : (exists k, mapAt m axis = Ok k) \/ mapAt m axis = Throw EGeneric.
Proof. induction m as [|[i k] m IH]; cbn [mapAt]; auto. destruct (i =? axis); eauto. Qed.

Lemma mapInsert_at m ik axis : mapAt (mapInsert m ik) axis =
  match mapAt m axis with Ok k => Ok k | _ => if fst ik =? axis then Ok (snd ik) else Throw EGeneric end.
Proof.
  unfold mapInsert. destruct ik as [i k]. cbn [fst snd]. destruct (mapAt_cases m i) as [[k' E]|E]; rewrite E.
  - destruct (mapAt_cases m axis) as [[k'' E']|E']; rewrite E'; auto.
    destruct (Z.eqb_spec i axis) as [->|N]; [congruence|auto].
  - rewrite mapAt_app. cbn [mapAt]. destruct (mapAt m axis); auto.
Qed.

Lemma mapInsert_all l : forall m axis, mapAt (fold_left mapInsert l m) axis = match mapAt m axis with Ok k => Ok k | _ => mapAt l axis end.
Proof.
  induction l as [|[i k] l IH]; intros m axis; cbn [fold_left].
  - destruct (mapAt_cases m axis) as [[k E]|E]; rewrite E; auto.
  - rewrite IH, mapInsert_at. cbn [fst snd mapAt]. destruct (mapAt m axis); auto; destruct (i =? axis); auto.
Qed.

Lemma combine_spec shape a b ksa ksb data : Positive shape ->
  Forall2 (Found (smap a)) (saxes a) ksa -> Forall2 (Found (smap b)) (saxes b) ksb ->
  Forall (Fits shape) ksa -> Forall (Fits shape) ksb ->
  (forall axis, In axis (saxes b) -> ~ In axis (map fst (smap a))) -> Z.of_nat (length data) = prod shape ->
  exists tmp out enough, forall fuel, (enough <= fuel)%nat ->
    sapply fuel (Z.of_nat (length shape)) a (mkRaster shape data) = Some (Ok tmp) /\
    sapply fuel (Z.of_nat (length shape)) b tmp = Some (Ok out) /\
    sapply fuel (Z.of_nat (length shape)) (scombine a b) (mkRaster shape data) = Some (Ok out).
Proof.
  intros Hpos HFa HFb HTa HTb Hdis Hd.
  destruct (seq_spec shape (smap a) (saxes a) ksa Hpos HFa HTa data Hd) as (tmp & L1 & P1 & e1 & E1).
  destruct (seq_spec shape (smap b) (saxes b) ksb Hpos HFb HTb tmp L1) as (out & L2 & P2 & e2 & E2).
  set (mc := fold_left mapInsert (smap b) (smap a)).
  assert (NF : forall m axis, ~ In axis (map fst m) -> mapAt m axis = Throw EGeneric).
  { clear. intros m axis. induction m as [|[i k] m IH]; cbn; auto. intros H. destruct (Z.eqb_spec i axis); [subst; tauto|auto]. }
  assert (HFc : Forall2 (Found mc) (saxes a ++ saxes b) (ksa ++ ksb)).
  { apply Forall2_app.
    - clear - HFa. induction HFa as [|axis [[k o] x] axes ks [-> Hm] HF IH]; constructor; auto. split; auto. unfold mc. now rewrite mapInsert_all, Hm.
    - assert (Hx : Forall2 (fun axis koa => In axis (saxes b) /\ Found (smap b) axis koa) (saxes b) ksb).
      { clear - HFb. assert (G : forall l, incl l (saxes b) -> forall ks, Forall2 (Found (smap b)) l ks -> Forall2 (fun axis koa => In axis (saxes b) /\ Found (smap b) axis koa) l ks).
        { intros l Hi ks H. induction H; constructor; [split; auto; apply Hi; now left|apply IHForall2; intros z Hz; apply Hi; now right]. }
        apply G; auto. apply incl_refl. }
      clear - Hx Hdis NF. induction Hx as [|axis [[k o] x] axes ks [Hi [-> Hm]] HF IH]; constructor; auto. split; auto. unfold mc.
      rewrite mapInsert_all. rewrite NF by auto. exact Hm. }
  destruct (seq_spec shape mc (saxes a ++ saxes b) (ksa ++ ksb) Hpos HFc ltac:(apply Forall_app; auto) data Hd) as (outc & L3 & P3 & e3 & E3).
  assert (outc = out); [|subst outc].
  { apply (image_unique shape); auto. intros p. rewrite P2, P3, axes_app. apply axes_ext. intros q. symmetry. apply P1. }
  exists (mkRaster shape tmp), (mkRaster shape out), (Nat.max e1 (Nat.max e2 e3)). intros fuel Hf. unfold sapply, scombine. cbn [saxes smap]. fold mc.
  rewrite E1, E2, E3 by lia. auto.
Qed.

Lemma apply_spec shape s ks data : Positive shape -> Forall2 (Found (smap s)) (saxes s) ks -> Forall (Fits shape) ks ->
  Z.of_nat (length data) = prod shape ->
  exists out enough, Z.of_nat (length out) = prod shape /\
    (forall p, pixel shape out p = axesCorrelation shape ks (pixel shape data) p) /\
    forall fuel, (enough <= fuel)%nat ->
      sapply fuel (Z.of_nat (length shape)) s (mkRaster shape data) = Some (Ok (mkRaster shape out)).
Proof.
  intros Hp HF HT Hd. destruct (seq_spec shape (smap s) (saxes s) ks Hp HF HT data Hd) as (out & A & B & e & C). exists out, e. auto.
Qed.

Lemma pixel_lincomb shape c d x y z : Z.of_nat (length x) = prod shape -> Z.of_nat (length y) = prod shape -> Z.of_nat (length z) = prod shape ->
  (forall i, 0 <= i < prod shape -> padded z i = c * padded x i + d * padded y i) ->
  forall p, pixel shape z p = c * pixel shape x p + d * pixel shape y p.
Proof.
  intros _ _ _ H p. unfold pixel. destruct (inside shape p) eqn:E; [|lia]. apply inside_spec in E. apply H. now apply rank_bounds.
Qed.

Lemma apply_linear shape s ks x y z c d : Positive shape -> Forall2 (Found (smap s)) (saxes s) ks -> Forall (Fits shape) ks ->
  Z.of_nat (length x) = prod shape -> Z.of_nat (length y) = prod shape -> Z.of_nat (length z) = prod shape ->
  (forall i, 0 <= i < prod shape -> padded z i = c * padded x i + d * padded y i) ->
  exists x' y' z' enough, (forall fuel, (enough <= fuel)%nat ->
    sapply fuel (Z.of_nat (length shape)) s (mkRaster shape x) = Some (Ok (mkRaster shape x')) /\
    sapply fuel (Z.of_nat (length shape)) s (mkRaster shape y) = Some (Ok (mkRaster shape y')) /\
    sapply fuel (Z.of_nat (length shape)) s (mkRaster shape z) = Some (Ok (mkRaster shape z'))) /\
    Z.of_nat (length z') = prod shape /\
    forall i, 0 <= i < prod shape -> padded z' i = c * padded x' i + d * padded y' i.
Proof.
  intros Hp HF HT Hx Hy Hz H.
  destruct (apply_spec shape s ks x Hp HF HT Hx) as (x' & e1 & A1 & B1 & C1).
  destruct (apply_spec shape s ks y Hp HF HT Hy) as (y' & e2 & A2 & B2 & C2).
  destruct (apply_spec shape s ks z Hp HF HT Hz) as (z' & e3 & A3 & B3 & C3).
  exists x', y', z', (Nat.max e1 (Nat.max e2 e3)). split; [intros fuel Hf; rewrite C1, C2, C3 by lia; auto|]. split; [auto|].
  intros i Hi. assert (Hu := unrank_domain shape i Hp). assert (G : forall l, padded l i = pixel shape l (unrank shape i)).
  { intros l. unfold pixel. rewrite (proj2 (inside_spec _ _) Hu). now rewrite rank_unrank. }
  rewrite !G, B1, B2, B3, <- axes_linear. apply axes_ext. now apply pixel_lincomb.
Qed.

(** Axes in common: the kernel of the left operand is applied twice. *)
Lemma combine_witness : exists a b r ra rba rab,
  saxes a = [0] /\ saxes b = [0] /\
  sapply 10 1 a r = Some (Ok ra) /\ sapply 10 1 b ra = Some (Ok rba) /\ sapply 10 1 (scombine a b) r = Some (Ok rab) /\ rab <> rba.
Proof.
  exists (salong (mkLkernel [2] 0) [0]), (salong (mkLkernel [3] 0) [0]), (mkRaster [1] [1]), (mkRaster [1] [2]), (mkRaster [1] [6]), (mkRaster [1] [4]).
  vm_compute. repeat split; congruence.
Qed.
