(** Proofs about differentiation filters. *)
From Verif Require Import Res Lemmas VecModel BoxModel RasterModel SamplingModel LineKernelModel SeparableModel Spec KernelSpec SeparableSpec GradientSpec SeparableProofs.

Lemma affine_replace sl : forall p c a t, length sl = length p -> (a < length p)%nat ->
  affine c sl (replace p a t) = affine c sl p + nth a sl 0 * (t - nth a p 0).
Proof.
  unfold affine. induction sl as [|s sl IH]; intros [|x p] c a t L H; cbn [length] in *; try lia.
  destruct a as [|a]; cbn [replace combine map fold_right fst snd nth].
  - lia.
  - specialize (IH p 0 a t ltac:(lia) ltac:(lia)). lia.
Qed.
Lemma affine_scale w c sl p k : affine (w * c + k) (map (Z.mul w) sl) p = w * affine c sl p + k.
Proof.
  unfold affine. revert p. induction sl as [|s sl IH]; intros [|x p]; cbn [combine map fold_right fst snd]; [lia|lia|lia|]. specialize (IH p). lia.
Qed.

(** One correlation with three values about an affine image. *)
Lemma axis_affine shape a w1 w2 w3 done c sl X :
  (a < length shape)%nat -> length sl = length shape -> ~ In a done ->
  (forall p, AwayFromBorders shape done p -> X p = affine c sl p) ->
  forall p, AwayFromBorders shape (a :: done) p ->
    axisCorrelation shape [w1; w2; w3] 1 a X p = affine ((w1 + w2 + w3) * c + (w3 - w1) * nth a sl 0) (map (Z.mul (w1 + w2 + w3)) sl) p.
Proof.
  intros Ha Ls Hn HX p [HD HP]. unfold axisCorrelation. rewrite (proj2 (inside_spec shape p) HD).
  pose proof (InDomain_length _ _ HD) as LP. pose proof (HP a (or_introl eq_refl)) as Pa.
  assert (K : forall t, 0 <= t < nth a shape 0 -> X (replace p a t) = affine c sl p + nth a sl 0 * (t - nth a p 0)).
  { intros t Ht. rewrite HX; [apply affine_replace; lia|]. split; [apply InDomain_replace; [exact HD|lia|exact Ht]|].
    intros b Hb. rewrite nth_replace_neq by (intros ->; contradiction). apply HP. right. exact Hb. }
  unfold correlation, total. cbn [length]. change (zrange 0 (Z.of_nat 3 - 1)) with [0; 1; 2]. cbn [map fold_right]. unfold padded. cbn [zget Z.ltb nth_error].
  rewrite affine_scale. set (x := nth a p 0) in *. 
  change (match zget [w1; w2; w3] 0 with Ok v => v | _ => 0 end) with w1. change (match zget [w1; w2; w3] 1 with Ok v => v | _ => 0 end) with w2. change (match zget [w1; w2; w3] 2 with Ok v => v | _ => 0 end) with w3.
  rewrite !K by lia. ring.
Qed.

(** Averaging along further axes. *)
Lemma axes_affine shape u v axes : forall done c sl X, NoDup axes -> (forall a, In a axes -> (a < length shape)%nat /\ ~ In a done) ->
  length sl = length shape ->
  (forall p, AwayFromBorders shape done p -> X p = affine c sl p) ->
  forall p, AwayFromBorders shape (rev axes ++ done) p ->
    axesCorrelation shape (map (fun a => ([u; v; u], 1, a)) axes) X p = affine (power (u + v + u) (length axes) * c) (map (Z.mul (power (u + v + u) (length axes))) sl) p.
Proof.
  induction axes as [|a axes IH]; intros done c sl X ND HA Ls HX p HP; cbn [map axesCorrelation length power rev app] in *.
  - rewrite HX by exact HP. transitivity (1 * affine c sl p + 0); [lia|]. rewrite <- affine_scale. f_equal. lia.
  - inversion ND as [|? ? Nin ND']; subst. rewrite <- app_assoc in HP. cbn [app] in HP.
    rewrite (IH (a :: done) ((u + v + u) * c) (map (Z.mul (u + v + u)) sl)); auto.
    + rewrite map_map. f_equal; [ring|]. apply map_ext. intros x. ring.
    + intros b Hb. destruct (HA b (or_intror Hb)) as [H1 H2]. split; [exact H1|]. intros [E|E]; [subst; contradiction|contradiction].
    + rewrite map_length. exact Ls.
    + intros q Hq. destruct (HA a (or_introl eq_refl)) as [H1 H2]. rewrite (axis_affine shape a u v u done c sl X H1 Ls H2 HX q Hq). f_equal. ring.
Qed.

Lemma salong_found k axes : forall axis, In axis axes -> mapAt (smap (salong k axes)) axis = Ok k.
Proof.
  intros axis H. unfold salong. cbn [smap]. rewrite mapInsert_all. cbn [mapAt].
  induction axes as [|a axes IH]; [contradiction|]. cbn [map mapAt]. destruct (a =? axis) eqn:E; [reflexivity|]. apply IH. destruct H; [lia|exact H].
Qed.
Lemma salong_absent k axes axis : ~ In axis axes -> mapAt (map (fun i => (i, k)) axes) axis = Throw EGeneric.
Proof.
  induction axes as [|a axes IH]; intros H; [reflexivity|]. cbn [map mapAt]. destruct (a =? axis) eqn:E; [exfalso; apply H; left; lia|]. apply IH. intros X. apply H. right. exact X.
Qed.

Definition derivativeKernels (sign u v : Z) (axis : nat) (others : list nat) : list (list Z * Z * nat) :=
  ([sign; 0; - sign], 1, axis) :: map (fun a => ([u; v; u], 1, a)) others.

Lemma derivative_found sign u v axis others : ~ In axis others ->
  let s := sderivative sign [u; v; u] (Z.of_nat axis) (map Z.of_nat others) in
  Forall2 (Found (smap s)) (saxes s) (derivativeKernels sign u v axis others).
Proof.
  intros Hn s.
  assert (F1 : mapAt (smap s) (Z.of_nat axis) = Ok (mkLkernel [sign; 0; - sign] 1)).
  { subst s. unfold sderivative, scombine. cbn [smap]. rewrite mapInsert_all. rewrite (salong_found (mkLkernel [sign; 0; - sign] 1) [Z.of_nat axis]) by (left; reflexivity). reflexivity. }
  assert (F2 : forall a, In a others -> mapAt (smap s) (Z.of_nat a) = Ok (mkLkernel [u; v; u] 1)).
  { intros a Ha. subst s. unfold sderivative, scombine. cbn [smap]. rewrite mapInsert_all.
    replace (mapAt (smap (salong (mkLkernel [sign; 0; - sign] 1) [Z.of_nat axis])) (Z.of_nat a)) with (@Throw lkernel EGeneric).
    - apply (salong_found (mkLkernel [u; v; u] 1)). apply in_map. exact Ha.
    - symmetry. unfold salong. cbn [smap]. rewrite mapInsert_all. cbn [mapAt]. apply salong_absent. intros [E|[]]. apply Hn. replace axis with a by lia. exact Ha. }
  change (saxes s) with (Z.of_nat axis :: map Z.of_nat others). unfold derivativeKernels. constructor; [split; [reflexivity|exact F1]|].
  assert (G : forall l, (forall a, In a l -> In a others) -> Forall2 (Found (smap s)) (map Z.of_nat l) (map (fun a => ([u; v; u], 1, a)) l)).
  { induction l as [|b l IH]; intros HL; cbn [map]; constructor; [split; [reflexivity|apply F2, HL; left; reflexivity]|]. apply IH. intros x Hx. apply HL. right. exact Hx. }
  apply G. auto.
Qed.

Lemma derivative_apply shape data sign u v axis others : Positive shape -> Z.of_nat (length data) = prod shape -> NoDup (axis :: others) ->
  (forall a, In a (axis :: others) -> (a < length shape)%nat /\ 3 <= nth a shape 0 < 2 ^ 61) ->
  exists out enough, Z.of_nat (length out) = prod shape /\
    (forall p, pixel shape out p = axesCorrelation shape (derivativeKernels sign u v axis others) (pixel shape data) p) /\
    forall fuel, (enough <= fuel)%nat ->
      sapply fuel (Z.of_nat (length shape)) (sderivative sign [u; v; u] (Z.of_nat axis) (map Z.of_nat others)) (mkRaster shape data) = Some (Ok (mkRaster shape out)).
Proof.
  intros HP HL ND HA. inversion ND as [|? ? Hn _]; subst. apply apply_spec; auto; [apply derivative_found; exact Hn|].
  unfold derivativeKernels. constructor.
  - destruct (HA axis (or_introl eq_refl)). repeat split; cbn [length]; try lia.
  - rewrite Forall_map, Forall_forall. intros a Ha. destruct (HA a (or_intror Ha)). repeat split; cbn [length]; try lia.
Qed.

Lemma derivative_affine shape data sign u v axis others c sl : Positive shape -> Z.of_nat (length data) = prod shape -> NoDup (axis :: others) ->
  (forall a, In a (axis :: others) -> (a < length shape)%nat /\ 3 <= nth a shape 0 < 2 ^ 61) ->
  length sl = length shape -> (forall p, InDomain shape p -> pixel shape data p = affine c sl p) ->
  exists out enough, Z.of_nat (length out) = prod shape /\
    (forall p, AwayFromBorders shape (axis :: others) p -> pixel shape out p = - sign * (2 * nth axis sl 0) * power (u + v + u) (length others)) /\
    forall fuel, (enough <= fuel)%nat ->
      sapply fuel (Z.of_nat (length shape)) (sderivative sign [u; v; u] (Z.of_nat axis) (map Z.of_nat others)) (mkRaster shape data) = Some (Ok (mkRaster shape out)).
Proof.
  intros HP HL ND HA Ls HX. destruct (derivative_apply shape data sign u v axis others HP HL ND HA) as (out & enough & L & P & R).
  exists out, enough. split; [exact L|]. split; [|exact R]. intros p Hp. rewrite P. unfold derivativeKernels. cbn [axesCorrelation].
  inversion ND as [|? ? Hn ND']; subst.
  assert (HX' : forall q, AwayFromBorders shape [] q -> pixel shape data q = affine c sl q) by (intros q [Hq _]; apply HX; exact Hq).
  rewrite (axes_affine shape u v others [axis] (- (2 * sign) * nth axis sl 0) (map (fun _ => 0) sl)); auto.
  - replace (map (Z.mul (power (u + v + u) (length others))) (map (fun _ : Z => 0) sl)) with (map (Z.mul 0) sl) by (rewrite map_map; apply map_ext; intros; lia).
    transitivity (0 * affine 0 sl p + power (u + v + u) (length others) * (- (2 * sign) * nth axis sl 0)); [|ring].
    rewrite <- affine_scale. f_equal. 
  - intros a Ha. split; [apply HA; right; exact Ha|]. intros [E|[]]. subst. contradiction.
  - rewrite map_length. exact Ls.
  - intros q Hq. destruct (HA axis (or_introl eq_refl)) as [H1 _]. rewrite (axis_affine shape axis sign 0 (- sign) [] c sl _ H1 Ls (fun x => x) HX' q Hq).
    replace (sign + 0 + - sign) with 0 by lia. match goal with |- affine ?a ?b _ = affine ?c ?d _ => replace a with c by lia; replace b with d by (apply map_ext; intros; lia); reflexivity end.
  - destruct Hp as [H1 H2]. split; [exact H1|]. intros a Ha. apply H2. apply in_app_or in Ha as [Ha|[<-|[]]]; [right; apply in_rev; exact Ha|left; reflexivity].
Qed.

Lemma power_pos x n : 0 < x -> 0 < power x n.
Proof. intros H. induction n; cbn [power]; nia. Qed.

Lemma factories_affine shape data sign axis others c sl w F : In (w, F) (factories sign) ->
  Positive shape -> Z.of_nat (length data) = prod shape -> NoDup (axis :: others) ->
  (forall a, In a (axis :: others) -> (a < length shape)%nat /\ 3 <= nth a shape 0 < 2 ^ 61) ->
  length sl = length shape -> (forall p, InDomain shape p -> pixel shape data p = affine c sl p) ->
  exists out enough, Z.of_nat (length out) = prod shape /\
    (forall p, AwayFromBorders shape (axis :: others) p -> pixel shape out p = - sign * (2 * nth axis sl 0) * power w (length others)) /\
    forall fuel, (enough <= fuel)%nat ->
      sapply fuel (Z.of_nat (length shape)) (F (Z.of_nat axis) (map Z.of_nat others)) (mkRaster shape data) = Some (Ok (mkRaster shape out)).
Proof.
  intros [E|[E|[E|[]]]] HP HL ND HA Ls HX; inversion E; subst.
  - exact (derivative_affine shape data sign 1 1 axis others c sl HP HL ND HA Ls HX).
  - exact (derivative_affine shape data sign 1 2 axis others c sl HP HL ND HA Ls HX).
  - exact (derivative_affine shape data sign 3 10 axis others c sl HP HL ND HA Ls HX).
Qed.

Lemma factories_apply shape data sign axis others :
  Positive shape -> Z.of_nat (length data) = prod shape -> NoDup (axis :: others) ->
  (forall a, In a (axis :: others) -> (a < length shape)%nat /\ 3 <= nth a shape 0 < 2 ^ 61) ->
  forall averaging F, In (averaging, F) [([1; 1; 1], prewitt sign); ([1; 2; 1], sobel sign); ([3; 10; 3], scharr sign)] ->
  exists out enough, Z.of_nat (length out) = prod shape /\
    (forall p, pixel shape out p = axesCorrelation shape (([sign; 0; - sign], 1, axis) :: map (fun a => (averaging, 1, a)) others) (pixel shape data) p) /\
    forall fuel, (enough <= fuel)%nat ->
      sapply fuel (Z.of_nat (length shape)) (F (Z.of_nat axis) (map Z.of_nat others)) (mkRaster shape data) = Some (Ok (mkRaster shape out)).
Proof.
  intros HP HL ND HA av F [E|[E|[E|[]]]]; inversion E; subst.
  - exact (derivative_apply shape data sign 1 1 axis others HP HL ND HA).
  - exact (derivative_apply shape data sign 1 2 axis others HP HL ND HA).
  - exact (derivative_apply shape data sign 3 10 axis others HP HL ND HA).
Qed.

Lemma factories_direction shape data axis others c sl w F : In (w, F) (factories 1) ->
  Positive shape -> Z.of_nat (length data) = prod shape -> NoDup (axis :: others) ->
  (forall a, In a (axis :: others) -> (a < length shape)%nat /\ 3 <= nth a shape 0 < 2 ^ 61) ->
  length sl = length shape -> (forall p, InDomain shape p -> pixel shape data p = affine c sl p) -> 0 < nth axis sl 0 ->
  exists out enough, (forall p, AwayFromBorders shape (axis :: others) p -> pixel shape out p < 0) /\
    forall fuel, (enough <= fuel)%nat ->
      sapply fuel (Z.of_nat (length shape)) (F (Z.of_nat axis) (map Z.of_nat others)) (mkRaster shape data) = Some (Ok (mkRaster shape out)).
Proof.
  intros HF HP HL ND HA Ls HX HS. destruct (factories_affine shape data 1 axis others c sl w F HF HP HL ND HA Ls HX) as (out & enough & L & P & R).
  exists out, enough. split; [|exact R]. intros p Hp. rewrite P by exact Hp.
  assert (0 < w) by (destruct HF as [E|[E|[E|[]]]]; inversion E; lia). pose proof (power_pos w (length others) H). nia.
Qed.
