From Verif Require Import Res VecModel BoxModel RasterModel SamplingModel LineKernelModel SeparableModel
  Spec BoxSpec RasterSpec KernelSpec SeparableSpec Lemmas IndexProofs BoxIterProofs BoxGeomProofs AccessProofs ContainerProofs LineKernelProofs
  SeparableProofs.

(** Sums over boxes *)
Lemma total_flat_map {A B} (g : B -> Z) (h : A -> list B) l :
  total (map g (flat_map h l)) = total (map (fun a => total (map g (h a))) l).
Proof. induction l as [|a l IH]; auto. cbn [flat_map map]. rewrite map_app, total_app, IH. reflexivity. Qed.

Lemma total_axis a x y v : forall f b g, nth_error f a = Some v -> nth_error b a = Some v -> length f = length b ->
  total (map g (positions (replace f a x) (replace b a y))) =
  total (map (fun q => total (map (fun t => g (replace q a t)) (zrange x y))) (positions f b)).
Proof.
  induction a as [|a IH]; intros [|u f] [|w b] g Hf Hb Hl; cbn in Hf, Hb, Hl; try discriminate.
  - injection Hf as ->. injection Hb as ->. cbn [replace positions]. rewrite !total_flat_map. apply total_ext. intros q _.
    assert (E : zrange v v = [v]) by (rewrite zrange_cons, zrange_empty by lia; reflexivity). rewrite E. cbn [map replace].
    rewrite map_map. unfold total at 2. cbn [fold_right]. lia.
  - cbn [replace positions]. rewrite !total_flat_map.
    rewrite (IH f b (fun q => total (map g (map (fun z => z :: q) (zrange u w)))) Hf Hb ltac:(lia)).
    apply total_ext. intros q _. rewrite (map_map (fun z => z :: q)).
    transitivity (total (map (fun t => total (map (fun z => g (z :: replace q a t)) (zrange u w))) (zrange x y))).
    + apply total_ext. intros t _. now rewrite map_map.
    + rewrite total_swap. reflexivity.
Qed.

Lemma window_axis k o a ks n : (a < n)%nat ->
  map (frontOf ((k, o, a) :: ks)) (seq 0 n) = replace (map (frontOf ks) (seq 0 n)) a (- o) /\
  map (backOf ((k, o, a) :: ks)) (seq 0 n) = replace (map (backOf ks) (seq 0 n)) a (Z.of_nat (length k) - 1 - o).
Proof.
  intros Ha. assert (G : forall (F : nat -> Z) x s, (a < s + n -> s <= a)%nat ->
    map (fun i => if Nat.eqb a i then x else F i) (seq s n) = replace (map F (seq s n)) (a - s) x); [|split; rewrite <- (Nat.sub_0_r a) at 2; apply G; lia].
  clear. intros F x. induction n as [|n IH]; intros s Hs; [destruct (a - s)%nat; reflexivity|].
  destruct (le_lt_dec (s + S n) a) as [L|L].
  - assert (N : forall m s, (s + m <= a)%nat -> map (fun i => if Nat.eqb a i then x else F i) (seq s m) = replace (map F (seq s m)) (a - s) x).
    { clear. induction m as [|m IH]; intros s H; [destruct (a - s)%nat; reflexivity|]. cbn [seq map]. destruct (Nat.eqb_spec a s); [lia|].
      replace (a - s)%nat with (S (a - S s)) by lia. cbn [replace]. f_equal. apply IH. lia. }
    now apply N.
  - cbn [seq map]. destruct (Nat.eqb_spec a s) as [->|Ne].
    + rewrite Nat.sub_diag. cbn [replace]. f_equal. apply map_ext_in. intros i Hi. apply in_seq in Hi. destruct (Nat.eqb_spec s i); [lia|reflexivity].
    + specialize (Hs L). replace (a - s)%nat with (S (a - S s)) by lia. cbn [replace]. f_equal. apply IH. lia.
Qed.

Lemma frontOf_out ks a : ~ In a (map snd ks) -> frontOf ks a = 0 /\ backOf ks a = 0.
Proof.
  induction ks as [|koa ks IH]; cbn; auto. intros H. destruct (Nat.eqb_spec (snd koa) a); [tauto|]. apply IH. tauto.
Qed.

Notation vplus p q := (map (fun xy : Z * Z => fst xy + snd xy) (combine p q)).

Lemma vplus_length p q : length p = length q -> length (vplus p q) = length p.
Proof. intros H. rewrite map_length, combine_length. lia. Qed.

Lemma vplus_nth p q a : length p = length q -> nth a (vplus p q) 0 = nth a p 0 + nth a q 0.
Proof.
  revert q a. induction p as [|x p IH]; intros [|y q] [|a] H; cbn in *; try lia. apply IH. lia.
Qed.

Lemma vplus_replace p q a t : length p = length q -> vplus p (replace q a t) = replace (vplus p q) a (nth a p 0 + t).
Proof.
  revert q a. induction p as [|x p IH]; intros [|y q] [|a] H; cbn in *; try lia; auto. f_equal. apply IH. lia.
Qed.

Lemma productKernel_replace ks q a t : ~ In a (map snd ks) -> productKernel ks (replace q a t) = productKernel ks q.
Proof.
  intros H. unfold productKernel. f_equal. apply map_ext_in. intros koa Hi. rewrite nth_replace_neq; auto.
  intros ->. apply H. now apply in_map.
Qed.

Lemma Between_nth f b p : Between f b p -> forall a, nth a f 0 <= nth a p 0 <= nth a b 0.
Proof. induction 1; intros [|a]; cbn; auto; lia. Qed.

Lemma InDomain_swap shape p q a y : InDomain shape p -> length q = length p -> InDomain shape (replace q a y) -> (a < length p)%nat ->
  nth a q 0 = nth a p 0 -> InDomain shape q.
Proof.
  intros Hp Hl H Ha E. rewrite <- (replace_same q a (nth a p 0)).
  - rewrite <- (replace_replace q a y). apply InDomain_replace; auto; [rewrite replace_length; lia|].
    apply (InDomain_nth shape p); auto. now apply nth_error_nth'.
  - rewrite <- E. apply nth_error_nth'. lia.
Qed.

(** A separable kernel is the ND kernel of the products. *)
Lemma axes_product shape ks : NoDup (map snd ks) -> Forall (fun koa => (snd koa < length shape)%nat) ks ->
  forall X, Supported shape X -> forall p, InDomain shape p ->
  axesCorrelation shape ks X p =
  windowCorrelation (productKernel ks) (fst (productWindow (length shape) ks)) (snd (productWindow (length shape) ks)) X p.
Proof.
  set (n := length shape). induction ks as [|[[k o] a] ks IH]; intros Hnd Hin X HX p Hp.
  - cbn [axesCorrelation]. unfold windowCorrelation, productWindow. cbn [fst snd].
    assert (E : forall F, (forall i, F i = 0) -> forall m s, map F (seq s m) = repeat 0 m).
    { clear. intros F HF. induction m as [|m IHm]; intros s; cbn; auto. now rewrite HF, IHm. }
    rewrite !E by auto.
    assert (P : positions (repeat 0 n) (repeat 0 n) = [repeat 0 n]).
    { clear. induction n as [|n IHn]; auto. cbn [repeat positions]. rewrite IHn. reflexivity. }
    rewrite P. cbn. assert (V : vplus p (repeat 0 n) = p).
    { assert (L := InDomain_length _ _ Hp). fold n in L. rewrite L. clear. induction p as [|x p IHp]; auto. cbn. rewrite IHp. f_equal. lia. }
    rewrite V. destruct (X p); reflexivity.
  - cbn in Hnd. inversion Hnd as [|? ? N1 N2]; subst. inversion Hin as [|? ? I1 I2]; subst. cbn [snd] in I1. fold n in I1.
    cbn [axesCorrelation]. rewrite IH; auto using axis_supported. unfold windowCorrelation, productWindow. cbn [fst snd].
    destruct (window_axis k o a ks n I1) as [-> ->].
    assert (Sa : forall F : nat -> Z, nth_error (map F (seq 0 n)) a = Some (F a)).
    { intros F. rewrite nth_error_map. rewrite (nth_error_nth' (seq 0 n) O) by (rewrite seq_length; lia). rewrite seq_nth by lia. reflexivity. }
    destruct (frontOf_out ks a N1) as [F0 B0].
    rewrite (total_axis a _ _ 0); [|rewrite Sa; congruence|rewrite Sa; congruence|now rewrite !map_length].
    apply total_ext. intros q Hq. apply In_positions in Hq. assert (Lq := Between_length _ _ _ Hq). rewrite map_length, seq_length in Lq.
    assert (Lp := InDomain_length _ _ Hp). fold n in Lp. assert (Qa := Between_nth _ _ _ Hq a).
    rewrite !(nth_error_nth _ _ _ (Sa _)), F0, B0 in Qa.
    assert (Hpq : length p = length q) by lia.
    replace (Z.of_nat (length k) - 1 - o) with (Z.of_nat (length k) - 1 + - o) by lia. rewrite <- (Z.add_0_l (- o)) at 1.
    rewrite zrange_shift, map_map.
    assert (Nq : nth a (vplus p q) 0 = nth a p 0) by (rewrite vplus_nth by auto; lia).
    transitivity (total (map (fun j => productKernel ks q * (padded k j * X (replace (vplus p q) a (nth a p 0 - o + j)))) (zrange 0 (Z.of_nat (length k) - 1)))).
    + rewrite <- total_scale. f_equal. unfold axisCorrelation. destruct (inside shape (vplus p q)) eqn:E.
      * unfold correlation. now rewrite Nq.
      * symmetry. apply total_zero. intros j _. rewrite HX, Z.mul_0_r; auto. intros H. apply inside_false in E. apply E.
        apply (InDomain_swap shape p (vplus p q) a (nth a p 0 - o + j)); auto; [now apply vplus_length|lia].
    + apply total_ext. intros j _. rewrite vplus_replace by auto. unfold productKernel at 2. cbn [map fold_right fst snd].
      fold (productKernel ks (replace q a (j + - o))). rewrite productKernel_replace by auto. rewrite nth_replace_eq by lia.
      replace (o + (j + - o)) with j by lia. replace (nth a p 0 + (j + - o)) with (nth a p 0 - o + j) by lia. lia.
Qed.

Lemma separable_found ks : NoDup (map snd ks) -> Forall2 (Found (smap (separable ks))) (saxes (separable ks)) ks.
Proof.
  intros Hnd. unfold separable. cbn [smap saxes].
  assert (G : forall all sub, NoDup (map snd all) -> incl sub all ->
    Forall2 (Found (map (fun koa => (Z.of_nat (snd koa), mkLkernel (fst (fst koa)) (snd (fst koa)))) all)) (map (fun koa => Z.of_nat (snd koa)) sub) sub).
  { clear. intros all sub Hnd. induction sub as [|[[k o] a] sub IH]; intros Hi; cbn [map]; constructor; [|apply IH; intros x Hx; apply Hi; now right].
    cbn [snd]. split; auto. assert (Hin : In (k, o, a) all) by (apply Hi; now left). clear - Hnd Hin.
    induction all as [|[[l u] b] all IH]; [destruct Hin|]. cbn [map mapAt snd fst]. cbn in Hnd. inversion Hnd; subst.
    destruct Hin as [E|Hin]; [injection E as -> -> ->; now rewrite Z.eqb_refl|]. destruct (Z.eqb_spec (Z.of_nat b) (Z.of_nat a)) as [E|N]; auto.
    exfalso. apply H1. apply Nat2Z.inj in E. subst. change a with (snd (k, o, a)). now apply in_map. }
  apply G; auto. apply incl_refl.
Qed.

Definition pick (V : list Z * Z * nat -> Z) (d : Z) (ks : list (list Z * Z * nat)) (i : nat) : Z :=
  fold_right (fun koa r => if Nat.eqb (snd koa) i then V koa else r) d ks.

Lemma pick_in V d ks i : In i (map snd ks) -> pick V d ks i = pick V 0 ks i.
Proof. induction ks as [|koa ks IH]; cbn; [tauto|]. destruct (Nat.eqb_spec (snd koa) i); auto. intros [H|H]; [congruence|]. now apply IH. Qed.

Lemma pick_out V d ks i : ~ In i (map snd ks) -> pick V d ks i = d.
Proof. induction ks as [|koa ks IH]; cbn; auto. destruct (Nat.eqb_spec (snd koa) i); tauto. Qed.

Lemma length_pick ks i : backOf ks i - frontOf ks i + 1 = pick (fun koa => Z.of_nat (length (fst (fst koa)))) 1 ks i.
Proof. unfold backOf, frontOf, pick. induction ks as [|koa ks IH]; auto. cbn [fold_right]. destruct (Nat.eqb (snd koa) i); [lia|auto]. Qed.

Lemma origin_pick ks i : - frontOf ks i = pick (fun koa => snd (fst koa)) 0 ks i.
Proof. unfold frontOf, pick. induction ks as [|koa ks IH]; auto. cbn [fold_right]. destruct (Nat.eqb (snd koa) i); [lia|auto]. Qed.

Lemma compose_fold ks : NoDup (map snd ks) -> forall n S O, length S = n -> length O = n -> Forall (fun koa => (snd koa < n)%nat) ks ->
  exists S' O', fold_left composeAxis (smap (separable ks)) (Ok (S, O)) = Ok (S', O') /\ length S' = n /\ length O' = n /\
    (forall i, (i < n)%nat -> nth i S' 0 = pick (fun koa => Z.of_nat (length (fst (fst koa)))) (nth i S 0) ks i) /\
    (forall i, (i < n)%nat -> nth i O' 0 = pick (fun koa => snd (fst koa)) (nth i O 0) ks i).
Proof.
  unfold separable. cbn [smap]. induction ks as [|[[k o] a] ks IH]; intros Hnd n S O HS HO Hin.
  - exists S, O. repeat split; auto.
  - cbn in Hnd. inversion Hnd as [|? ? N1 N2]; subst. inversion Hin as [|? ? I1 I2]; subst. cbn [snd] in I1.
    cbn [map fold_left composeAxis bind fst snd]. unfold lsize. cbn [lvalues lorigin].
    rewrite !zset_ok by lia. cbn [bind]. rewrite !Nat2Z.id.
    destruct (IH N2 (length S) (replace S a (Z.of_nat (length k))) (replace O a o)) as (S' & O' & E & L1 & L2 & P1 & P2);
      [now rewrite replace_length|rewrite replace_length; lia|auto|].
    exists S', O'. split; [exact E|]. split; [auto|]. split; [auto|]. split.
    + intros i Hi. rewrite P1 by auto. unfold pick at 2. cbn [fold_right fst snd]. fold (pick (fun koa => Z.of_nat (length (fst (fst koa)))) (nth i S 0) ks i).
      destruct (Nat.eqb_spec a i) as [->|N].
      * rewrite pick_out by auto. apply nth_replace_eq. lia.
      * now rewrite nth_replace_neq.
    + intros i Hi. rewrite P2 by auto. unfold pick at 2. cbn [fold_right fst snd]. fold (pick (fun koa => snd (fst koa)) (nth i O 0) ks i).
      destruct (Nat.eqb_spec a i) as [->|N].
      * rewrite pick_out by auto. apply nth_replace_eq. lia.
      * now rewrite nth_replace_neq.
Qed.

Lemma list_as_map (l : list Z) n F : length l = n -> (forall i, (i < n)%nat -> nth i l 0 = F i) -> l = map F (seq 0 n).
Proof.
  intros Hl H. apply (nth_ext _ _ 0 (F O)); [now rewrite map_length, seq_length|]. intros i Hi. rewrite map_nth, seq_nth by lia. apply H. lia.
Qed.

Lemma nth_repeat_any (x d : Z) n i : (i < n)%nat -> nth i (repeat x n) d = x.
Proof. revert i. induction n as [|n IH]; intros [|i] H; cbn; try lia; auto. apply IH. lia. Qed.

Lemma fold_max_le l x : In x l -> x <= fold_right Z.max 0 l.
Proof. induction l as [|a l IH]; cbn; [tauto|]. intros [->|H]; [lia|]. specialize (IH H). lia. Qed.

Lemma nth_map_seq (F : nat -> Z) n i : (i < n)%nat -> nth i (map F (seq 0 n)) 0 = F i.
Proof. intros H. rewrite (nth_indep _ _ (F O)) by (now rewrite map_length, seq_length). rewrite map_nth, seq_nth by lia. reflexivity. Qed.

Lemma InDomain_by_nth shape p : length p = length shape -> (forall i, (i < length shape)%nat -> 0 <= nth i p 0 < nth i shape 0) -> InDomain shape p.
Proof.
  revert p. induction shape as [|s shape IH]; intros [|x p] Hl H; cbn in Hl; try lia; constructor.
  - apply (H O). cbn. lia.
  - apply IH; [lia|]. intros i Hi. apply (H (S i)). cbn. lia.
Qed.

Lemma Between_by_nth f b p : length f = length p -> length b = length p -> (forall i, (i < length p)%nat -> nth i f 0 <= nth i p 0 <= nth i b 0) -> Between f b p.
Proof.
  revert b p. induction f as [|x f IH]; intros [|y b] [|z p] H1 H2 H; cbn in H1, H2; try lia; constructor.
  - apply (H O). cbn. lia.
  - apply IH; try lia. intros i Hi. apply (H (S i)). cbn. lia.
Qed.

Lemma total_single (g : list Z -> Z) l q0 : NoDup l -> (forall q, In q l -> q <> q0 -> g q = 0) ->
  total (map g l) = if in_dec (list_eq_dec Z.eq_dec) q0 l then g q0 else 0.
Proof.
  induction l as [|q l IH]; intros Hnd H.
  - reflexivity.
  - inversion Hnd; subst. change (total (map g (q :: l))) with (g q + total (map g l)). rewrite IH; [|auto|intros; apply H; auto; now right].
    destruct (in_dec _ q0 (q :: l)) as [I|I]; destruct (in_dec _ q0 l) as [J|J].
    + destruct (list_eq_dec Z.eq_dec q q0) as [->|N]; [contradiction|]. rewrite (H q) by (auto; now left). lia.
    + destruct I as [->|I]; [lia|contradiction].
    + exfalso. apply I. now right.
    + rewrite (H q); [lia|now left|]. intros ->. apply I. now left.
Qed.

Lemma pick_bounds ks i : Forall (fun koa => 0 <= snd (fst koa) < Z.of_nat (length (fst (fst koa)))) ks ->
  0 <= pick (fun koa => snd (fst koa)) 0 ks i < pick (fun koa => Z.of_nat (length (fst (fst koa)))) 1 ks i.
Proof. unfold pick. induction 1 as [|koa ks H HF IH]; cbn [fold_right]; [lia|]. destruct (Nat.eqb (snd koa) i); auto. Qed.

Lemma pick_at V d ks koa : NoDup (map snd ks) -> In koa ks -> pick V d ks (snd koa) = V koa.
Proof.
  induction ks as [|x ks IH]; intros Hnd Hi; [destruct Hi|]. cbn in Hnd. inversion Hnd; subst. unfold pick. cbn [fold_right]. fold (pick V d ks (snd koa)).
  destruct Hi as [->|Hi]; [now rewrite Nat.eqb_refl|]. destruct (Nat.eqb_spec (snd x) (snd koa)) as [E|N]; auto.
  exfalso. apply H1. rewrite E. now apply in_map.
Qed.

Lemma productKernel_zero ks q koa : In koa ks -> padded (fst (fst koa)) (snd (fst koa) + nth (snd koa) q 0) = 0 -> productKernel ks q = 0.
Proof.
  intros Hi H. unfold productKernel. induction ks as [|x ks IH]; [destruct Hi|]. cbn [map fold_right]. destruct Hi as [->|Hi]; [rewrite H; lia|].
  rewrite IH by auto. lia.
Qed.

Lemma nth_map_opp l i : nth i (map Z.opp l) 0 = - nth i l 0.
Proof. change 0 with (Z.opp 0) at 1. apply map_nth. Qed.

Section Compose.
Variable ks : list (list Z * Z * nat).
Hypothesis Hnd : NoDup (map snd ks).
Hypothesis Hok : Forall (fun koa => 0 <= snd (fst koa) < Z.of_nat (length (fst (fst koa)))) ks.
Hypothesis Hsz : Forall (fun koa => Z.of_nat (length (fst (fst koa))) < 2 ^ 61) ks.
Let zn := fold_right Z.max 0 (saxes (separable ks)) + 1.
Let n := Z.to_nat zn.
Let f := fst (productWindow n ks).
Let b := snd (productWindow n ks).
Let shape := map (fun i => backOf ks i - frontOf ks i + 1) (seq 0 n).
Let origin := map (fun i => - frontOf ks i) (seq 0 n).

Lemma zn_pos : 1 <= zn.
Proof.
  assert (H : forall l, 0 <= fold_right Z.max 0 l) by (clear; induction l as [|x l IH]; cbn [fold_right]; lia).
  specialize (H (saxes (separable ks))). unfold zn. lia.
Qed.

Lemma axes_lt : Forall (fun koa => (snd koa < n)%nat) ks.
Proof.
  apply Forall_forall. intros koa Hi. assert (H := fold_max_le (saxes (separable ks)) (Z.of_nat (snd koa)) ltac:(apply in_map_iff; eauto)).
  unfold n, zn. lia.
Qed.

Lemma shape_length : length shape = n.
Proof. unfold shape. now rewrite map_length, seq_length. Qed.
Lemma origin_length : length origin = n.
Proof. unfold origin. now rewrite map_length, seq_length. Qed.
Lemma f_length : length f = n.
Proof. unfold f, productWindow. cbn [fst]. now rewrite map_length, seq_length. Qed.
Lemma b_length : length b = n.
Proof. unfold b, productWindow. cbn [snd]. now rewrite map_length, seq_length. Qed.

Lemma coords i : (i < n)%nat ->
  nth i shape 0 = backOf ks i - frontOf ks i + 1 /\ nth i origin 0 = - frontOf ks i /\ nth i f 0 = frontOf ks i /\ nth i b 0 = backOf ks i.
Proof. intros Hi. unfold shape, origin, f, b, productWindow. cbn [fst snd]. now rewrite !nth_map_seq. Qed.

Lemma origin_in i : 0 <= - frontOf ks i < backOf ks i - frontOf ks i + 1.
Proof. rewrite length_pick, origin_pick. now apply pick_bounds. Qed.

Lemma origin_domain : InDomain shape origin.
Proof.
  apply InDomain_by_nth; [now rewrite origin_length, shape_length|]. rewrite shape_length. intros i Hi. destruct (coords i Hi) as (-> & -> & _). apply origin_in.
Qed.

Lemma shape_positive : Positive shape.
Proof.
  unfold Positive, shape. apply Forall_forall. intros s Hs. apply in_map_iff in Hs as (i & <- & _). assert (H := origin_in i). lia.
Qed.

Lemma fits : Forall (Fits shape) ks.
Proof.
  apply Forall_forall. intros [[k o] a] Hi. assert (H1 := proj1 (Forall_forall _ _) axes_lt _ Hi). assert (H2 := proj1 (Forall_forall _ _) Hok _ Hi).
  assert (H3 := proj1 (Forall_forall _ _) Hsz _ Hi). cbn [fst snd] in *. split; [now rewrite shape_length|].
  destruct (coords a H1) as (-> & _). rewrite length_pick. change a with (snd (k, o, a)). rewrite pick_at by auto. cbn [fst snd]. lia.
Qed.

(** The image of a single 1 gives the mirrored kernel. *)
Lemma delta_axes delta w : (forall p, pixel shape delta p = if list_eq_dec Z.eq_dec p origin then 1 else 0) -> Between f b w ->
  axesCorrelation shape ks (pixel shape delta) (vplus w origin) = productKernel ks (map Z.opp w).
Proof.
  intros Hdl Hw. assert (Lw : length w = n) by (destruct (Between_length _ _ _ Hw) as [E _]; rewrite <- E; apply f_length).
  assert (Wi : forall i, (i < n)%nat -> frontOf ks i <= nth i w 0 <= backOf ks i).
  { intros i Hi. assert (H := Between_nth _ _ _ Hw i). destruct (coords i Hi) as (_ & _ & E1 & E2). rewrite E1, E2 in H. exact H. }
  assert (Hp : InDomain shape (vplus w origin)).
  { apply InDomain_by_nth; [rewrite vplus_length, shape_length; auto; now rewrite origin_length|]. rewrite shape_length. intros i Hi.
    rewrite vplus_nth by (now rewrite origin_length). destruct (coords i Hi) as (-> & -> & _). specialize (Wi i Hi). lia. }
  rewrite axes_product; auto using pixel_supported; [|rewrite shape_length; apply axes_lt].
  rewrite shape_length. fold f b. unfold windowCorrelation.
  assert (Lo := origin_length). assert (Lm : length (map Z.opp w) = n) by (now rewrite map_length).
  assert (Lv : length (vplus w origin) = n) by (rewrite vplus_length; lia).
  assert (Key : forall q, length q = n -> vplus (vplus w origin) q = origin -> q = map Z.opp w).
  { intros q Lq E. apply (nth_ext _ _ 0 0); [lia|]. intros i Hi. assert (E' := f_equal (fun l => nth i l 0) E). cbn beta in E'.
    rewrite !vplus_nth in E' by lia. rewrite nth_map_opp. lia. }
  assert (Key' : vplus (vplus w origin) (map Z.opp w) = origin).
  { apply (nth_ext _ _ 0 0); [rewrite vplus_length; lia|]. intros i Hi.
    rewrite !vplus_nth by lia. rewrite nth_map_opp. lia. }
  rewrite (total_single _ _ (map Z.opp w)); [|apply positions_NoDup|].
  - destruct (in_dec _ _ _) as [I|I].
    + rewrite Key', Hdl. destruct (list_eq_dec _ _ _); [lia|congruence].
    + rewrite In_positions in I. symmetry.
      assert (Hx : exists i, (i < n)%nat /\ ~ frontOf ks i <= nth i (map Z.opp w) 0 <= backOf ks i).
      { assert (D : forall m, (forall i, (i < m)%nat -> frontOf ks i <= nth i (map Z.opp w) 0 <= backOf ks i) \/
                     (exists i, (i < m)%nat /\ ~ frontOf ks i <= nth i (map Z.opp w) 0 <= backOf ks i)).
        { clear. intros m. induction m as [|m [IH|(i & Hi & N)]]; [left; intros; lia| |right; exists i; split; [lia|auto]].
          destruct (Z_le_dec (frontOf ks m) (nth m (map Z.opp w) 0)) as [A|A]; [|right; exists m; split; [lia|lia]].
          destruct (Z_le_dec (nth m (map Z.opp w) 0) (backOf ks m)) as [B|B]; [|right; exists m; split; [lia|lia]].
          left. intros i Hi. destruct (Nat.eq_dec i m) as [->|]; [lia|apply IH; lia]. }
        destruct (D n) as [D1|D1]; auto. exfalso. apply I. apply Between_by_nth; rewrite ?map_length, ?f_length, ?b_length; auto.
        intros i Hi. rewrite Lw in Hi. destruct (coords i Hi) as (_ & _ & -> & ->). now apply D1. }
      destruct Hx as (i & Hi & N). specialize (Wi i Hi). rewrite nth_map_opp in N.
      destruct (in_dec Nat.eq_dec i (map snd ks)) as [J|J]; [|destruct (frontOf_out ks i J) as [E1 E2]; lia].
      apply in_map_iff in J as (koa & <- & J). apply (productKernel_zero ks _ koa J). apply padded_out. rewrite nth_map_opp.
      assert (E1 := origin_pick ks (snd koa)). assert (E2 := length_pick ks (snd koa)). rewrite pick_at in E1, E2 by auto. lia.
  - intros q Hq N. rewrite Hdl. destruct (list_eq_dec _ _ _) as [E|E]; [|lia]. exfalso. apply N, Key; auto.
    apply In_positions in Hq. destruct (Between_length _ _ _ Hq) as [E' _]. rewrite <- E'. apply f_length.
Qed.

Lemma window_rank w : Between f b w ->
  map (fun xy => snd xy - fst xy + 1) (combine f b) = shape /\ map (fun xy => snd xy - fst xy) (combine f w) = vplus w origin.
Proof.
  intros Hw. destruct (Between_length _ _ _ Hw) as [E1 E2]. assert (Lf := f_length). assert (Lb := b_length). assert (Lo := origin_length).
  assert (G1 : forall g (l m : list Z) i, length l = length m -> (i < length l)%nat -> nth i (map g (combine l m)) 0 = (g (nth i l 0, nth i m 0) : Z)).
  { clear. intros g. induction l as [|x l IH]; intros [|y m] [|i] H Hi; cbn in *; try lia; auto. apply IH; lia. }
  split; apply (nth_ext _ _ 0 0); rewrite ?map_length, ?combine_length, ?shape_length; try lia; intros i Hi.
  - rewrite G1 by lia. cbn [fst snd]. destruct (coords i ltac:(lia)) as (-> & _ & -> & ->). reflexivity.
  - rewrite G1 by lia. rewrite vplus_nth by lia. cbn [fst snd]. destruct (coords i ltac:(lia)) as (_ & -> & -> & _). lia.
Qed.

Theorem compose_spec : exists values enough,
  Z.of_nat (length values) = prod (map (fun xy => snd xy - fst xy + 1) (combine f b)) /\
  (forall w, Between f b w -> windowValue f b values w = productKernel ks (map Z.opp w)) /\
  forall fuel, (enough <= fuel)%nat -> compose fuel (separable ks) = Some (Ok (mkBox f b, values)).
Proof.
  assert (Hzn := zn_pos). assert (Zn : Z.of_nat n = zn) by (unfold n; lia).
  assert (Hsne : shape <> []). { intros E. assert (L := shape_length). rewrite E in L. cbn in L. lia. }
  set (d0 := repeat 0 (Z.to_nat (shapeSize shape))).
  assert (Hd0 : Z.of_nat (length d0) = prod shape).
  { unfold d0. rewrite repeat_length. rewrite shapeSize_prod by auto. assert (P := prod_pos shape shape_positive). lia. }
  assert (Ho := origin_domain).
  assert (Hrk := rank_bounds _ _ Ho).
  set (delta := replace d0 (Z.to_nat (rank shape origin)) 1).
  assert (Hdel : zset d0 (rank shape origin) 1 = Ok delta) by (apply zset_ok; lia).
  assert (Hpx : forall p, pixel shape delta p = if list_eq_dec Z.eq_dec p origin then 1 else 0).
  { intros p. destruct (inside shape p) eqn:E.
    - apply inside_spec in E. unfold pixel. rewrite (proj2 (inside_spec _ _) E). destruct (list_eq_dec Z.eq_dec p origin) as [->|N].
      + apply padded_ok. eapply zset_get_eq, Hdel.
      + apply padded_ok. rewrite (zset_get_neq _ _ _ _ _ Hdel).
        * assert (B := rank_bounds _ _ E). destruct (zget_in_range d0 (rank shape p) ltac:(lia)) as [v Hv]. rewrite Hv. f_equal.
          unfold zget in Hv. destruct (_ <? 0); [discriminate|]. destruct (nth_error d0 _) as [u|] eqn:En; [|discriminate]. injection Hv as <-.
          apply nth_error_In in En. unfold d0 in En. now apply repeat_spec in En.
        * intros C. apply N. eapply rank_inj; eauto.
    - apply inside_false in E. rewrite pixel_out by auto. destruct (list_eq_dec Z.eq_dec p origin) as [->|N]; [contradiction|reflexivity]. }
  assert (Hdl : Z.of_nat (length delta) = prod shape) by (unfold delta; now rewrite replace_length).
  destruct (seq_spec shape (smap (separable ks)) (saxes (separable ks)) ks shape_positive (separable_found ks Hnd) fits delta Hdl)
    as (out & L & P & e & E).
  exists out, e. split; [|split].
  - rewrite L. f_equal. symmetry. apply (window_rank f). apply Between_by_nth; rewrite ?f_length, ?b_length; auto.
    intros i Hi. destruct (coords i Hi) as (_ & _ & -> & ->). assert (H := origin_in i). lia.
  - intros w Hw. destruct (window_rank w Hw) as [W1 W2]. unfold windowValue. rewrite W1, W2. rewrite <- delta_axes with (delta := delta) by auto.
    rewrite <- P. unfold pixel. replace (inside shape (vplus w origin)) with true; auto. symmetry. apply inside_spec.
    destruct (Between_length _ _ _ Hw) as [Lw _]. assert (Lf := f_length). assert (Lo := origin_length). assert (Ls := shape_length).
    apply InDomain_by_nth; [rewrite vplus_length; lia|]. rewrite Ls.
    intros i Hi. rewrite vplus_nth by lia. assert (B := Between_nth _ _ _ Hw i). destruct (coords i Hi) as (-> & -> & E1 & E2).
    rewrite E1, E2 in B. lia.
  - intros fuel Hfu. unfold compose. fold zn n.
    destruct (compose_fold ks Hnd n (repeat 1 n) (repeat 0 n) (repeat_length _ _) (repeat_length _ _) axes_lt) as (S' & O' & EF & LS & LO & PS & PO).
    assert (ES : S' = shape).
    { unfold shape. apply list_as_map; auto. intros i Hi. rewrite PS, nth_repeat_any by auto. symmetry. apply length_pick. }
    assert (EO : O' = origin).
    { unfold origin. apply list_as_map; auto. intros i Hi. rewrite PO, nth_repeat_any by auto. symmetry. apply origin_pick. }
    rewrite EF, ES, EO. cbn [lift obind]. unfold rset. cbn [rshape rdata]. fold d0.
    rewrite rindex_rank by (auto; now rewrite origin_length, shape_length). cbn [bind]. rewrite Hdel. cbn [bind lift obind].
    unfold sapply. specialize (E fuel Hfu). rewrite shape_length, Zn in E. rewrite E. cbn [obind].
    assert (EV : vzero zn = repeat 0 n).
    { unfold vzero, tplDim. replace (zn =? -1) with false by lia. unfold n; f_equal; lia. }
    unfold rdomain. rewrite EV, repeat_length, shape_length, Nat.leb_refl. cbn [bind lift obind rdata].
    do 4 f_equal. unfold boxUnshift, fromShape. cbn [bfront bback].
    assert (G2 : forall g (l m : list Z) i, length l = length m -> (i < length l)%nat -> nth i (map2 g l m) 0 = (g (nth i l 0) (nth i m 0) : Z)).
    { clear. intros g. induction l as [|x l IH]; intros [|y m] [|i] H Hi; cbn in *; try lia; auto. apply IH; lia. }
    assert (L2 : forall g (l m : list Z), length l = length m -> length (map2 (g : Z -> Z -> Z) l m) = length l).
    { clear. intros g. induction l as [|x l IH]; intros [|y m] H; cbn in *; try lia. rewrite IH; lia. }
    assert (L0 := origin_length). assert (L1 := shape_length). assert (L3 := f_length). assert (L4 := b_length).
    assert (L5 : length (repeat 0 n) = n) by apply repeat_length.
    unfold vsub, vsubs, vadd.
    assert (L6 : length (map2 Z.add (repeat 0 n) shape) = n) by (rewrite L2; lia).
    assert (L7 : length (map (fun x => x - 1) (map2 Z.add (repeat 0 n) shape)) = n) by (now rewrite map_length).
    f_equal; (apply (nth_ext _ _ 0 0); [rewrite L2; lia|]); rewrite L2 by lia; intros i Hi.
    + rewrite G2 by lia. rewrite nth_repeat_any by lia. destruct (coords i ltac:(lia)) as (_ & -> & -> & _). lia.
    + rewrite G2 by lia.
      assert (M : nth i (map (fun x => x - 1) (map2 Z.add (repeat 0 n) shape)) 0 = nth i (map2 Z.add (repeat 0 n) shape) 0 - 1).
      { rewrite (nth_indep _ 0 (0 - 1)) by lia. apply (map_nth (fun x => x - 1)). }
      rewrite M, G2 by lia. rewrite nth_repeat_any by lia. destruct (coords i ltac:(lia)) as (-> & -> & _ & ->). lia.
Qed.

Lemma product_symmetric : Forall Symmetric ks -> forall w, productKernel ks (map Z.opp w) = productKernel ks w.
Proof.
  intros HS w. unfold productKernel. f_equal. apply map_ext_in. intros koa Hi. rewrite nth_map_opp. rewrite (proj1 (Forall_forall _ _) HS koa Hi (nth (snd koa) w 0)).
  f_equal.
Qed.
End Compose.

(** The composed kernel of symmetric line kernels does what the separable kernel does. *)
Theorem compose_symmetric ks shape X p values : NoDup (map snd ks) -> Forall Symmetric ks ->
  Forall (fun koa => (snd koa < length shape)%nat) ks -> Supported shape X -> InDomain shape p ->
  let f := fst (productWindow (length shape) ks) in
  let b := snd (productWindow (length shape) ks) in
  (forall w, Between f b w -> windowValue f b values w = productKernel ks (map Z.opp w)) ->
  windowCorrelation (windowValue f b values) f b X p = axesCorrelation shape ks X p.
Proof.
  intros Hnd HS Hin HX Hp f b Hv. rewrite axes_product by auto. unfold windowCorrelation. fold f b. apply total_ext.
  intros q Hq. apply In_positions in Hq. rewrite Hv, product_symmetric by auto. reflexivity.
Qed.

Lemma symmetric_witness : Symmetric ([1; 10; 1], 1, 1%nat).
Proof.
  intros t. cbn [fst snd]. assert (t < -1 \/ t = -1 \/ t = 0 \/ t = 1 \/ 1 < t) as [H|[->|[->|[->|H]]]] by lia; try reflexivity;
    rewrite !padded_out; cbn [length]; lia.
Qed.

Lemma compose_witness : exists ks f b values X p, NoDup (map snd ks) /\ compose 20 (separable ks) = Some (Ok (mkBox f b, values)) /\
  Supported [3] X /\ InDomain [3] p /\ windowCorrelation (windowValue f b values) f b X p <> axesCorrelation [3] ks X p.
Proof.
  exists [([1; 2; 4], 1, 0%nat)], [-1], [1], [4; 2; 1], (pixel [3] [1; 0; 0]), [1].
  split; [repeat constructor; intros []|]. split; [reflexivity|]. split; [apply pixel_supported|]. split; [repeat constructor; lia|].
  vm_compute. congruence.
Qed.
