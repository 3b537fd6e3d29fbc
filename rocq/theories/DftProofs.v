(** Transform plans. *)
From Coq Require Import QArith Qcanon Qfield.
From Verif Require Import Res Lemmas VecModel DftModel Spec DftSpec IndexProofs.
Open Scope Z_scope.

Lemma halved_cons n rest : 0 <= n -> halved (n :: rest) = Ok (n / 2 + 1 :: rest).
Proof. intros H. unfold halved. cbn [bind]. unfold zget, zset. cbn. rewrite Z.quot_div_nonneg by lia. reflexivity. Qed.

Lemma halved_nil : halved [] = UB.
Proof. reflexivity. Qed.

Lemma dft_shapes t n rest : 0 <= n -> exists si so, dftInShape t (n :: rest) = Ok si /\ dftOutShape t (n :: rest) = Ok so /\ BufferShapes t n rest si so.
Proof. intros H. destruct t; cbn [dftInShape dftOutShape BufferShapes]; rewrite ?halved_cons by exact H; do 2 eexists; repeat split. Qed.

Lemma inverse_shapes t shape : dftInShape (inverseTransform t) shape = dftOutShape t shape /\ dftOutShape (inverseTransform t) shape = dftInShape t shape /\
  planDims (inverseTransform t) shape = planDims t shape /\ inverseTransform (inverseTransform t) = t.
Proof. destruct t; repeat split. Qed.

Lemma toInt_id z : 0 < z < 2 ^ 31 -> toInt z = z.
Proof. intros H. unfold toInt. rewrite Z.mod_small by lia. lia. Qed.

Lemma map_toInt shape : Forall (fun s => 0 < s < 2 ^ 31) shape -> map toInt shape = shape.
Proof. induction 1 as [|s shape Hs H IH]; cbn [map]; [reflexivity|]. rewrite toInt_id by exact Hs. f_equal. exact IH. Qed.

Lemma prod_rev l : prod (rev l) = prod l.
Proof. induction l as [|x l IH]; cbn [rev]; [reflexivity|]. rewrite prod_app, !prod_cons, IH. change (prod []) with 1. lia. Qed.

Lemma fftw_extents t shape : IntShape shape -> exists si so dims, dftInShape t shape = Ok si /\ dftOutShape t shape = Ok so /\ planDims t shape = Ok dims /\
  fftwIn t dims = prod si /\ fftwOut t dims = prod so /\ prod dims = prod shape /\ dims = rev shape.
Proof.
  intros [N F]. destruct shape as [|n rest]; [congruence|]. inversion F as [|? ? Hn Fr]; subst.
  assert (M : fftwShape (n :: rest) = rev (n :: rest)) by (unfold fftwShape; rewrite map_toInt by exact F; reflexivity).
  assert (R : fftwReal (rev (n :: rest)) = prod (n :: rest)) by (unfold fftwReal; apply prod_rev).
  assert (C : fftwComplex (rev (n :: rest)) = prod (n / 2 + 1 :: rest)) by (unfold fftwComplex; rewrite rev_involutive; reflexivity).
  destruct t; cbn [dftInShape dftOutShape planDims fftwIn fftwOut bind]; rewrite ?halved_cons by lia; cbn [bind]; rewrite ?M;
    do 3 eexists; repeat (split; [first [reflexivity|exact R|exact C|apply prod_rev]|]); reflexivity.
Qed.

Section Memory.
Context {V : Type}.
Implicit Types h : list (list V).

Lemma write_length h b (l : list V) : length (write h b l) = length h.
Proof. apply replace_length. Qed.

Lemma content_write_eq h b (l : list V) : (b < length h)%nat -> content (write h b l) b = l.
Proof.
  intros H. unfold content, write. apply nth_error_nth. apply nth_error_replace_eq. exact H.
Qed.

Lemma content_write_neq h b c (l : list V) : b <> c -> content (write h b l) c = content h c.
Proof.
  intros H. unfold content, write. destruct (nth_error h c) as [x|] eqn:E.
  - rewrite (nth_error_nth h c [] E). apply nth_error_nth. rewrite nth_error_replace_neq by exact H. exact E.
  - rewrite !nth_overflow; [reflexivity|apply nth_error_None; exact E|rewrite replace_length; apply nth_error_None; exact E].
Qed.

Lemma content_app_old h (g : list V) b : (b < length h)%nat -> content (h ++ [g]) b = content h b.
Proof. intros H. unfold content. apply app_nth1. exact H. Qed.

Lemma content_app_new h (g : list V) : content (h ++ [g]) (length h) = g.
Proof. unfold content. rewrite app_nth2 by lia. rewrite Nat.sub_diag. reflexivity. Qed.

(** New plans with their own buffers *)
Lemma plan_new t shape si so gi go h : IntShape shape -> dftInShape t shape = Ok si -> dftOutShape t shape = Ok so ->
  Z.of_nat (length gi) = prod si -> Z.of_nat (length go) = prod so ->
  exists p, planNew t shape None None gi go h = Ok (p, (h ++ [gi]) ++ [go]) /\ ptransform p = t /\ pshape p = shape /\
    pin p = length h /\ pout p = S (length h) /\ Allocated p ((h ++ [gi]) ++ [go]).
Proof.
  intros I Ei Eo Li Lo. destruct (fftw_extents t shape I) as (si' & so' & dims & Ei' & Eo' & Ed & Xi & Xo & _).
  assert (si' = si) by congruence. assert (so' = so) by congruence. subst si' so'.
  unfold planNew. rewrite Ed. cbn [bind hold]. rewrite !app_length. cbn [length].
  assert (Ci : content ((h ++ [gi]) ++ [go]) (length h) = gi) by (rewrite content_app_old by (rewrite app_length; cbn; lia); apply content_app_new).
  assert (Co : content ((h ++ [gi]) ++ [go]) (length h + 1) = go).
  { replace (length h + 1)%nat with (length (h ++ [gi])) by (rewrite app_length; reflexivity). apply content_app_new. }
  rewrite Ci, Co. rewrite Xi, Xo.
  replace (Nat.ltb (length h) (length h + 1 + 1)) with true by (symmetry; apply Nat.ltb_lt; lia).
  replace (Nat.ltb (length h + 1) (length h + 1 + 1)) with true by (symmetry; apply Nat.ltb_lt; lia).
  replace (Nat.eqb (length h) (length h + 1)) with false by (symmetry; apply Nat.eqb_neq; lia).
  replace (prod si <=? Z.of_nat (length gi)) with true by lia. replace (prod so <=? Z.of_nat (length go)) with true by lia. cbn [andb negb].
  assert (W : write (write ((h ++ [gi]) ++ [go]) (length h) gi) (length h + 1) go = (h ++ [gi]) ++ [go]).
  { assert (W1 : forall (l : list (list V)) b, (b < length l)%nat -> write l b (content l b) = l).
    { clear. unfold write, content. induction l as [|x l IH]; intros b H; [cbn in H; lia|]. destruct b; cbn [replace nth]; [reflexivity|]. f_equal. apply IH. cbn in H. lia. }
    rewrite <- Ci at 2. rewrite W1 by (rewrite !app_length; cbn; lia). rewrite <- Co at 2. apply W1. rewrite !app_length. cbn. lia. }
  rewrite W. eexists. split; [reflexivity|]. cbn [ptransform pshape pin pout pdims]. repeat (split; [first [reflexivity|lia]|]).
  exists si, so. unfold planInShape, planOutShape. cbn [ptransform pshape pin pout pdims]. split; [exact Ei|]. split; [exact Eo|]. split; [exact Ed|].
  rewrite !app_length. cbn [length]. split; [lia|]. split; [lia|]. split; [lia|]. rewrite Ci, Co. split; assumption.
Qed.

(** Inverse plans *)
Lemma plan_inverse p gi go h : IntShape (pshape p) -> Allocated p h ->
  length gi = length (content h (pout p)) -> length go = length (content h (pin p)) ->
  exists q, planInverse p gi go h = Ok (q, write (write h (pout p) gi) (pin p) go) /\
    ptransform q = inverseTransform (ptransform p) /\ pshape q = pshape p /\ pin q = pout p /\ pout q = pin p /\ pdims q = pdims p /\
    planInShape q = planOutShape p /\ planOutShape q = planInShape p /\ normalizationFactor q = normalizationFactor p /\
    Allocated q (write (write h (pout p) gi) (pin p) go).
Proof.
  intros I (si & so & Ei & Eo & Ed & Hi & Ho & N & Li & Lo) Lgi Lgo.
  destruct (fftw_extents (ptransform p) (pshape p) I) as (si' & so' & dims & Ei' & Eo' & Ed' & Xi & Xo & _).
  unfold planInShape in Ei. unfold planOutShape in Eo. assert (si' = si) by congruence. assert (so' = so) by congruence. assert (dims = pdims p) by congruence. subst si' so' dims.
  destruct (inverse_shapes (ptransform p) (pshape p)) as (S1 & S2 & S3 & S4).
  unfold planInverse, planNew. rewrite S3, Ed. cbn [bind hold].
  assert (X : fftwIn (inverseTransform (ptransform p)) (pdims p) = prod so /\ fftwOut (inverseTransform (ptransform p)) (pdims p) = prod si)
    by (destruct (ptransform p); cbn [inverseTransform fftwIn fftwOut] in *; split; assumption).
  destruct X as [-> ->].
  replace (Nat.ltb (pout p) (length h)) with true by (symmetry; apply Nat.ltb_lt; lia).
  replace (Nat.ltb (pin p) (length h)) with true by (symmetry; apply Nat.ltb_lt; lia).
  replace (Nat.eqb (pout p) (pin p)) with false by (symmetry; apply Nat.eqb_neq; lia).
  replace (prod so <=? Z.of_nat (length (content h (pout p)))) with true by lia. replace (prod si <=? Z.of_nat (length (content h (pin p)))) with true by lia.
  cbn [andb negb]. eexists. split; [reflexivity|]. cbn [ptransform pshape pin pout pdims]. unfold planInShape, planOutShape, normalizationFactor. cbn [ptransform pshape pin pout pdims].
  repeat (split; [first [reflexivity|assumption]|]).
  exists so, si. unfold planInShape, planOutShape. cbn [ptransform pshape pin pout pdims]. rewrite S1, S2, S3. split; [exact Eo|]. split; [exact Ei|]. split; [exact Ed|].
  rewrite !write_length. split; [exact Ho|]. split; [exact Hi|]. split; [lia|].
  rewrite (content_write_neq _ (pin p) (pout p)) by lia. rewrite content_write_eq by exact Ho. rewrite content_write_eq by (rewrite write_length; exact Hi).
  split; lia.
Qed.

Lemma plan_inverse_twice p gi go gi' go' h q r h1 h2 : IntShape (pshape p) -> Allocated p h ->
  length gi = length (content h (pout p)) -> length go = length (content h (pin p)) -> length gi' = length go -> length go' = length gi ->
  planInverse p gi go h = Ok (q, h1) -> planInverse q gi' go' h1 = Ok (r, h2) -> r = p /\ Allocated p h2.
Proof.
  intros I A L1 L2 L3 L4 E1 E2. destruct (plan_inverse p gi go h I A L1 L2) as (q' & E1' & T & S & Pi & Po & D & _ & _ & _ & A').
  rewrite E1 in E1'. assert (q' = q) by congruence. assert (h1 = write (write h (pout p) gi) (pin p) go) by congruence. subst q' h1.
  assert (A2 := A). destruct A2 as (si & so & _ & _ & _ & Hi & Ho & N & _).
  destruct (plan_inverse q gi' go' (write (write h (pout p) gi) (pin p) go)) as (r' & E2' & T' & S' & Pi' & Po' & D' & _ & _ & _ & A''); [rewrite S; exact I|exact A'| | |].
  - rewrite Po. rewrite content_write_eq by (rewrite write_length; exact Hi). exact L3.
  - rewrite Pi. rewrite (content_write_neq _ (pin p)) by exact N. rewrite content_write_eq by exact Ho. exact L4.
  - rewrite E2 in E2'. assert (r' = r) by congruence. assert (h2 = write (write (write (write h (pout p) gi) (pin p) go) (pout q) gi') (pin q) go') by congruence. subst r' h2.
    assert (R : r = p).
    { destruct r as [rt rs ri ro rd], p as [pt ps pi po pd]. cbn [ptransform pshape pin pout pdims] in *. rewrite T in T'.
      destruct (inverse_shapes pt ps) as (_ & _ & _ & S4). rewrite S4 in T'. congruence. }
    split; [exact R|]. rewrite R in A''. exact A''.
Qed.

(** Composed plans *)
Lemma plan_compose p t shape si so gi go h : IntShape shape -> Allocated p h -> dftInShape t shape = Ok si -> dftOutShape t shape = Ok so ->
  prod si = Z.of_nat (length (content h (pout p))) -> length gi = length (content h (pout p)) -> Z.of_nat (length go) = prod so ->
  exists q, planCompose p t shape gi go h = Ok (q, write h (pout p) gi ++ [go]) /\ ptransform q = t /\ pshape q = shape /\
    pin q = pout p /\ pout q = length h /\ Allocated q (write h (pout p) gi ++ [go]).
Proof.
  intros I (si0 & so0 & _ & _ & _ & Hi & Ho & N & Li & Lo) Ei Eo Lsi Lgi Lgo.
  destruct (fftw_extents t shape I) as (si' & so' & dims & Ei' & Eo' & Ed & Xi & Xo & _).
  assert (si' = si) by congruence. assert (so' = so) by congruence. subst si' so'.
  unfold planCompose, planNew. rewrite Ed. cbn [bind hold]. rewrite app_length. cbn [length]. rewrite Xi, Xo.
  rewrite content_app_old by exact Ho. rewrite content_app_new.
  replace (Nat.ltb (pout p) (length h + 1)) with true by (symmetry; apply Nat.ltb_lt; lia).
  replace (Nat.ltb (length h) (length h + 1)) with true by (symmetry; apply Nat.ltb_lt; lia).
  replace (Nat.eqb (pout p) (length h)) with false by (symmetry; apply Nat.eqb_neq; lia).
  replace (prod si <=? Z.of_nat (length (content h (pout p)))) with true by lia. replace (prod so <=? Z.of_nat (length go)) with true by lia. cbn [andb negb].
  assert (W : write (write (h ++ [go]) (pout p) gi) (length h) go = write h (pout p) gi ++ [go]).
  { assert (W1 : forall l b (x y : list V), (b < length l)%nat -> write (l ++ [y]) b x = write l b x ++ [y]).
    { clear. unfold write. induction l as [|z l IH]; intros b x y H; [cbn in H; lia|]. destruct b; cbn [replace app]; [reflexivity|]. f_equal. apply IH. cbn in H. lia. }
    assert (W2 : forall l (x y : list V), write (l ++ [y]) (length l) x = l ++ [x]).
    { clear. unfold write. induction l as [|z l IH]; intros x y; cbn [app length replace]; [reflexivity|]. f_equal. apply IH. }
    rewrite W1 by exact Ho. rewrite <- (write_length h (pout p) gi). apply W2. }
  rewrite W. eexists. split; [reflexivity|]. cbn [ptransform pshape pin pout pdims]. repeat (split; [reflexivity|]).
  exists si, so. unfold planInShape, planOutShape. cbn [ptransform pshape pin pout pdims]. split; [exact Ei|]. split; [exact Eo|]. split; [exact Ed|].
  rewrite app_length, write_length. cbn [length]. split; [lia|]. split; [lia|]. split; [lia|].
  rewrite content_app_old by (rewrite write_length; exact Ho). rewrite content_write_eq by exact Ho.
  rewrite <- (write_length h (pout p) gi) at 1. rewrite content_app_new. split; lia.
Qed.

Lemma plan_compose_small p t shape si gi go h : IntShape shape -> Allocated p h -> dftInShape t shape = Ok si ->
  Z.of_nat (length (content h (pout p))) < prod si -> planCompose p t shape gi go h = UB.
Proof.
  intros I (si0 & so0 & _ & _ & _ & Hi & Ho & N & Li & Lo) Ei Lsi.
  destruct (fftw_extents t shape I) as (si' & so' & dims & Ei' & Eo' & Ed & Xi & Xo & _). assert (si' = si) by congruence. subst si'.
  unfold planCompose, planNew. rewrite Ed. cbn [bind hold]. rewrite Xi. rewrite content_app_old by exact Ho.
  replace (prod si <=? Z.of_nat (length (content h (pout p)))) with false by lia. rewrite andb_false_r. reflexivity.
Qed.

(** Transforms *)
Variable fft : transform -> list Z -> list V -> list V.
Variable scale : Q -> V -> V.

Lemma transform_out p g h : (pin p < length h)%nat -> (pout p < length h)%nat -> pin p <> pout p ->
  content (planTransform fft p g h) (pout p) = fft (ptransform p) (pdims p) (content h (pin p)) /\
  content (planTransform fft p g h) (pin p) = g /\ length (planTransform fft p g h) = length h /\
  forall b, b <> pin p -> b <> pout p -> content (planTransform fft p g h) b = content h b.
Proof.
  intros Hi Ho N. unfold planTransform. split; [|split; [|split]].
  - rewrite content_write_neq by exact N. apply content_write_eq. exact Ho.
  - apply content_write_eq. rewrite write_length. exact Hi.
  - rewrite !write_length. reflexivity.
  - intros b N1 N2. rewrite !content_write_neq by congruence. reflexivity.
Qed.

Lemma shapeSize_prod shape : shape <> [] -> shapeSize shape = prod shape.
Proof. apply shapeSize_prod. Qed.

Lemma round_trip accepted p q x g g' h h3 : IntShape (pshape p) -> Direct (ptransform p) ->
  Allocated p h -> content h (pin p) = x ->
  ptransform q = inverseTransform (ptransform p) -> pshape q = pshape p -> pin q = pout p -> pout q = pin p -> pdims q = pdims p ->
  Unnormalized fft scale accepted (ptransform p) (pdims p) -> Forall accepted x -> (forall n v, n <> 0 -> scale (1 / inject_Z n) (scale (inject_Z n) v) = v) ->
  planNormalize scale q (planTransform fft q g' (planTransform fft p g h)) = Ok h3 ->
  content h3 (pin p) = x /\ forall b, b <> pin p -> b <> pout p -> content h3 b = content h b.
Proof.
  intros I Dt (si & so & Ei & Eo & Ed & Hi & Ho & N & Li & Lo) Hx T S Pi Po D U Hv Sc E.
  destruct (fftw_extents (ptransform p) (pshape p) I) as (si' & so' & dims & Ei' & Eo' & Ed' & Xi & Xo & Pd & _).
  unfold planInShape in Ei. assert (si' = si) by congruence. assert (dims = pdims p) by congruence. subst si' dims.
  destruct (transform_out p g h Hi Ho N) as (C1 & _ & L1 & F1).
  destruct (transform_out q g' (planTransform fft p g h)) as (C2 & _ & L2 & F2); [rewrite L1; lia|rewrite L1; lia|lia|].
  unfold planNormalize in E. destruct (normalizationFactor q =? 0) eqn:Z0; [discriminate|]. apply Z.eqb_neq in Z0.
  assert (h3 = write (planTransform fft q g' (planTransform fft p g h)) (pout q) (map (scale (1 / inject_Z (normalizationFactor q))) (content (planTransform fft q g' (planTransform fft p g h)) (pout q)))) by congruence.
  subst h3. clear E. split.
  - rewrite <- Po. rewrite content_write_eq by (rewrite L2, L1; lia). rewrite C2. rewrite T, D, Pi, C1, Hx.
    destruct (U x) as [_ ->]; [rewrite <- Hx, Li; symmetry; exact Xi|exact Hv|]. rewrite map_map.
    assert (NF : normalizationFactor q = prod (pdims p)) by (unfold normalizationFactor; rewrite S, Pd; apply shapeSize_prod; apply I).
    rewrite NF in *. rewrite <- (map_id x) at 2. apply map_ext. intros v. apply Sc. exact Z0.
  - intros b N1 N2. rewrite content_write_neq by lia. rewrite F2 by lia. apply F1; assumption.
Qed.

Lemma normalize_defined p h : IntShape (pshape p) -> exists h', planNormalize scale p h = Ok h'.
Proof.
  intros [N F]. unfold planNormalize, normalizationFactor. rewrite shapeSize_prod by exact N.
  assert (0 < prod (pshape p)) by (apply prod_pos; clear N; induction F; constructor; [lia|assumption]).
  destruct (Z.eqb_spec (prod (pshape p)) 0); [lia|]. eauto.
Qed.

(** The functions *)
Lemma dft_function t normalized shape si so values gi go g : IntShape shape -> dftInShape t shape = Ok si -> dftOutShape t shape = Ok so ->
  Z.of_nat (length gi) = prod si -> Z.of_nat (length go) = prod so -> Z.of_nat (length values) = prod si ->
  dftFunction fft scale t normalized shape values gi go g =
    Ok (if normalized then map (scale (1 / inject_Z (prod shape))) (fft t (rev shape) values) else fft t (rev shape) values).
Proof.
  intros I Ei Eo Li Lo Lv. unfold dftFunction. destruct (plan_new t shape si so gi go [] I Ei Eo Li Lo) as (p & -> & T & S & Pi & Po & A).
  cbn [bind fst snd app]. cbn [app] in A. destruct A as (si' & so' & _ & _ & Ed & Hi & Ho & N & Ci & Co).
  destruct (fftw_extents t shape I) as (si2 & so2 & dims & _ & _ & Ed' & _ & _ & _ & Dr). rewrite T, S in Ed. assert (pdims p = rev shape) as Dp by congruence.
  cbn [length] in Pi, Po. unfold copyTo. rewrite Pi. change (content [gi; go] 0) with gi.
  replace (Nat.leb (length values) (length gi)) with true by (symmetry; apply Nat.leb_le; lia). cbn [bind].
  rewrite skipn_all2 by lia. rewrite app_nil_r. change (write [gi; go] 0 values) with [values; go].
  destruct (transform_out p g [values; go]) as (C1 & _ & L1 & _); [rewrite Pi; cbn; lia|rewrite Po; cbn; lia|lia|].
  rewrite T, Dp, Pi in C1. change (content [values; go] 0) with values in C1. destruct normalized.
  - destruct (normalize_defined p (planTransform fft p g [values; go])) as (h' & E); [rewrite S; exact I|]. rewrite E. cbn [bind].
    unfold planNormalize in E. destruct (normalizationFactor p =? 0); [discriminate|].
    assert (h' = write (planTransform fft p g [values; go]) (pout p) (map (scale (1 / inject_Z (normalizationFactor p))) (content (planTransform fft p g [values; go]) (pout p)))) by congruence.
    subst h'. rewrite content_write_eq by (rewrite L1, Po; cbn; lia). rewrite C1. unfold normalizationFactor. rewrite S, shapeSize_prod by apply I. reflexivity.
  - cbn [bind]. rewrite C1. reflexivity.
Qed.

Lemma functions_round_trip accepted t shape si so values gi go g gi' go' g' : IntShape shape -> Direct t -> dftInShape t shape = Ok si -> dftOutShape t shape = Ok so ->
  Z.of_nat (length gi) = prod si -> Z.of_nat (length go) = prod so -> Z.of_nat (length values) = prod si ->
  Z.of_nat (length gi') = prod so -> Z.of_nat (length go') = prod si ->
  Unnormalized fft scale accepted t (rev shape) -> Forall accepted values -> (forall n v, n <> 0 -> scale (1 / inject_Z n) (scale (inject_Z n) v) = v) ->
  exists coefficients, dftFunction fft scale t false shape values gi go g = Ok coefficients /\
    Z.of_nat (length coefficients) = prod so /\
    dftFunction fft scale (inverseTransform t) true shape coefficients gi' go' g' = Ok values.
Proof.
  intros I Dt Ei Eo L1 L2 L3 L4 L5 U Hv Sc. destruct (inverse_shapes t shape) as (S1 & S2 & _ & _).
  destruct (fftw_extents t shape I) as (si2 & so2 & dims & Ei2 & Eo2 & Ed' & Xi & Xo & Pd & Dr). subst dims.
  assert (si2 = si) by congruence. assert (so2 = so) by congruence. subst si2 so2.
  destruct (U values ltac:(rewrite Xi; exact L3) Hv) as [Lc Inv].
  exists (fft t (rev shape) values). split; [rewrite (dft_function t false shape si so) by assumption; reflexivity|]. split; [rewrite Lc; exact Xo|].
  rewrite (dft_function (inverseTransform t) true shape so si) by (try assumption; try (rewrite S1; assumption); try (rewrite S2; assumption); rewrite Lc; exact Xo).
  rewrite Inv, map_map. f_equal. rewrite <- (map_id values) at 2. apply map_ext. intros v. rewrite Pd. apply Sc.
  assert (0 < prod shape); [|lia]. apply prod_pos. destruct I as [_ F]. clear - F. induction F; constructor; [lia|assumption].
Qed.

(** Filtering in Fourier domain *)
Variable mul : V -> V -> V.
Lemma fourier_filter t shape si so values coefficients gi go gi' go' g g' h : IntShape shape -> dftInShape t shape = Ok si -> dftOutShape t shape = Ok so ->
  Z.of_nat (length gi) = prod si -> Z.of_nat (length go) = prod so -> Z.of_nat (length gi') = prod so -> Z.of_nat (length go') = prod si -> Z.of_nat (length values) = prod si ->
  exists h', fourierFilter fft scale mul t shape values coefficients gi go gi' go' g g' h =
    Ok (map (scale (1 / inject_Z (prod shape))) (fft (inverseTransform t) (rev shape) (map (fun ab => mul (fst ab) (snd ab)) (combine (fft t (rev shape) values) coefficients))), h') /\
    forall b, (b < length h)%nat -> content h' b = content h b.
Proof.
  intros I Ei Eo L1 L2 L3 L4 L5. unfold fourierFilter. destruct (plan_new t shape si so gi go h I Ei Eo L1 L2) as (p & -> & T & S & Pi & Po & A). cbn [bind fst snd].
  assert (Ip : IntShape (pshape p)) by (rewrite S; exact I). assert (A2 := A). destruct A2 as (si' & so' & Ei' & Eo' & Ed & Hi & Ho & N & Ci & Co).
  unfold planInShape in Ei'. unfold planOutShape in Eo'. rewrite T, S in Ei', Eo', Ed. assert (si' = si) by congruence. assert (so' = so) by congruence. subst si' so'.
  destruct (fftw_extents t shape I) as (_ & _ & dims & _ & _ & Ed' & _ & _ & _ & Dr). assert (Dp : pdims p = rev shape) by congruence. clear dims Ed' Dr.
  set (h0 := (h ++ [gi]) ++ [go]) in *. destruct (plan_inverse p gi' go' h0 Ip A ltac:(lia) ltac:(lia)) as (q & -> & Tq & Sq & Pqi & Pqo & Dq & _ & _ & _ & _). cbn [bind fst snd].
  set (h1 := write (write h0 (pout p) gi') (pin p) go') in *.
  assert (C1 : content h1 (pin p) = go') by (apply content_write_eq; rewrite write_length; exact Hi).
  assert (H1 : length h1 = length h0) by (unfold h1; rewrite !write_length; reflexivity).
  unfold copyTo. rewrite C1. replace (Nat.leb (length values) (length go')) with true by (symmetry; apply Nat.leb_le; lia). cbn [bind].
  rewrite skipn_all2 by lia. rewrite app_nil_r. set (h2 := write h1 (pin p) values).
  assert (H2 : length h2 = length h0) by (unfold h2; rewrite write_length; exact H1).
  assert (C2 : content h2 (pin p) = values) by (apply content_write_eq; lia).
  destruct (transform_out p g h2) as (C3 & _ & H3 & F3); [lia|lia|exact N|]. rewrite C3. set (h3 := planTransform fft p g h2) in *.
  set (y := map (fun ab => mul (fst ab) (snd ab)) (combine (fft (ptransform p) (pdims p) (content h2 (pin p))) coefficients)).
  set (h4 := write h3 (pout p) y). assert (H4 : length h4 = length h0) by (unfold h4; rewrite write_length; lia).
  assert (C4 : content h4 (pin q) = y) by (rewrite Pqi; apply content_write_eq; lia).
  destruct (transform_out q g' h4) as (C5 & _ & H5 & F5); [rewrite Pqi; lia|rewrite Pqo; lia|rewrite Pqi, Pqo; lia|].
  set (h5 := planTransform fft q g' h4) in *. destruct (normalize_defined q h5) as (h6 & E); [rewrite Sq; exact Ip|]. rewrite E. cbn [bind].
  unfold planNormalize in E. destruct (normalizationFactor q =? 0); [discriminate|].
  assert (h6 = write h5 (pout q) (map (scale (1 / inject_Z (normalizationFactor q))) (content h5 (pout q)))) by congruence. subst h6.
  exists (write h5 (pout q) (map (scale (1 / inject_Z (normalizationFactor q))) (content h5 (pout q)))). split.
  - rewrite content_write_eq by (rewrite Pqo; lia). rewrite C5, C4, Tq, Dq, Dp. unfold normalizationFactor. rewrite Sq, S, shapeSize_prod by apply I. unfold y. rewrite C2, T, Dp. reflexivity.
  - intros b Hb. rewrite content_write_neq by (rewrite Pqo; lia). rewrite F5 by (rewrite ?Pqi, ?Pqo; lia). unfold h4. rewrite content_write_neq by lia.
    rewrite F3 by lia. unfold h2, h1. rewrite !content_write_neq by lia. unfold h0. rewrite content_app_old by (rewrite app_length; lia). apply content_app_old. exact Hb.
Qed.
End Memory.

(** Overflow *)
Lemma int_overflow : exists shape, Forall (fun s => 0 < s) shape /\ planDims ComplexDft shape = Ok [2; -2147483648].
Proof. exists [2147483648; 2]. split; [repeat constructor; lia|]. reflexivity. Qed.

Lemma fft2_unnormalized t : t = RealDft \/ t = ComplexDft -> Unnormalized fft2 scaleQc (fun _ => True) t [2].
Proof.
  intros H l L _. assert (E : fftwIn t [2] = 2) by (destruct H as [->| ->]; reflexivity). rewrite E in L.
  destruct l as [|a [|b [|c l]]]; cbn [length] in L; try lia. cbn [fft2]. split; [destruct H as [->| ->]; reflexivity|].
  cbn [map]. unfold scaleQc. change (Q2Qc (inject_Z (prod [2]))) with (Q2Qc 2). f_equal; [|f_equal].
  - change (Q2Qc 2) with (1 + 1)%Qc. ring.
  - change (Q2Qc 2) with (1 + 1)%Qc. ring.
Qed.

Lemma scaleQc_inverse n v : n <> 0 -> scaleQc (1 / inject_Z n) (scaleQc (inject_Z n) v) = v.
Proof.
  intros H. unfold scaleQc. rewrite Qcmult_assoc. assert (E : (Q2Qc (1 / inject_Z n) * Q2Qc (inject_Z n) = 1)%Qc).
  { apply Qc_is_canon. unfold Qcmult. cbn [this Q2Qc]. rewrite !Qred_correct. field. intros E. apply H. unfold Qeq in E. cbn in E. lia. }
  rewrite E. ring.
Qed.

(** Histories *)
Lemma dims_positive t shape dims : IntShape shape -> planDims t shape = Ok dims -> Positive dims.
Proof.
  intros I E. destruct (fftw_extents t shape I) as (_ & _ & dims' & _ & _ & E' & _ & _ & _ & R). assert (dims = rev shape) by congruence. subst dims.
  destruct I as [_ F]. apply Forall_rev. eapply Forall_impl; [|exact F]. cbn. intros; lia.
Qed.

Section Histories.
Context {V : Type}.
Variable fft : transform -> list Z -> list V -> list V.
Variable scale : Q -> V -> V.
Implicit Types h : list (list V).

Definition sameSizes h h' := (length h <= length h')%nat /\ forall b, (b < length h)%nat -> length (content h' b) = length (content h b).

Lemma sameSizes_trans h1 h2 h3 : sameSizes h1 h2 -> sameSizes h2 h3 -> sameSizes h1 h3.
Proof. intros [L1 S1] [L2 S2]. split; [lia|]. intros b H. rewrite S2 by lia. apply S1. exact H. Qed.

Lemma sameSizes_write h b l : SameLength l (content h b) -> sameSizes h (write h b l).
Proof.
  intros H. split; [rewrite write_length; lia|]. intros c Hc. destruct (Nat.eq_dec b c) as [->|N].
  - rewrite content_write_eq by exact Hc. exact H.
  - rewrite content_write_neq by exact N. reflexivity.
Qed.

Lemma sameSizes_app h l : sameSizes h (h ++ [l]).
Proof. split; [rewrite app_length; lia|]. intros b H. rewrite content_app_old by exact H. reflexivity. Qed.

Lemma allocated_same p h h' : sameSizes h h' -> Allocated p h -> Allocated p h'.
Proof.
  intros [L S] (si & so & Ei & Eo & Ed & Hi & Ho & N & Li & Lo). exists si, so. repeat (split; [first [assumption|lia]|]).
  rewrite !S by assumption. split; assumption.
Qed.

Lemma history_allocated ps h : Sized fft -> History fft scale ps h -> forall p, In p ps -> IntShape (pshape p) /\ Allocated p h.
Proof.
  intros Sz. induction 1 as [|t shape si so gi go ps h p h' H IH I Ei Eo Li Lo E|p gi go ps h q h' H IH Hp Lgi Lgo E|p t shape si so gi go ps h q h' H IH Hp I Ei Eo Es Lgi Lgo E|p l ps h H IH Hp L|p g ps h H IH Hp L|p ps h h' H IH Hp E]; intros r Hr.
  - destruct Hr.
  - destruct (plan_new t shape si so gi go h I Ei Eo Li Lo) as (p' & E' & T & S & Pi & Po & A). rewrite E in E'.
    assert (p' = p) by congruence. assert (h' = (h ++ [gi]) ++ [go]) by congruence. subst p' h'. destruct Hr as [<-|Hr]; [split; [rewrite S; exact I|exact A]|].
    destruct (IH r Hr) as [I' A']. split; [exact I'|]. eapply allocated_same; [|exact A']. eapply sameSizes_trans; apply sameSizes_app.
  - destruct (IH p Hp) as [Ip Ap]. destruct (plan_inverse p gi go h Ip Ap Lgi Lgo) as (q' & E' & T & S & Pi & Po & _ & _ & _ & _ & A). rewrite E in E'.
    assert (q' = q) by congruence. assert (h' = write (write h (pout p) gi) (pin p) go) by congruence. subst q' h'. destruct Hr as [<-|Hr]; [split; [rewrite S; exact Ip|exact A]|].
    destruct (IH r Hr) as [I' A']. split; [exact I'|]. eapply allocated_same; [|exact A']. destruct Ap as (_ & _ & _ & _ & _ & _ & _ & N & _).
    eapply sameSizes_trans; [apply sameSizes_write; exact Lgi|]. apply sameSizes_write. unfold SameLength. rewrite content_write_neq by lia. exact Lgo.
  - destruct (IH p Hp) as [Ip Ap]. destruct (plan_compose p t shape si so gi go h I Ap Ei Eo Es Lgi Lgo) as (q' & E' & T & S & Pi & Po & A). rewrite E in E'.
    assert (q' = q) by congruence. assert (h' = write h (pout p) gi ++ [go]) by congruence. subst q' h'. destruct Hr as [<-|Hr]; [split; [rewrite S; exact I|exact A]|].
    destruct (IH r Hr) as [I' A']. split; [exact I'|]. eapply allocated_same; [|exact A'].
    eapply sameSizes_trans; [apply sameSizes_write; exact Lgi|]. apply sameSizes_app.
  - destruct (IH r Hr) as [I' A']. split; [exact I'|]. eapply allocated_same; [|exact A']. apply sameSizes_write. exact L.
  - destruct (IH r Hr) as [I' A']. split; [exact I'|]. eapply allocated_same; [|exact A']. destruct (IH p Hp) as [Ip Ap]. destruct Ap as (si & so & Ei & Eo & Ed & Hi & Ho & N & Li & Lo).
    destruct (fftw_extents (ptransform p) (pshape p) Ip) as (si' & so' & dims & Ei' & Eo' & Ed' & Xi & Xo & _).
    unfold planInShape in Ei. unfold planOutShape in Eo. assert (si' = si) by congruence. assert (so' = so) by congruence. assert (dims = pdims p) by congruence. subst si' so' dims.
    unfold planTransform. eapply sameSizes_trans; [apply sameSizes_write|].
    + unfold SameLength. apply Nat2Z.inj. rewrite (Sz (ptransform p) (pdims p)); [rewrite Xo; symmetry; exact Lo|apply (dims_positive (ptransform p) (pshape p)); assumption|rewrite Xi; exact Li].
    + apply sameSizes_write. unfold SameLength. rewrite content_write_neq by lia. exact L.
  - destruct (IH r Hr) as [I' A']. split; [exact I'|]. eapply allocated_same; [|exact A']. unfold planNormalize in E. destruct (normalizationFactor p =? 0); [discriminate|].
    assert (Eh : h' = write h (pout p) (map (scale (1 / inject_Z (normalizationFactor p))) (content h (pout p)))) by congruence. subst h'.
    apply sameSizes_write. unfold SameLength. rewrite map_length. reflexivity.
Qed.

Lemma history_inverse ps h p gi go : Sized fft -> History fft scale ps h -> In p ps ->
  SameLength gi (content h (pout p)) -> SameLength go (content h (pin p)) ->
  exists q h', planInverse p gi go h = Ok (q, h') /\ 
    ptransform q = inverseTransform (ptransform p) /\ pshape q = pshape p /\ pin q = pout p /\ pout q = pin p /\ pdims q = pdims p /\
    planInShape q = planOutShape p /\ planOutShape q = planInShape p /\ normalizationFactor q = normalizationFactor p /\
    (forall b, b <> pin p -> b <> pout p -> content h' b = content h b) /\
    forall gi' go', SameLength gi' (content h' (pout q)) -> SameLength go' (content h' (pin q)) -> exists h'', planInverse q gi' go' h' = Ok (p, h'').
Proof.
  intros Sz H Hp Lgi Lgo. destruct (history_allocated ps h Sz H p Hp) as [I A]. destruct (plan_inverse p gi go h I A Lgi Lgo) as (q & E & T & S & Pi & Po & D & Si & So & Nf & A').
  assert (A2 := A). destruct A2 as (_ & _ & _ & _ & _ & Hi & Ho & N & _).
  exists q. eexists. split; [exact E|]. repeat (split; [assumption|]). split; [intros b N1 N2; rewrite !content_write_neq by congruence; reflexivity|].
  intros gi' go' L1 L2. destruct (plan_inverse q gi' go' (write (write h (pout p) gi) (pin p) go)) as (r & E' & _); [rewrite S; exact I|exact A'|exact L1|exact L2|].
  - unfold SameLength in L1. rewrite E'. eexists. f_equal. f_equal. eapply (plan_inverse_twice p gi go gi' go' h q r); try eassumption.
    + rewrite L1, Po. rewrite content_write_eq by (rewrite write_length; exact Hi). reflexivity.
    + rewrite L2, Pi. rewrite content_write_neq by exact N. rewrite content_write_eq by exact Ho. reflexivity.
Qed.

(** The inverse plan gives back the input of a plan, up to the normalization, whatever the history. *)
Lemma history_round_trip accepted ps h p q x g g' : Sized fft -> History fft scale ps h -> In p ps -> In q ps -> Direct (ptransform p) ->
  ptransform q = inverseTransform (ptransform p) -> pshape q = pshape p -> pin q = pout p -> pout q = pin p ->
  content h (pin p) = x ->
  Unnormalized fft scale accepted (ptransform p) (pdims p) -> Forall accepted x -> (forall n v, n <> 0 -> scale (1 / inject_Z n) (scale (inject_Z n) v) = v) ->
  exists h', planNormalize scale q (planTransform fft q g' (planTransform fft p g h)) = Ok h' /\
    content h' (pin p) = x /\ forall b, b <> pin p -> b <> pout p -> content h' b = content h b.
Proof.
  intros Sz H Hp Hq Dt T S Pi Po Hx U Hv Sc. destruct (history_allocated ps h Sz H p Hp) as [I A]. destruct (history_allocated ps h Sz H q Hq) as [Iq Aq].
  destruct (normalize_defined fft scale q (planTransform fft q g' (planTransform fft p g h)) Iq) as (h' & E). exists h'. split; [exact E|].
  assert (D : pdims q = pdims p).
  { destruct A as (? & ? & _ & _ & Ed & _). destruct Aq as (? & ? & _ & _ & Edq & _). rewrite T, S in Edq. destruct (inverse_shapes (ptransform p) (pshape p)) as (_ & _ & S3 & _). rewrite S3 in Edq. congruence. }
  eapply (round_trip fft scale accepted p q x g g' h h'); eassumption.
Qed.

Lemma history_compose ps h p t shape si so gi go : Sized fft -> History fft scale ps h -> In p ps -> IntShape shape -> dftInShape t shape = Ok si -> dftOutShape t shape = Ok so ->
  prod si = Z.of_nat (length (content h (pout p))) -> SameLength gi (content h (pout p)) -> Z.of_nat (length go) = prod so ->
  exists q h', planCompose p t shape gi go h = Ok (q, h') /\ ptransform q = t /\ pshape q = shape /\ pin q = pout p /\
    (forall r, In r ps -> pout q <> pin r /\ pout q <> pout r) /\
    (forall b, (b < length h)%nat -> b <> pout p -> content h' b = content h b).
Proof.
  intros Sz H Hp I Ei Eo Es Lgi Lgo. destruct (history_allocated ps h Sz H p Hp) as [Ip A]. destruct (plan_compose p t shape si so gi go h I A Ei Eo Es Lgi Lgo) as (q & E & T & S & Pi & Po & _).
  exists q. eexists. split; [exact E|]. repeat (split; [assumption|]). split.
  - intros r Hr. destruct (history_allocated ps h Sz H r Hr) as [_ (_ & _ & _ & _ & _ & Hi & Ho & _)]. repeat split; lia.
  - intros b Hb N. rewrite content_app_old by (rewrite write_length; exact Hb). apply content_write_neq. congruence.
Qed.

Lemma history_new ps h t shape si so gi go : Sized fft -> History fft scale ps h -> IntShape shape -> dftInShape t shape = Ok si -> dftOutShape t shape = Ok so ->
  Z.of_nat (length gi) = prod si -> Z.of_nat (length go) = prod so ->
  exists q h', planNew t shape None None gi go h = Ok (q, h') /\ ptransform q = t /\ pshape q = shape /\ pin q <> pout q /\
    planInShape q = Ok si /\ planOutShape q = Ok so /\ 
    (forall r, In r ps -> pin q <> pin r /\ pin q <> pout r /\ pout q <> pin r /\ pout q <> pout r) /\
    (forall b, (b < length h)%nat -> content h' b = content h b).
Proof.
  intros Sz H I Ei Eo Li Lo. destruct (plan_new t shape si so gi go h I Ei Eo Li Lo) as (q & E & T & S & Pi & Po & _).
  exists q. eexists. split; [exact E|]. split; [exact T|]. split; [exact S|]. split; [lia|]. unfold planInShape, planOutShape. rewrite T, S. split; [exact Ei|]. split; [exact Eo|]. split.
  - intros r Hr. destruct (history_allocated ps h Sz H r Hr) as [_ (_ & _ & _ & _ & _ & Hi & Ho & _)]. repeat split; lia.
  - intros b Hb. rewrite content_app_old by (rewrite app_length; lia). apply content_app_old. exact Hb.
Qed.

Lemma history_transform ps h p g : Sized fft -> History fft scale ps h -> In p ps ->
  content (planTransform fft p g h) (pout p) = fft (ptransform p) (pdims p) (content h (pin p)) /\
  forall b, b <> pin p -> b <> pout p -> content (planTransform fft p g h) b = content h b.
Proof.
  intros Sz H Hp. destruct (history_allocated ps h Sz H p Hp) as [I (_ & _ & _ & _ & _ & Hi & Ho & N & _)].
  destruct (transform_out fft p g h Hi Ho N) as (C & _ & _ & F). split; assumption.
Qed.
End Histories.


(** The example *)
Lemma fftwOut_nonneg t dims : Positive dims -> 0 <= fftwOut t dims.
Proof.
  intros P. assert (C : 0 <= fftwComplex dims).
  { unfold fftwComplex. assert (R : Positive (rev dims)) by (apply Forall_rev; exact P). destruct (rev dims) as [|n r]; [lia|].
    inversion R as [|? ? Hn Hr]; subst. assert (0 < prod r) by (apply prod_pos; exact Hr). change (fold_right Z.mul 1 r) with (prod r).
    assert (0 <= n / 2) by (apply Z.div_pos; lia). nia. }
  assert (R : 0 < prod dims) by (apply prod_pos; exact P). destruct t; cbn [fftwOut]; try exact C; change (fftwReal dims) with (prod dims); lia.
Qed.

Lemma sized_fill : Sized fftFill.
Proof.
  intros t dims l P L. unfold fftFill. destruct (Z.eqb_spec (Z.of_nat (length l)) 2) as [E|E]; cbn [andb].
  - destruct (Z.eqb_spec (fftwOut t dims) 2) as [E'|E']; [|rewrite repeat_length, Z2Nat.id by (apply fftwOut_nonneg; exact P); reflexivity].
    destruct l as [|a [|b [|c l]]]; cbn [length] in E; try lia. cbn [fft2 length]. lia.
  - rewrite repeat_length, Z2Nat.id by (apply fftwOut_nonneg; exact P). reflexivity.
Qed.

Lemma fill_unnormalized t : t = RealDft \/ t = ComplexDft -> Unnormalized fftFill scaleQc (fun _ => True) t [2].
Proof.
  intros H l L Hv. destruct (fft2_unnormalized t H l L Hv) as [L1 E]. assert (L2 : Z.of_nat (length l) = 2) by (destruct H as [->| ->]; exact L).
  assert (F : fftFill t [2] l = fft2 t [2] l).
  { unfold fftFill. rewrite L2. destruct H as [->| ->]; reflexivity. }
  rewrite F. split; [exact L1|]. rewrite <- E. unfold fftFill. rewrite L1. destruct H as [->| ->]; reflexivity.
Qed.

Definition examplePlan := mkPlan RealDft [2] 0 1 [2].
Definition exampleInverse := mkPlan InverseRealDft [2] 1 0 [2].
Lemma example_history (x y : Qc) : History fftFill scaleQc [exampleInverse; examplePlan] [[x; y]; [0%Qc; 0%Qc]].
Proof.
  assert (H0 : History fftFill scaleQc [examplePlan] [[x; y]; [0%Qc; 0%Qc]]).
  { eapply (HistoryNew fftFill scaleQc RealDft [2] [2] [2] [x; y] [0%Qc; 0%Qc] [] []); try reflexivity; [constructor|].
    split; [discriminate|]. constructor; [lia|constructor]. }
  apply (HistoryInverse fftFill scaleQc examplePlan [0%Qc; 0%Qc] [x; y] [examplePlan] [[x; y]; [0%Qc; 0%Qc]] exampleInverse); try reflexivity; [exact H0|left; reflexivity].
Qed.
