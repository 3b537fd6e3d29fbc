(** Rounding of the median absolute deviation of doubles. *)
From Coq Require Import Reals Lra Permutation Sorted.
From Flocq Require Import Core Relative IEEE754.BinarySingleNaN.
From Verif Require Import Res Lemmas ContainerSpec DistModel DistSpec DistProofs FloatModel FloatSpec FloatProofs QuantileModel QuantileSpec QuantileProofs DistFloatModel DistFloatSpec OrderStatProofs DistFloatProofs.

Local Existing Instance hprec.
Local Existing Instance hmax.
Local Existing Instance valid64.
Open Scope R_scope.

Lemma parity (l : list double) : l <> [] -> (exists m, length l = (2 * m + 1)%nat) \/ exists m, length l = (2 * m + 2)%nat.
Proof.
  intros N. assert (0 < length l)%nat by (destruct l; [congruence|cbn [length]; lia]). destruct (Nat.Even_or_Odd (length l)) as [[k E]|[k E]].
  - right. exists (k - 1)%nat. lia.
  - left. exists k. lia.
Qed.

Lemma nonempty_perm {A} (l s : list A) : Permutation l s -> l <> [] -> s <> [].
Proof. intros P N ->. apply Permutation_sym, Permutation_nil in P. contradiction. Qed.

Lemma stat_of l s k x : Forall Finite l -> Sorting dltb l s -> zget s k = Ok x -> OrderStat (map real l) k (real x).
Proof. intros F H G. exists (map real s). split; [apply sorting_real; assumption|]. rewrite zget_map, G. reflexivity. Qed.

(** The median of sorted values, and the exact one. *)
Lemma median_sorted l s M : l <> [] -> (Z.of_nat (length l) <= 2 ^ 53)%Z -> Forall (fun x => Finite x /\ Rabs (real x) <= M) l -> Sorting dltb l s ->
  exists w m, dmedian s = Ok w /\ Finite w /\ MedianR (map real l) m /\ Rabs (real w - m) <= 3 * pow2 (-53) * M + pow2 (-1073) /\
    (Nat.Odd (length l) -> real w = m).
Proof.
  intros N H FM Hs. assert (F : Forall Finite l) by (eapply Forall_impl; [|exact FM]; cbv beta; tauto).
  pose proof (Permutation_length (proj1 Hs)) as Ls. pose proof (perm_forall _ _ _ (proj1 Hs) F) as Fs. pose proof (perm_forall _ _ _ (proj1 Hs) FM) as FMs.
  pose proof (nonempty_perm _ _ (proj1 Hs) N) as Ns.
  assert (M0 : 0 <= M). { destruct l as [|x l]; [congruence|]. inversion FM as [|? ? [_ B] _]; subst. pose proof (Rabs_pos (real x)). lra. }
  assert (T : 0 <= 3 * pow2 (-53) * M + pow2 (-1073)).
  { pose proof (bpow_gt_0 radix2 (-53)). pose proof (bpow_gt_0 radix2 (-1073)). apply Rplus_le_le_0_compat; [|lra]. apply Rmult_le_pos; lra. }
  destruct (parity s Ns) as [(k & E)|(k & E)].
  - pose proof (median_odd s k E ltac:(lia) Fs) as D. destruct (zget_in_range s (Z.of_nat k)) as [w G]; [lia|]. rewrite G in D.
    exists w, (real w). split; [exact D|]. split; [eapply forall_get; eauto|]. split; [|split; [|reflexivity]].
    + exists (real w), (real w). rewrite map_length, Ls, E.
      replace ((Z.of_nat (2 * k + 1) - 1) / 2)%Z with (Z.of_nat k) by (apply Z.div_unique with 0%Z; lia).
      replace (Z.of_nat (2 * k + 1) / 2)%Z with (Z.of_nat k) by (apply Z.div_unique with 1%Z; lia).
      split; [eapply stat_of; eauto|]. split; [eapply stat_of; eauto|lra].
    + replace (real w - real w) with 0 by ring. rewrite Rabs_R0. exact T.
  - destruct (median_even_cases s k E ltac:(lia) Fs) as (x & y & w & Gx & Gy & Fx & Fy & D & Fw & V).
    exists w, ((real x + real y) / 2). split; [exact D|]. split; [exact Fw|]. split; [|split].
    + exists (real x), (real y). rewrite map_length, Ls, E.
      replace ((Z.of_nat (2 * k + 2) - 1) / 2)%Z with (Z.of_nat k) by (apply Z.div_unique with 1%Z; lia).
      replace (Z.of_nat (2 * k + 2) / 2)%Z with (Z.of_nat k + 1)%Z by (apply Z.div_unique with 0%Z; lia).
      split; [eapply stat_of; eauto|]. split; [eapply stat_of; eauto|reflexivity].
    + destruct (forall_get _ s _ x FMs Gx) as [_ Bx]. destruct (forall_get _ s _ y FMs Gy) as [_ By]. rewrite V.
      pose proof (rnd_error (real x / 2)) as Ea. pose proof (rnd_error (real y / 2)) as Eb. pose proof (rnd_error (rnd (real x / 2) + rnd (real y / 2))) as Es.
      set (a := rnd (real x / 2)) in *. set (b := rnd (real y / 2)) in *. set (r := rnd (a + b)) in *.
      assert (H4 : pow2 (-1073) = 4 * pow2 (-1075)) by (change 4 with (pow2 2); rewrite <- bpow_plus; reflexivity). rewrite H4.
      assert (Pu := bpow_gt_0 radix2 (-53)). assert (Pe := bpow_gt_0 radix2 (-1075)).
      assert (Su : pow2 (-53) <= / 128) by (change (/ 128) with (pow2 (-7)); apply bpow_le; lia).
      set (u := pow2 (-53)) in *. set (h := pow2 (-1075)) in *.
      assert (Hx : Rabs (real x / 2) <= M / 2) by (unfold Rdiv; rewrite Rabs_mult, (Rabs_pos_eq (/ 2)) by lra; lra).
      assert (Hy : Rabs (real y / 2) <= M / 2) by (unfold Rdiv; rewrite Rabs_mult, (Rabs_pos_eq (/ 2)) by lra; lra).
      assert (u * Rabs (real x / 2) <= u * (M / 2)) by (apply Rmult_le_compat_l; lra).
      assert (u * Rabs (real y / 2) <= u * (M / 2)) by (apply Rmult_le_compat_l; lra).
      assert (Hs' : Rabs (a + b) <= M + u * M + 2 * h).
      { replace (a + b) with ((a - real x / 2) + (b - real y / 2) + (real x / 2 + real y / 2)) by ring.
        eapply Rle_trans; [apply Rabs_triang|]. pose proof (Rabs_triang (a - real x / 2) (b - real y / 2)). pose proof (Rabs_triang (real x / 2) (real y / 2)). lra. }
      assert (H5 : u * Rabs (a + b) <= u * (M + u * M + 2 * h)) by (apply Rmult_le_compat_l; lra).
      assert (H6 : u * (u * M) <= / 128 * (u * M)) by (apply Rmult_le_compat_r; [apply Rmult_le_pos; lra|lra]).
      assert (H7 : u * h <= / 128 * h) by (apply Rmult_le_compat_r; lra).
      assert (H8 : 0 <= u * M) by (apply Rmult_le_pos; lra).
      replace (r - (real x + real y) / 2) with ((r - (a + b)) + ((a - real x / 2) + (b - real y / 2))) by field.
      eapply Rle_trans; [apply Rabs_triang|]. pose proof (Rabs_triang (a - real x / 2) (b - real y / 2)). lra.
    + intros [j J]. lia.
Qed.

Lemma median_nonneg s w : s <> [] -> (Z.of_nat (length s) <= 2 ^ 53)%Z -> Forall (fun x => Finite x /\ 0 <= real x) s -> dmedian s = Ok w -> 0 <= real w.
Proof.
  intros N H FM D. assert (F : Forall Finite s) by (eapply Forall_impl; [|exact FM]; cbv beta; tauto). destruct (parity s N) as [(k & E)|(k & E)].
  - rewrite (median_odd s k E H F) in D. eapply (forall_get (fun x => Finite x /\ 0 <= real x)); eauto.
  - destruct (median_even_cases s k E H F) as (x & y & v & Gx & Gy & _ & _ & D' & _ & V). assert (w = v) as -> by congruence. rewrite V.
    destruct (forall_get _ s _ x FM Gx) as [_ Bx]. destruct (forall_get _ s _ y FM Gy) as [_ By].
    assert (P : forall a, 0 <= a -> 0 <= rnd a). { intros a Ha. apply round_ge_generic; [apply valid64|apply valid_rnd_N|apply generic_format_0|exact Ha]. }
    apply P. apply Rplus_le_le_0_compat; apply P; lra.
Qed.

Lemma median_null s w : s <> [] -> (Z.of_nat (length s) <= 2 ^ 53)%Z -> Forall (fun x => Finite x /\ real x = 0) s -> dmedian s = Ok w -> real w = 0.
Proof.
  intros N H FM D. assert (F : Forall Finite s) by (eapply Forall_impl; [|exact FM]; cbv beta; tauto). destruct (parity s N) as [(k & E)|(k & E)].
  - rewrite (median_odd s k E H F) in D. eapply (forall_get (fun x => Finite x /\ real x = 0)); eauto.
  - destruct (median_even_cases s k E H F) as (x & y & v & Gx & Gy & _ & _ & D' & _ & V). assert (w = v) as -> by congruence. rewrite V.
    rewrite (proj2 (forall_get _ s _ x FM Gx)), (proj2 (forall_get _ s _ y FM Gy)).
    replace (0 / 2) with 0 by field. rewrite round0. replace (0 + 0) with 0 by ring. apply round0.
Qed.

(** Deviations *)
Lemma deviation e m M E : Finite e -> Finite m -> Rabs (real e) <= M -> Rabs (real m) <= E -> M + E <= pow2 1023 ->
  Finite (Babs (dsub e m)) /\ real (Babs (dsub e m)) = rnd (Rabs (real e - real m)).
Proof.
  unfold Finite, real. intros Fe Fm Be Bm H.
  assert (L : Rabs (val e - val m) <= pow2 1023). { unfold Rminus. eapply Rle_trans; [apply Rabs_triang|]. rewrite Rabs_Ropp. lra. }
  assert (G : Rabs (rnd (val e - val m)) < pow2 1024).
  { rewrite abs_rnd. apply Rle_lt_trans with (pow2 1023); [|apply bpow_lt; lia]. apply round_le_generic; [apply valid64|apply valid_rnd_N| |exact L].
    apply (generic_format_FLT_bpow radix2 (3 - 1024 - 53) 53); lia. }
  destruct (dsub_ok e m Fe Fm G) as [V F]. rewrite is_finite_Babs, B2R_Babs. split; [exact F|]. rewrite V. apply abs_rnd.
Qed.

Lemma deviations_spec l m M E : Forall (fun x => Finite x /\ Rabs (real x) <= M) l -> Finite m -> Rabs (real m) <= E -> M + E <= pow2 1023 ->
  Forall Finite (ddeviations l m) /\ map real (ddeviations l m) = map (fun x => rnd (Rabs (real x - real m))) l.
Proof.
  intros F Fm Bm H. unfold ddeviations. rewrite map_map. split.
  - apply Forall_forall. intros x I. apply in_map_iff in I as (e & <- & I). rewrite Forall_forall in F. destruct (F e I) as [Fe Be]. apply (deviation e m M E); auto.
  - apply map_ext_in. intros e I. rewrite Forall_forall in F. destruct (F e I) as [Fe Be]. apply (deviation e m M E); auto.
Qed.

Lemma median_bound l xm M : Forall (fun x => Finite x /\ Rabs (real x) <= M) l -> MedianR (map real l) xm -> Rabs xm <= M.
Proof.
  intros FM (x & y & Hx & Hy & ->). assert (G : forall k x, OrderStat (map real l) k x -> Rabs x <= M).
  { intros k z (t & [Pt _] & G). destruct (zget_In t k (zget_range _ _ _ G)) as (z' & G' & In'). rewrite G in G'. injection G' as <-.
    apply (Permutation_in _ (Permutation_sym Pt)) in In'. apply in_map_iff in In' as (e & <- & Ie). rewrite Forall_forall in FM. apply (FM e Ie). }
  apply G in Hx, Hy. unfold Rdiv. rewrite Rabs_mult, (Rabs_pos_eq (/ 2)) by lra. pose proof (Rabs_triang x y). lra.
Qed.

Lemma pow_1023 : pow2 1023 = 4 * pow2 1021.
Proof. change 4 with (pow2 2). rewrite <- bpow_plus. reflexivity. Qed.

Lemma center_bound m xm M : M <= pow2 1021 -> 0 <= M -> Rabs (real m - xm) <= 3 * pow2 (-53) * M + pow2 (-1073) -> Rabs xm <= M -> Rabs (real m) <= 3 * pow2 1021.
Proof.
  intros HM M0 Em Xm. assert (U1 : pow2 (-53) <= / 128) by (change (/ 128) with (pow2 (-7)); apply bpow_le; lia). pose proof (bpow_gt_0 radix2 (-53)) as U0.
  assert (H1 : pow2 (-1073) <= pow2 1021) by (apply bpow_le; lia).
  assert (H2 : pow2 (-53) * M <= / 128 * M) by (apply Rmult_le_compat_r; lra).
  replace (real m) with ((real m - xm) + xm) by ring. eapply Rle_trans; [apply Rabs_triang|].
  eapply Rle_trans; [apply Rplus_le_compat; [exact Em|exact Xm]|]. pose proof (bpow_gt_0 radix2 1021). lra.
Qed.

(** The computed deviation: the first median is [m], and the deviations are those of the values in any order. *)
Lemma mad_steps o l d d' r M : l <> [] -> (Z.of_nat (length l) <= 2 ^ 53)%Z -> Forall (fun x => Finite x /\ Rabs (real x) <= M) l -> M <= pow2 1021 ->
  Inv dltb l d -> ReadBefore o -> dmadCall o d d' r ->
  Inv dltb l d' /\ exists m v, r = Ok v /\ Finite m /\ Finite v /\ 0 <= real v /\
  exists xm xv, MedianR (map real l) xm /\ Rabs (real m - xm) <= 3 * pow2 (-53) * M + pow2 (-1073) /\ (Nat.Odd (length l) -> real m = xm) /\
    MedianR (map (fun x => rnd (Rabs (real x - real m))) l) xv /\
    (forall B, (forall x, In x l -> rnd (Rabs (real x - real m)) <= B) -> Rabs (real v - xv) <= 3 * pow2 (-53) * B + pow2 (-1073)) /\ (Nat.Odd (length l) -> real v = xv) /\
    dmedianCall o d d' (Ok m) /\ ((forall x, In x l -> real x = real m) -> real v = 0).
Proof.
  intros N H FM HM I Ho C. assert (F : Forall Finite l) by (eapply Forall_impl; [|exact FM]; cbv beta; tauto).
  assert (M0 : 0 <= M). { destruct l as [|x l]; [congruence|]. inversion FM as [|? ? [_ B] _]; subst. pose proof (Rabs_pos (real x)). lra. }
  destruct (sorting_exists _ F) as (s & Hs). destruct half_val as [Fh Vh].
  assert (Q : 0 <= real (dlit 1 (-1)) <= 1) by (unfold real; lra).
  destruct (median_sorted l s M N H FM Hs) as (w & xm & D & Fw & Mm & Em & Om).
  destruct C as [d' C|d' m d'' r C C'].
  { destruct (quantile_history o l s d _ d' UB N H F Fh Q I Hs (or_introl Ho) C) as (_ & v & _ & A & _). discriminate. }
  destruct (quantile_history o l s d _ d' (Ok m) N H F Fh Q I Hs (or_introl Ho) C) as (I' & m' & w' & Am & D' & S).
  injection Am as <-. unfold dmedian in D. rewrite D in D'. injection D' as <-. destruct S as (Fm & _ & Vm). rewrite <- Vm in *.
  split; [exact I'|]. exists m.
  assert (P' := proj1 I'). pose proof (perm_forall _ _ _ P' FM) as FM'.
  assert (Xm : Rabs xm <= M) by exact (median_bound l xm M FM Mm).
  assert (Bm := center_bound _ _ _ HM M0 Em Xm). pose proof pow_1023 as B23.
  destruct (deviations_spec (dvalues d') m M _ FM' Fm Bm ltac:(lra)) as [Fd Vd].
  set (dv := ddeviations (dvalues d') m) in *.
  assert (Ldv : length dv = length l) by (unfold dv, ddeviations; rewrite map_length; symmetry; apply Permutation_length, P').
  assert (Ndv : dv <> []) by (intros E; rewrite E in Ldv; destruct l; [congruence|discriminate]).
  destruct (sorting_exists _ Fd) as (t & Ht).
  assert (Pd : Permutation (map real dv) (map (fun x => rnd (Rabs (real x - real m))) l)) by (rewrite Vd; apply Permutation_map, Permutation_sym, P').
  assert (Nn : Forall (fun x => Finite x /\ 0 <= real x) t).
  { apply (perm_forall _ dv t); [apply Ht|]. apply Forall_forall. intros x Ix. rewrite Forall_forall in Fd. split; [apply Fd, Ix|].
    unfold dv, ddeviations in Ix. apply in_map_iff in Ix as (e & <- & _). unfold real. rewrite B2R_Babs. apply Rabs_pos. }
  destruct (quantile_history o dv t (distMake dltb dv) _ d'' r Ndv ltac:(lia) Fd Fh Q (Inv_make dltb dv) Ht (or_introl Ho) C') as (_ & v & wv & -> & Dv & Sv).
  destruct Sv as (Fv & Fwv & Vv).
  assert (HB : forall B, (forall x, In x l -> rnd (Rabs (real x - real m)) <= B) -> exists xv, MedianR (map real dv) xv /\ Rabs (real v - xv) <= 3 * pow2 (-53) * B + pow2 (-1073) /\ (Nat.Odd (length l) -> real v = xv)).
  { intros B HB. destruct (median_sorted dv t B Ndv ltac:(lia)) as (w2 & xv & D2 & _ & Mv & Ev & Ov); auto.
    - apply Forall_forall. intros x Ix. split; [rewrite Forall_forall in Fd; apply Fd, Ix|].
      apply (in_map real) in Ix. apply (Permutation_in _ Pd) in Ix. apply in_map_iff in Ix as (e & <- & Ie).
      rewrite Rabs_pos_eq; [apply HB, Ie|]. apply round_ge_generic; [apply valid64|apply valid_rnd_N|apply generic_format_0|apply Rabs_pos].
    - unfold dmedian in D2. rewrite D2 in Dv. injection Dv as <-. exists xv. rewrite Vv. rewrite <- Ldv. auto. }
  destruct (median_exists (map real dv)) as [xv Mv]; [destruct dv; [congruence|discriminate]|].
  exists v. split; [reflexivity|]. split; [exact Fm|]. split; [exact Fv|]. split.
  { rewrite Vv. eapply median_nonneg; [eapply nonempty_perm; [apply Ht|exact Ndv]| |exact Nn|exact Dv]. rewrite <- (Permutation_length (proj1 Ht)). lia. }
  exists xm, xv. split; [exact Mm|]. split; [exact Em|]. split; [exact Om|]. split; [eapply median_perm; eauto|]. split.
  - intros B HB'. destruct (HB B HB') as (xv' & Mv' & Ev & _). rewrite (median_unique _ _ _ Mv Mv'). exact Ev.
  - split; [intros Od; destruct (HB (pow2 1024)) as (xv' & Mv' & _ & Ov)|].
    + intros x Ix. rewrite Forall_forall in FM. destruct (FM x Ix) as [Fx Bx]. destruct (deviation x m M _ Fx Fm Bx Bm ltac:(lra)) as [_ <-].
      apply Rle_trans with (Rabs (real (Babs (dsub x m)))); [apply Rle_abs|]. apply Rlt_le, max_lt, val_max.
    + rewrite (median_unique _ _ _ Mv Mv'). auto.
    + split; [exact C|]. intros Z0. rewrite Vv. eapply median_null; [eapply nonempty_perm; [apply Ht|exact Ndv]| | |exact Dv]; [rewrite <- (Permutation_length (proj1 Ht)); lia|].
    apply (perm_forall _ dv t); [apply Ht|]. apply Forall_forall. intros x Ix. rewrite Forall_forall in Fd. split; [apply Fd, Ix|].
    apply (in_map real) in Ix. apply (Permutation_in _ Pd) in Ix. apply in_map_iff in Ix as (e & <- & Ie). rewrite (Z0 e Ie).
    replace (real m - real m) with 0 by ring. rewrite Rabs_R0. apply round0.
Qed.

Lemma rnd_mono x y : x <= y -> rnd x <= rnd y.
Proof. intros. apply round_le; [apply valid64|apply valid_rnd_N|assumption]. Qed.

Theorem mad_odd o l d d' r M n : length l = (2 * n + 1)%nat -> (Z.of_nat (length l) <= 2 ^ 53)%Z -> Forall (fun x => Finite x /\ Rabs (real x) <= M) l -> M <= pow2 1021 ->
  reach dltb (distMake dltb l) d -> ReadBefore o -> dmadCall o d d' r ->
  exists v x, r = Ok v /\ Finite v /\ MadR (map real l) x /\ real v = nearestDouble x.
Proof.
  intros L H FM HM HR Ho C. assert (N : l <> []) by (intros ->; cbn [length] in L; lia).
  destruct (mad_steps o l d d' r M N H FM HM (Inv_reach _ _ _ _ (Inv_make dltb l) HR) Ho C) as (_ & m & v & -> & _ & Fv & _ & xm & xv & Mm & _ & Om & Mv & _ & Ov & _).
  assert (Od : Nat.Odd (length l)) by (exists n; exact L). rewrite (Om Od) in Mv.
  destruct (median_exists (map (fun x => Rabs (x - xm)) (map real l))) as [y My]; [destruct l; [congruence|discriminate]|].
  exists v, y. split; [reflexivity|]. split; [exact Fv|]. split; [exists xm; auto|].
  assert (E : MedianR (map rnd (map (fun x => Rabs (x - xm)) (map real l))) (rnd y)) by (apply (median_map_odd rnd _ n); [rewrite !map_length; exact L|apply rnd_mono|exact My]).
  rewrite !map_map in E. rewrite (Ov Od). apply (median_unique _ _ _ Mv E).
Qed.

Theorem mad_error o l d d' r M : l <> [] -> (Z.of_nat (length l) <= 2 ^ 53)%Z -> Forall (fun x => Finite x /\ Rabs (real x) <= M) l -> M <= pow2 1021 ->
  reach dltb (distMake dltb l) d -> ReadBefore o -> dmadCall o d d' r ->
  Permutation l (dvalues d') /\ exists v x, r = Ok v /\ Finite v /\ 0 <= real v /\ MadR (map real l) x /\ Rabs (real v - x) <= 12 * pow2 (-53) * M + pow2 (-1071).
Proof.
  intros N H FM HM HR Ho C.
  destruct (mad_steps o l d d' r M N H FM HM (Inv_reach _ _ _ _ (Inv_make dltb l) HR) Ho C) as (I & m & v & -> & Fm & Fv & Pv & xm & xv & Mm & Em & _ & Mv & Ev & _ & _).
  split; [apply I|].
  destruct (median_exists (map (fun x => Rabs (x - xm)) (map real l))) as [y My]; [destruct l; [congruence|discriminate]|].
  exists v, y. split; [reflexivity|]. split; [exact Fv|]. split; [exact Pv|]. split; [exists xm; auto|]. rewrite map_map in My.
  assert (M0 : 0 <= M). { destruct l as [|x l]; [congruence|]. inversion FM as [|? ? [_ B] _]; subst. pose proof (Rabs_pos (real x)). lra. }
  assert (Xm : Rabs xm <= M) by exact (median_bound l xm M FM Mm).
  assert (H4 : pow2 (-1073) = 4 * pow2 (-1075)) by (change 4 with (pow2 2); rewrite <- bpow_plus; reflexivity). rewrite H4 in *.
  assert (H5 : pow2 (-1071) = 16 * pow2 (-1075)) by (change 16 with (pow2 4); rewrite <- bpow_plus; reflexivity). rewrite H5.
  assert (Pu := bpow_gt_0 radix2 (-53)). assert (Pe := bpow_gt_0 radix2 (-1075)).
  assert (Su : pow2 (-53) <= / 128) by (change (/ 128) with (pow2 (-7)); apply bpow_le; lia).
  set (u := pow2 (-53)) in *. set (h := pow2 (-1075)) in *. set (e1 := 3 * u * M + 4 * h) in *. set (e2 := e1 + u * (2 * M + e1) + h).
  assert (UM : 0 <= u * M) by (apply Rmult_le_pos; lra).
  assert (UUM : u * (u * M) <= / 128 * (u * M)) by (apply Rmult_le_compat_r; lra).
  assert (UH : u * h <= / 128 * h) by (apply Rmult_le_compat_r; lra).
  assert (K : forall x, In x l -> Rabs (rnd (Rabs (real x - real m)) - Rabs (real x - xm)) <= e2 /\ Rabs (real x - xm) <= 2 * M).
  { intros x Ix. rewrite Forall_forall in FM. destruct (FM x Ix) as [_ Bx]. pose proof (rnd_error (Rabs (real x - real m))) as Er. rewrite Rabs_Rabsolu in Er. fold u h in Er.
    assert (B2 : Rabs (real x - xm) <= 2 * M) by (unfold Rminus; eapply Rle_trans; [apply Rabs_triang|]; rewrite Rabs_Ropp; lra). split; [|exact B2].
    assert (D : Rabs (Rabs (real x - real m) - Rabs (real x - xm)) <= e1).
    { eapply Rle_trans; [apply Rabs_triang_inv2|]. replace (real x - real m - (real x - xm)) with (- (real m - xm)) by ring. rewrite Rabs_Ropp. exact Em. }
    assert (B3 : Rabs (real x - real m) <= 2 * M + e1) by (apply abs_le in D; lra).
    assert (u * Rabs (real x - real m) <= u * (2 * M + e1)) by (apply Rmult_le_compat_l; lra).
    replace (rnd (Rabs (real x - real m)) - Rabs (real x - xm)) with ((rnd (Rabs (real x - real m)) - Rabs (real x - real m)) + (Rabs (real x - real m) - Rabs (real x - xm))) by ring.
    eapply Rle_trans; [apply Rabs_triang|]. unfold e2. lra. }
  assert (C1 : Rabs (xv - y) <= e2) by (eapply (median_close (fun x => rnd (Rabs (real x - real m))) (fun x => Rabs (real x - xm))); [intros x Ix; apply (K x Ix)|exact Mv|exact My]).
  assert (C2 : Rabs (real v - xv) <= 3 * u * (2 * M + e2) + 4 * h).
  { apply Ev. intros x Ix. destruct (K x Ix) as [K1 K2]. apply abs_le in K1. lra. }
  replace (real v - y) with ((real v - xv) + (xv - y)) by ring. eapply Rle_trans; [apply Rabs_triang|].
  assert (E2 : e2 <= 6 * (u * M) + 6 * h) by (unfold e2, e1; lra).
  assert (UE : u * e2 <= u * (6 * (u * M) + 6 * h)) by (apply Rmult_le_compat_l; lra).
  assert (E2' : e2 <= 5 * (u * M) + 5 * h + / 4 * (u * M) + / 4 * h) by (unfold e2, e1; lra). lra.
Qed.

(** Equal values *)
Theorem mad_constant o l d d' r c : l <> [] -> (Z.of_nat (length l) <= 2 ^ 53)%Z -> Finite c -> Rabs (real c) <= pow2 1021 -> Forall (fun x => Finite x /\ real x = real c) l ->
  Nat.Odd (length l) \/ Halvable c -> reach dltb (distMake dltb l) d -> ReadBefore o -> dmadCall o d d' r -> exists v, r = Ok v /\ Finite v /\ real v = 0.
Proof.
  intros N H Fc Bc FC Hc HR Ho C.
  assert (FM : Forall (fun x => Finite x /\ Rabs (real x) <= Rabs (real c)) l) by (eapply Forall_impl; [|exact FC]; intros x [A ->]; split; [exact A|lra]).
  assert (F : Forall Finite l) by (eapply Forall_impl; [|exact FC]; cbv beta; tauto).
  pose proof (Inv_reach _ _ _ _ (Inv_make dltb l) HR) as I.
  assert (Hm : forall m d', dmedianCall o d d' (Ok m) -> real m = real c).
  { intros m d1 C1. destruct (sorting_exists _ F) as (s & Hs). destruct half_val as [Fh Vh]. assert (Q : 0 <= real (dlit 1 (-1)) <= 1) by (unfold real; lra).
    destruct (quantile_history o l s d _ d1 (Ok m) N H F Fh Q I Hs (or_introl Ho) C1) as (_ & m' & w & Am & D & _ & _ & V). injection Am as <-. rewrite V.
    pose proof (perm_forall _ _ _ (proj1 Hs) FC) as FCs. pose proof (perm_forall _ _ _ (proj1 Hs) F) as Fs. pose proof (Permutation_length (proj1 Hs)) as Ls.
    destruct (parity s (nonempty_perm _ _ (proj1 Hs) N)) as [(k & E)|(k & E)].
    - pose proof (median_odd s k E ltac:(lia) Fs) as D'. unfold dmedian in D'. rewrite D in D'. symmetry in D'. apply (forall_get _ s _ w FCs D').
    - destruct Hc as [[j J]|(h & Fh' & Vh')]; [lia|]. destruct (median_even_cases s k E ltac:(lia) Fs) as (x & y & w' & Gx & Gy & _ & _ & D' & _ & V').
      unfold dmedian in D'. rewrite D in D'. injection D' as <-. rewrite V'. rewrite (proj2 (forall_get _ s _ x FCs Gx)), (proj2 (forall_get _ s _ y FCs Gy)), <- Vh'.
      assert (R1 : rnd (real h) = real h) by (apply round_generic; [apply valid_rnd_N|apply F64_val]). rewrite R1, Vh'.
      replace (real c / 2 + real c / 2) with (real c) by field. apply round_generic; [apply valid_rnd_N|apply F64_val]. }
  destruct (mad_steps o l d d' r _ N H FM Bc I Ho C) as (_ & m & v & -> & Fm & Fv & Pv & xm & xv & Mm & _ & _ & Mv & Ev & Ov & Cm & Z0).
  exists v. split; [reflexivity|]. split; [exact Fv|]. apply Z0. intros x Ix. rewrite (Hm _ _ Cm). rewrite Forall_forall in FC. apply (FC x Ix).
Qed.

Theorem mad_total o l d M : l <> [] -> (Z.of_nat (length l) <= 2 ^ 53)%Z -> Forall (fun x => Finite x /\ Rabs (real x) <= M) l -> M <= pow2 1021 ->
  reach dltb (distMake dltb l) d -> ReadBefore o -> exists d' r, dmadCall o d d' r.
Proof.
  intros N H FM HM HR Ho. pose proof (Inv_reach _ _ _ _ (Inv_make dltb l) HR) as I.
  assert (F : Forall Finite l) by (eapply Forall_impl; [|exact FM]; cbv beta; tauto).
  destruct half_val as [Fh Vh]. assert (Q : 0 <= real (dlit 1 (-1)) <= 1) by (unfold real; lra).
  destruct (quantile_total o l d _ N H F Fh Q I) as (d' & r & C). destruct (sorting_exists _ F) as (s & Hs).
  destruct (quantile_history o l s d _ d' r N H F Fh Q I Hs (or_introl Ho) C) as (I' & m & w & -> & D & Fm & Fw & Vm).
  destruct (median_sorted l s M N H FM Hs) as (w' & xm & D' & _ & Mm & Em & _). unfold dmedian in D'. rewrite D in D'. injection D' as <-. rewrite <- Vm in Em.
  pose proof (median_bound _ _ _ FM Mm) as Xm. pose proof (perm_forall _ _ _ (proj1 I') FM) as FM'.
  assert (M0 : 0 <= M) by (pose proof (Rabs_pos xm); lra).
  destruct (deviations_spec (dvalues d') m M _ FM' Fm (center_bound _ _ _ HM M0 Em Xm)) as [Fd _]; [pose proof pow_1023; lra|].
  set (dv := ddeviations (dvalues d') m) in *.
  assert (Ldv : length dv = length l) by (unfold dv, ddeviations; rewrite map_length; symmetry; apply Permutation_length, I').
  assert (Ndv : dv <> []) by (intros E; rewrite E in Ldv; destruct l; [congruence|discriminate]).
  destruct (quantile_total o dv (distMake dltb dv) _ Ndv ltac:(lia) Fd Fh Q (Inv_make dltb dv)) as (d'' & r & C').
  exists d', r. eapply dmad_call; eauto.
Qed.

(** Executions *)
Lemma quantile_run o s q v : is_sorted dltb s = true -> dquantile s q = Ok v -> dquantileCall o (distMake dltb s) q (distMake dltb s) (Ok v).
Proof.
  intros S W. pose proof W as W'. unfold dquantile in W. cbv zeta in W. set (d := distMake dltb s). assert (Sd : dsorted d = true) by exact S.
  change (dmul q (dofZ (u64 (Z.of_nat (length s) - 1)))) with (drank d q) in W.
  destruct (dtruncU (drank d q)) as [f| |] eqn:C; cbn [bind] in W; try discriminate. destruct (deqb (drank d q) (dofZ f)) eqn:D.
  - eapply dquantile_exact; [exact C|exact D|]. rewrite <- W. apply (nth_sorted dltb d f Sd).
  - assert (T : dtwoNth o d f d (zget s f) (zget s (f + 1))).
    { assert (H1 := nth_sorted dltb d f Sd). assert (H2 := nth_sorted dltb d (f + 1) Sd).
      destruct o; [eapply dtwo_left|eapply dtwo_right|apply (dtwo_call_left CallLeftFirst d f d d (zget s f))|apply (dtwo_call_right CallRightFirst d f d d _ (zget s (f + 1)))]; eauto. }
    rewrite <- W. apply (dquantile_between o d q f d _ _ C D T).
Qed.

Lemma mad_run o s m v : is_sorted dltb s = true -> dmedian s = Ok m -> is_sorted dltb (ddeviations s m) = true -> dmedian (ddeviations s m) = Ok v ->
  dmadCall o (distMake dltb s) (distMake dltb s) (Ok v).
Proof. intros S Hm S' Hv. eapply dmad_call; [apply quantile_run; eauto|]. apply quantile_run; eauto. Qed.

Lemma sorting_pair a b : a <= b -> Sorting rltb [a; b] [a; b].
Proof. intros H. apply (Sorting_iff rltb rltb_swo). split; [reflexivity|]. repeat constructor. apply rltb_false, H. Qed.

Lemma median_pair a b : a <= b -> MedianR [a; b] ((a + b) / 2).
Proof. intros H. exists a, b. split; [|split; [|reflexivity]]; exists [a; b]; (split; [apply sorting_pair, H|reflexivity]). Qed.

(** The smallest positive double is lost. *)
Theorem mad_refuted o : exists l v x, Forall Finite l /\ dmadCall o (distMake dltb l) (distMake dltb l) (Ok v) /\ Finite v /\ real v = 0 /\
  MadR (map real l) x /\ 0 < x /\ nearestDouble x = x.
Proof.
  set (l := [dlit 0 0; dlit 1 (-1073)]).
  set (m := match dmedian l with Ok v => v | _ => dlit 0 0 end). set (v := match dmedian (ddeviations l m) with Ok v => v | _ => dlit 1 0 end).
  exists l, v, (pow2 (-1074)).
  assert (Hm : dmedian l = Ok m) by (apply ok_get; vm_compute; reflexivity).
  assert (Hv : dmedian (ddeviations l m) = Ok v) by (apply ok_get; vm_compute; reflexivity).
  assert (V0 : real (dlit 0 0) = 0) by (unfold real; rewrite (ofsf _ (SpecFloat.S754_zero false)) by (vm_compute; reflexivity); reflexivity).
  assert (V1 : real (dlit 1 (-1073)) = 2 * pow2 (-1074)).
  { unfold real. rewrite (ofsf _ (SpecFloat.S754_finite false 2 (-1074))) by (vm_compute; reflexivity). reflexivity. }
  split; [repeat constructor|]. split; [apply (mad_run o l m v); [vm_compute; reflexivity|exact Hm|vm_compute; reflexivity|exact Hv]|].
  split; [unfold Finite; vm_compute; reflexivity|]. split.
  { unfold real. rewrite (ofsf v (SpecFloat.S754_zero false)) by (vm_compute; reflexivity). reflexivity. }
  pose proof (bpow_gt_0 radix2 (-1074)) as P. split; [|split; [exact P|]].
  - unfold l. cbn [map]. rewrite V0, V1. exists (pow2 (-1074)). split.
    + replace (pow2 (-1074)) with ((0 + 2 * pow2 (-1074)) / 2) at 2 by field. apply median_pair. lra.
    + cbn [map]. replace (0 - pow2 (-1074)) with (- pow2 (-1074)) by ring. replace (2 * pow2 (-1074) - pow2 (-1074)) with (pow2 (-1074)) by ring.
      rewrite Rabs_Ropp, Rabs_pos_eq by lra. replace (pow2 (-1074)) with ((pow2 (-1074) + pow2 (-1074)) / 2) at 3 by field. apply median_pair. lra.
  - apply (round_generic radix2 fexp64 ZnearestE). apply (generic_format_FLT_bpow radix2 (3 - 1024 - 53) 53); lia.
Qed.

Definition partitioned (l : list double) (n : Z) : bool :=
  forallb (fun i => forallb (fun j => match zget l i, zget l j with Ok x, Ok y => negb (dltb y x) | _, _ => true end) (zrange n (Z.of_nat (length l) - 1))) (zrange 0 n).

Lemma partitioned_spec l n : partitioned l n = true -> forall i j x y, (0 <= i <= n)%Z -> (n <= j)%Z -> zget l i = Ok x -> zget l j = Ok y -> dltb y x = false.
Proof.
  unfold partitioned. intros H i j x y Hi Hj Gx Gy. rewrite forallb_forall in H. specialize (H i (proj2 (In_zrange _ _ _) Hi)). rewrite forallb_forall in H.
  pose proof (zget_range _ _ _ Gy). assert (J : In j (zrange n (Z.of_nat (length l) - 1))) by (apply In_zrange; lia). specialize (H j J). rewrite Gx, Gy in H. destruct (dltb y x); [discriminate|reflexivity].
Qed.

(** The reference of the first call is read after the second one. *)
Theorem median_order_refuted : exists l d' v, Forall Finite l /\ dmedianCall CallLeftFirst (distMake dltb l) d' (Ok v) /\ Finite v /\ real v = 1 /\ MedianR (map real l) (3 / 2).
Proof.
  set (x0 := dlit 0 0). set (x1 := dlit 1 0). set (x2 := dlit 1 1). set (x3 := dlit 3 0).
  set (l := [x3; x1; x2; x0]). set (l1 := [x0; x1; x2; x3]). set (l2 := [x1; x0; x2; x3]).
  set (d := distMake dltb l). set (d1 := mkDist l1 false). set (d2 := mkDist l2 false).
  set (w := dsub (drank d (dlit 1 (-1))) (dofZ 1)).
  exists l, d2, (dadd (dmul x0 w) (dmul x2 (dsub (dofZ 1) w))).
  assert (P1 : Permutation l l1). { unfold l, l1. change [x3; x1; x2; x0] with ([x3; x1; x2] ++ [x0]). eapply perm_trans; [apply Permutation_app_comm|]. cbn [app]. constructor. change [x3; x1; x2] with ([x3] ++ [x1; x2]). apply Permutation_app_comm. }
  assert (P2 : Permutation l1 l2) by (unfold l1, l2; apply perm_swap).
  assert (V : forall z : Z, (Z.abs z <= 2 ^ 53)%Z -> True) by auto. clear V.
  split; [repeat constructor|]. split.
  - assert (T : dtwoNth CallLeftFirst d 1 d2 (zget (dvalues d2) 1) (zget l2 2)).
    { apply (dtwo_call_left CallLeftFirst d 1 d1 d2 (zget l1 1) (zget l2 2)); [reflexivity| |].
      - apply (nth_unsorted dltb d 1 l1); [vm_compute; reflexivity|cbn; lia|]. split; [exact P1|]. apply partitioned_spec. vm_compute. reflexivity.
      - apply (nth_unsorted dltb d1 2 l2); [reflexivity|cbn; lia|]. split; [exact P2|]. apply partitioned_spec. vm_compute. reflexivity. }
    assert (C1 : dtruncU (drank d (dlit 1 (-1))) = Ok 1%Z) by (vm_compute; reflexivity). assert (C2 : deqb (drank d (dlit 1 (-1))) (dofZ 1) = false) by (vm_compute; reflexivity).
    exact (dquantile_between CallLeftFirst d (dlit 1 (-1)) 1 d2 _ _ C1 C2 T).
  - split; [unfold Finite; vm_compute; reflexivity|]. split.
    { unfold real. rewrite (ofsf _ (SpecFloat.S754_finite false 4503599627370496 (-52))) by (vm_compute; reflexivity).
      cbn [SF2R SpecFloat.cond_Zopp]. unfold F2R. cbn [Fnum Fexp]. change 4503599627370496%Z with (2 ^ 52)%Z. change (IZR (2 ^ 52)) with (pow2 52). rewrite <- bpow_plus. reflexivity. }
    assert (F : Forall Finite l) by repeat constructor.
    assert (S : Sorting dltb l l1).
    { split; [exact P1|]. intros i j x y Hi Hj Gx Gy. assert (Hl : (i < 4)%Z) by (apply zget_range in Gx; change (Z.of_nat (length l1)) with 4%Z in Gx; lia).
      assert (K : partitioned l1 i = true) by (assert (C : (i = 0 \/ i = 1 \/ i = 2 \/ i = 3)%Z) by lia; destruct C as [->|[->|[->| ->]]]; vm_compute; reflexivity).
      apply (partitioned_spec l1 i K i j x y); auto; lia. }
    assert (V1 : real x1 = 1). { unfold real. rewrite (ofsf _ (SpecFloat.S754_finite false 4503599627370496 (-52))) by (vm_compute; reflexivity).
      cbn [SF2R SpecFloat.cond_Zopp]. unfold F2R. cbn [Fnum Fexp]. change 4503599627370496%Z with (2 ^ 52)%Z. change (IZR (2 ^ 52)) with (pow2 52). rewrite <- bpow_plus. reflexivity. }
    assert (V2 : real x2 = 2). { unfold real. rewrite (ofsf _ (SpecFloat.S754_finite false 4503599627370496 (-51))) by (vm_compute; reflexivity).
      cbn [SF2R SpecFloat.cond_Zopp]. unfold F2R. cbn [Fnum Fexp]. change 4503599627370496%Z with (2 ^ 52)%Z. change (IZR (2 ^ 52)) with (pow2 52). rewrite <- bpow_plus. reflexivity. }
    exists (real x1), (real x2). split; [apply (stat_of l l1 1 x1 F S); reflexivity|]. split; [apply (stat_of l l1 2 x2 F S); reflexivity|]. rewrite V1, V2. field.
Qed.

Theorem quantile_any_order o l s d q : l <> [] -> (Z.of_nat (length l) <= 2 ^ 53)%Z -> Forall Finite l -> Finite q -> 0 <= real q <= 1 ->
  reach dltb (distMake dltb l) d -> Sorting dltb l s -> ReadBefore o \/ dsorted d = true ->
  (exists d' r, dquantileCall o d q d' r) /\
  forall d' r, dquantileCall o d q d' r -> Permutation l (dvalues d') /\ exists v w, r = Ok v /\ dquantile s q = Ok w /\ SameReal v w.
Proof.
  intros N H F Fq Q HR Hs Ho. pose proof (Inv_reach _ _ _ _ (Inv_make dltb l) HR) as I. split; [eapply quantile_total; eauto|].
  intros d' r C. destruct (quantile_history o l s d q d' r N H F Fq Q I Hs Ho C) as [[P _] K]. auto.
Qed.

Theorem mad_any_order o l d M : l <> [] -> (Z.of_nat (length l) <= 2 ^ 53)%Z -> Forall (fun x => Finite x /\ Rabs (real x) <= M) l -> M <= pow2 1021 ->
  reach dltb (distMake dltb l) d -> ReadBefore o ->
  (exists d' r, dmadCall o d d' r) /\
  forall d' r, dmadCall o d d' r -> Permutation l (dvalues d') /\
    exists v x, r = Ok v /\ Finite v /\ 0 <= real v /\ MadR (map real l) x /\ Rabs (real v - x) <= 12 * pow2 (-53) * M + pow2 (-1071).
Proof. intros. split; [eapply mad_total; eauto|]. intros. eapply mad_error; eauto. Qed.

Theorem mad_specified xs : xs <> [] -> exists x, MadR xs x /\ forall y, MadR xs y -> y = x.
Proof. intros N. destruct (mad_exists xs N) as [x H]. exists x. split; [exact H|]. intros y Hy. apply (mad_unique xs); assumption. Qed.

Lemma mad_met : let l := [dlit 3 0; dlit 1 0; dlit 2 0] in
  l <> [] /\ (Z.of_nat (length l) <= 2 ^ 53)%Z /\ Forall (fun x => Finite x /\ Rabs (real x) <= bpow radix2 2) l /\ bpow radix2 2 <= bpow radix2 1021 /\
  reach dltb (distMake dltb l) (distMake dltb l) /\ dsorted (distMake dltb l) = false /\ ReadBefore ReadLeftFirst /\ Nat.Odd (length l).
Proof.
  cbv zeta. split; [discriminate|]. split; [cbn; lia|]. split.
  - assert (G : forall z m e, Finite (dlit z 0) -> B2SF (dlit z 0) = SpecFloat.S754_finite false m e -> IZR (Z.pos m) * pow2 e <= 4 -> Finite (dlit z 0) /\ Rabs (real (dlit z 0)) <= bpow radix2 2).
    { intros z m e F E B. split; [exact F|]. unfold real. rewrite (ofsf _ _ E). cbn [SF2R SpecFloat.cond_Zopp]. unfold F2R. cbn [Fnum Fexp].
      rewrite Rabs_pos_eq; [exact B|]. apply Rmult_le_pos; [apply IZR_le; lia|apply bpow_ge_0]. }
    constructor; [|constructor; [|constructor; [|constructor]]].
    + apply (G 3%Z 6755399441055744%positive (-51)%Z); [reflexivity|vm_compute; reflexivity|]. cbn [bpow]. change (Z.pow_pos radix2 51) with 2251799813685248%Z. lra.
    + apply (G 1%Z 4503599627370496%positive (-52)%Z); [reflexivity|vm_compute; reflexivity|]. cbn [bpow]. change (Z.pow_pos radix2 52) with 4503599627370496%Z. lra.
    + apply (G 2%Z 4503599627370496%positive (-51)%Z); [reflexivity|vm_compute; reflexivity|]. cbn [bpow]. change (Z.pow_pos radix2 51) with 2251799813685248%Z. lra.
  - split; [apply bpow_le; lia|]. split; [apply reach_here|]. split; [vm_compute; reflexivity|]. split; [left; reflexivity|]. exists 1%nat. reflexivity.
Qed.

Lemma constant_met : let c := dlit 1 0 in Finite c /\ Rabs (real c) <= bpow radix2 1021 /\ Forall (fun x => Finite x /\ real x = real c) [c; c] /\ Halvable c /\
  exists d' r, dmadCall ReadRightFirst (distMake dltb [c; c]) d' r.
Proof.
  cbv zeta. assert (V1 : real (dlit 1 0) = 1).
  { unfold real. rewrite (ofsf _ (SpecFloat.S754_finite false 4503599627370496 (-52))) by (vm_compute; reflexivity).
    cbn [SF2R SpecFloat.cond_Zopp]. unfold F2R. cbn [Fnum Fexp]. change 4503599627370496%Z with (2 ^ 52)%Z. change (IZR (2 ^ 52)) with (pow2 52). rewrite <- bpow_plus. reflexivity. }
  split; [reflexivity|]. rewrite V1. assert (B : Rabs 1 <= bpow radix2 1021) by (rewrite Rabs_R1; apply (bpow_le radix2 0); lia). split; [exact B|].
  split; [repeat constructor; exact V1|]. split.
  - exists (dlit 1 (-1)). destruct half_val as [F V]. split; [exact F|]. unfold real in *. rewrite V, V1. field.
  - apply (mad_total ReadRightFirst [dlit 1 0; dlit 1 0] _ 1); [discriminate|cbn; lia| | |apply reach_here|right; reflexivity].
    + repeat constructor; rewrite V1, Rabs_R1; lra.
    + rewrite Rabs_R1 in B. exact B.
Qed.
