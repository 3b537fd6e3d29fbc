(** Derivation in Fourier domain. *)
From Coq Require Import Reals QArith Lra.
From Verif Require Import Res Spec Lemmas VecModel DftModel DftSpec DftProofs FourierSpec FourierProofs DerivativeModel DerivativeSpec.
Open Scope Z_scope.
Add Ring CRing' : C_ring.

Definition fstc (p : list Z) : Z := hd 0 p.

Definition slope (M : Z) (a b : Z -> R) (x : R) : R := rsum (zrange 0 M) (fun m => IZR m * (b m * cos (IZR m * x) - a m * sin (IZR m * x)))%R.

Lemma term_derivative m a b x : derivable_pt_lim (fun x => a * cos (IZR m * x) + b * sin (IZR m * x))%R x (IZR m * (b * cos (IZR m * x) - a * sin (IZR m * x)))%R.
Proof.
  replace (IZR m * (b * cos (IZR m * x) - a * sin (IZR m * x)))%R
    with (a * (- sin (IZR m * x) * (IZR m * 1)) + b * (cos (IZR m * x) * (IZR m * 1)))%R by ring.
  assert (D : derivable_pt_lim (fun x => IZR m * x)%R x (IZR m * 1)%R) by apply (derivable_pt_lim_scal id (IZR m) x 1), derivable_pt_lim_id.
  apply (derivable_pt_lim_plus (fun x => a * cos (IZR m * x))%R (fun x => b * sin (IZR m * x))%R).
  - apply (derivable_pt_lim_scal (fun x => cos (IZR m * x))). apply (derivable_pt_lim_comp (fun x => IZR m * x)%R cos); [exact D|apply derivable_pt_lim_cos].
  - apply (derivable_pt_lim_scal (fun x => sin (IZR m * x))). apply (derivable_pt_lim_comp (fun x => IZR m * x)%R sin); [exact D|apply derivable_pt_lim_sin].
Qed.

Lemma slope_derivative M a b x : derivable_pt_lim (trig M a b) x (slope M a b x).
Proof.
  unfold trig, slope. induction (zrange 0 M) as [|m l IH]; cbn [rsum fold_right].
  - apply derivable_pt_lim_const.
  - apply (derivable_pt_lim_plus (fun x => a m * cos (IZR m * x) + b m * sin (IZR m * x))%R (fun x => rsum l (fun m => a m * cos (IZR m * x) + b m * sin (IZR m * x))%R)); [apply term_derivative|exact IH].
Qed.

Lemma domain_1 n : domain [n] = map (fun z => [z]) (zrange 0 (n - 1)).
Proof. rewrite domain_cons. unfold domain. cbn [map positions flat_map]. apply app_nil_r. Qed.

(** The transform of an exponential. *)
Lemma dft_cis n c m k : 0 < n -> dft [n] (fun p => cmul c (cis (2 * PI * (IZR (m * fstc p) / IZR n)))) [k] = if (m - k) mod n =? 0 then cscale (IZR n) c else czero.
Proof.
  intros Hn. unfold dft. rewrite domain_1, csum_map.
  transitivity (cmul c (csum (zrange 0 (n - 1)) (fun z => cis (2 * PI * (IZR ((m - k) * z) / IZR n))))).
  - rewrite <- csum_mul. apply csum_ext. intros z _. cbn [fstc hd phase]. 
    replace (2 * PI * (IZR ((m - k) * z) / IZR n))%R with (2 * PI * (IZR (m * z) / IZR n) + - (2 * PI * (IZR (z * k) / IZR n + 0)))%R.
    + rewrite cis_add. ring.
    + rewrite !mult_IZR, minus_IZR. field. apply not_0_IZR. lia.
  - rewrite root_sum by exact Hn. destruct ((m - k) mod n =? 0); [|ring]. unfold cscale, cmul. cbn [fst snd]. f_equal; ring.
Qed.

Lemma dft_add s f g k : dft s (fun p => cadd (f p) (g p)) k = cadd (dft s f k) (dft s g k).
Proof. unfold dft. rewrite <- csum_add. apply csum_ext. intros p _. ring. Qed.

Lemma dft_zero s k : dft s (fun _ => czero) k = czero.
Proof. apply csum_zero. intros; ring. Qed.

Definition harmonic (n m : Z) (a b : R) (p : list Z) : C := ((a * cos (IZR m * sample n (fstc p)) + b * sin (IZR m * sample n (fstc p)))%R, 0%R).

Lemma harmonic_cis n m a b p : 0 < n -> harmonic n m a b p =
  cadd (cmul (a / 2, - b / 2)%R (cis (2 * PI * (IZR (m * fstc p) / IZR n)))) (cmul (a / 2, b / 2)%R (cis (2 * PI * (IZR (- m * fstc p) / IZR n)))).
Proof.
  intros Hn. unfold harmonic, sample. set (x := (2 * PI * (IZR (m * fstc p) / IZR n))%R).
  assert (N := not_0_IZR n ltac:(lia)).
  replace (IZR m * (2 * PI * (IZR (fstc p) / IZR n)))%R with x by (unfold x; rewrite mult_IZR; field; exact N).
  replace (2 * PI * (IZR (- m * fstc p) / IZR n))%R with (- x)%R by (unfold x; rewrite !mult_IZR, opp_IZR; field; exact N).
  rewrite cis_opp. unfold cis, conj, cadd, cmul. cbn [fst snd]. f_equal; field.
Qed.

Lemma mod_0_iff x n : 0 < n -> - n < x < n -> (x mod n =? 0) = (x =? 0).
Proof.
  intros Hn H. destruct (Z.eqb_spec x 0) as [->|N]; [rewrite Z.mod_0_l by lia; reflexivity|].
  apply Z.eqb_neq. intros E. apply Z.mod_divide in E as [q ->]; [|lia]. assert (Q : q <= -1 \/ q = 0 \/ 1 <= q) by lia. destruct Q as [Q|[->|Q]]; [|lia|]; nia.
Qed.

Lemma dft_harmonic n m a b k : 0 < n -> 0 <= m -> 2 * m < n -> 0 <= k <= n / 2 ->
  dft [n] (harmonic n m a b) [k] = cadd (if m =? k then cscale (IZR n) (a / 2, - b / 2)%R else czero) (if (m =? k) && (m =? 0) then cscale (IZR n) (a / 2, b / 2)%R else czero).
Proof.
  intros Hn Hm H2 Hk. assert (K : 2 * k <= n) by (assert (D := Z.mul_div_le n 2 ltac:(lia)); lia).
  transitivity (dft [n] (fun p => cadd (cmul (a / 2, - b / 2)%R (cis (2 * PI * (IZR (m * fstc p) / IZR n)))) (cmul (a / 2, b / 2)%R (cis (2 * PI * (IZR (- m * fstc p) / IZR n))))) [k]).
  - apply csum_ext. intros p _. rewrite harmonic_cis by exact Hn. reflexivity.
  - rewrite dft_add, !dft_cis, !mod_0_iff by lia. f_equal.
    + replace (m - k =? 0) with (m =? k) by lia. reflexivity.
    + replace (- m - k =? 0) with ((m =? k) && (m =? 0)) by lia. reflexivity.
Qed.

Lemma derivative_harmonic n m a b k : 0 < n -> 0 <= m -> 2 * m < n -> 0 <= k <= n / 2 ->
  cmul (dft [n] (harmonic n m a b) [k]) (0%R, IZR k) = dft [n] (harmonic n m (IZR m * b) (- (IZR m * a))) [k].
Proof.
  intros Hn Hm H2 Hk. rewrite !dft_harmonic by assumption. destruct (Z.eqb_spec m k) as [<-|N]; [|cbn [andb]; ring].
  cbn [andb]. destruct (Z.eqb_spec m 0) as [->|N0].
  - unfold cscale, cadd, cmul. cbn [fst snd]. f_equal; field.
  - unfold cscale, cadd, cmul, czero. cbn [fst snd]. f_equal; field.
Qed.

Lemma dft_sum n (l : list Z) (F : Z -> list Z -> R) k : dft [n] (fun p => (rsum l (fun m => F m p), 0%R)) k = csum l (fun m => dft [n] (fun p => (F m p, 0%R)) k).
Proof.
  induction l as [|m l IH].
  - apply dft_zero.
  - rewrite csum_cons, <- IH, <- dft_add. apply csum_ext. intros p _. cbn [rsum fold_right]. unfold cadd, cmul. cbn [fst snd].
    change (fold_right (fun a s => (F a p + s)%R) 0%R l) with (rsum l (fun m => F m p)). f_equal; ring.
Qed.

Lemma derivative_dft n M a b k : 0 < n -> 2 * M < n -> 0 <= k <= n / 2 ->
  cmul (dft [n] (fun p => (trig M a b (sample n (fstc p)), 0%R)) [k]) (0%R, IZR k) = dft [n] (fun p => (slope M a b (sample n (fstc p)), 0%R)) [k].
Proof.
  intros Hn HM Hk. unfold trig, slope. rewrite !dft_sum. set (w := (0%R, IZR k)).
  transitivity (csum (zrange 0 M) (fun m => cmul w (dft [n] (harmonic n m (a m) (b m)) [k]))).
  - rewrite csum_mul. unfold harmonic. ring.
  - apply csum_ext. intros m Hm. apply In_zrange in Hm. replace (cmul w (dft [n] (harmonic n m (a m) (b m)) [k])) with (cmul (dft [n] (harmonic n m (a m) (b m)) [k]) w) by ring.
    unfold w. rewrite derivative_harmonic by lia. apply csum_ext. intros p _. unfold harmonic. f_equal. f_equal. ring.
Qed.

(** The loop. *)
Lemma times_length l : forall k, length (timesFrequency k l) = length l.
Proof. induction l as [|e l IH]; intros k; cbn [timesFrequency length]; [reflexivity|]. rewrite IH. reflexivity. Qed.

Lemma times_nth l : forall k i, (i < length l)%nat -> nth i (timesFrequency k l) czero = cmul (nth i l czero) (0%R, IZR (k + Z.of_nat i)).
Proof.
  induction l as [|e l IH]; intros k i H; [cbn [length] in H; lia|]. destruct i as [|i]; cbn [timesFrequency nth].
  - rewrite Z.add_0_r. reflexivity.
  - cbn [length] in H. rewrite IH by lia. replace (k + 1 + Z.of_nat i) with (k + Z.of_nat (S i)) by lia. reflexivity.
Qed.

Lemma times_at l i : 0 <= i < Z.of_nat (length l) -> valueAt (timesFrequency 0 l) i = cmul (valueAt l i) (0%R, IZR i).
Proof. intros H. unfold valueAt. rewrite times_nth by lia. replace (0 + Z.of_nat (Z.to_nat i)) with i by lia. reflexivity. Qed.

Lemma rasterAt_1 n l j : rasterAt [n] l [j] = valueAt l j.
Proof. unfold rasterAt, rank. cbn [rankFrom]. f_equal. lia. Qed.

Lemma InDomain_1 n p : InDomain [n] p <-> exists j, p = [j] /\ 0 <= j < n.
Proof.
  split.
  - intros H. inversion H as [|? j ? p' Hj Hp]; subst. inversion Hp; subst. exists j. split; [reflexivity|lia].
  - intros (j & -> & Hj). repeat constructor; lia.
Qed.

Section Fftw.
Variable fft : transform -> list Z -> list C -> list C.
Hypothesis Fft : IsFftw fft.

(** What both methods compute. *)
Lemma derivative_core n M a b values : 0 < n -> 2 * M < n -> Samples n (trig M a b) values ->
  Z.of_nat (length (fft RealDft [n] values)) = n / 2 + 1 /\
  Samples n (slope M a b) (map (cscale (/ IZR n)) (fft InverseRealDft [n] (timesFrequency 0 (fft RealDft [n] values)))).
Proof.
  intros Hn HM [L V]. assert (Ps : Positive [n]) by (constructor; [exact Hn|constructor]).
  destruct (fftw_transform fft Fft RealDft n [] values Hn ltac:(constructor)) as [Ly Ty]; [cbn; lia|]. cbn [rev app] in Ly, Ty. set (y := fft RealDft [n] values) in *.
  destruct (fftw_in_rev RealDft n [] Hn) as [_ Fo]. cbn [rev app] in Fo. rewrite Fo in Ly. unfold prod in Ly. cbn [fold_right] in Ly.
  assert (Ly' : Z.of_nat (length y) = n / 2 + 1) by lia. clear Ly Fo. split; [exact Ly'|].
  assert (R : Forall IsReal values).
  { apply Forall_forall. intros v Hv. apply (In_nth _ _ czero) in Hv as (i & Hi & <-). specialize (V (Z.of_nat i) ltac:(lia)). unfold valueAt in V. rewrite Nat2Z.id in V. rewrite V. reflexivity. }
  specialize (Ty R).
  destruct (fftw_transform fft Fft InverseRealDft n [] (timesFrequency 0 y) Hn ltac:(constructor)) as [Lz Tz].
  { destruct (fftw_in_rev InverseRealDft n [] Hn) as [Fi _]. cbn [rev app] in *. rewrite Fi, times_length. unfold prod. cbn [fold_right]. lia. }
  cbn [rev app] in Lz, Tz. set (z := fft InverseRealDft [n] (timesFrequency 0 y)) in *. destruct (fftw_in_rev InverseRealDft n [] Hn) as [_ Fo]. cbn [rev app] in Fo. rewrite Fo in Lz.
  unfold prod in Lz. cbn [fold_right] in Lz. destruct Tz as [_ Tz].
  specialize (Tz (dft [n] (fun p => (slope M a b (sample n (fstc p)), 0%R)))).
  assert (Z1 : forall p, InDomain [n] p -> rasterAt [n] z p = inverseDft [n] (dft [n] (fun p => (slope M a b (sample n (fstc p)), 0%R))) p).
  { apply Tz.
    - apply dft_hermitian; [exact Ps|]. intros p _. reflexivity.
    - intros k Hk. apply InDomain_1 in Hk as (k' & -> & Hk). rewrite rasterAt_1, times_at by lia. rewrite <- derivative_dft by lia. f_equal.
      rewrite <- (rasterAt_1 (n / 2 + 1)), Ty by (apply InDomain_1; exists k'; split; [reflexivity|lia]).
      apply dft_ext. intros p Hp. apply InDomain_1 in Hp as (j & -> & Hj). rewrite rasterAt_1, V by exact Hj. reflexivity. }
  split; [rewrite map_length; lia|]. intros j Hj. rewrite map_valueAt by lia. rewrite <- (rasterAt_1 n), Z1 by (apply InDomain_1; eauto).
  rewrite inversion_dft by (try exact Ps; apply InDomain_1; eauto). rewrite cscale_scale. unfold prod. cbn [fold_right fstc hd]. rewrite Z.mul_1_r.
  rewrite Rinv_l by (apply not_0_IZR; lia). apply cscale_1.
Qed.

Lemma int_1 n : IntShape [n] -> 0 < n.
Proof. intros H. apply intShape_positive in H. inversion H. assumption. Qed.

Lemma concise_derivative n M a b values gi go g gi' go' g' : IntShape [n] -> 2 * M < n -> Samples n (trig M a b) values ->
  Z.of_nat (length gi) = n -> Z.of_nat (length go) = n / 2 + 1 -> Z.of_nat (length gi') = n / 2 + 1 -> Z.of_nat (length go') = n ->
  exists out f', conciseDerivative fft n values gi go g gi' go' g' = Ok out /\ Samples n f' out /\ forall x, derivable_pt_lim (trig M a b) x (f' x).
Proof.
  intros I HM S L1 L2 L3 L4. assert (Hn := int_1 n I). destruct (derivative_core n M a b values Hn HM S) as [L D]. unfold conciseDerivative.
  assert (H := halved_cons n [] ltac:(lia)).
  assert (P1 : prod [n] = n) by (unfold prod; cbn [fold_right]; lia). assert (P2 : prod [n / 2 + 1] = n / 2 + 1) by (unfold prod; cbn [fold_right]; lia).
  rewrite (dft_function fft scaleC RealDft false [n] [n] [n / 2 + 1]); try assumption; try reflexivity; try (rewrite ?P1, ?P2; destruct S; lia).
  cbn [bind rev app]. rewrite (dft_function fft scaleC InverseRealDft true [n] [n / 2 + 1] [n]); try assumption; try reflexivity; try (rewrite ?P1, ?P2, ?times_length; lia).
  cbn [rev app]. eexists. exists (slope M a b). split; [reflexivity|]. split; [|apply slope_derivative].
  rewrite P1. erewrite map_ext; [exact D|]. intros v. apply scaleC_inverse_int. lia.
Qed.

Lemma times_combine l : forall k, timesFrequency k l = map (fun ab => cmul (fst ab) (snd ab)) (combine l (map (fun i => (0%R, IZR (k + Z.of_nat i))) (seq 0 (length l)))).
Proof.
  induction l as [|e l IH]; intros k; cbn [timesFrequency length seq map combine]; [reflexivity|].
  rewrite IH, <- seq_shift, map_map. cbn [fst snd]. f_equal; [f_equal; f_equal; f_equal; lia|]. f_equal. f_equal. apply map_ext. intros i. do 2 f_equal. lia.
Qed.

Lemma verbose_filter n values gi go gi' go' g g' h : IntShape [n] ->
  Z.of_nat (length gi) = n -> Z.of_nat (length go) = n / 2 + 1 -> Z.of_nat (length gi') = n / 2 + 1 -> Z.of_nat (length go') = n -> Z.of_nat (length values) = n ->
  Z.of_nat (length (fft RealDft [n] values)) = n / 2 + 1 ->
  verboseDerivative fft n values gi go gi' go' g g' h =
  fourierFilter fft scaleC cmul RealDft [n] values (map (fun i => (0%R, IZR (Z.of_nat i))) (seq 0 (Z.to_nat (n / 2 + 1)))) gi go gi' go' g g' h.
Proof.
  intros I L1 L2 L3 L4 L5 LF. assert (Hn := int_1 n I). unfold verboseDerivative, fourierFilter.
  assert (H := halved_cons n [] ltac:(lia)).
  assert (P1 : prod [n] = n) by (unfold prod; cbn [fold_right]; lia). assert (P2 : prod [n / 2 + 1] = n / 2 + 1) by (unfold prod; cbn [fold_right]; lia).
  destruct (plan_new RealDft [n] [n] [n / 2 + 1] gi go h I eq_refl H ltac:(lia) ltac:(lia)) as (p & -> & T & S & Pi & Po & A). cbn [bind fst snd].
  assert (Ip : IntShape (pshape p)) by (rewrite S; exact I). assert (A2 := A). destruct A2 as (si' & so' & Ei' & Eo' & Ed & Hi & Ho & N & Ci & Co).
  unfold planInShape in Ei'. unfold planOutShape in Eo'. rewrite T, S in Ei', Eo', Ed. cbn [dftInShape dftOutShape] in Ei', Eo'. rewrite H in Eo'. injection Ei' as <-. injection Eo' as <-.
  destruct (fftw_extents RealDft [n] I) as (_ & _ & dims & _ & _ & Ed' & _ & _ & _ & Dr). assert (Dp : pdims p = [n]) by (cbn [rev app] in Dr; congruence). clear dims Ed' Dr.
  set (h0 := (h ++ [gi]) ++ [go]) in *. destruct (plan_inverse p gi' go' h0 Ip A ltac:(lia) ltac:(lia)) as (q & -> & Tq & Sq & Pqi & Pqo & Dq & _ & _ & _ & _). cbn [bind fst snd].
  set (h1 := write (write h0 (pout p) gi') (pin p) go') in *.
  assert (C1 : content h1 (pin p) = go') by (apply content_write_eq; rewrite write_length; exact Hi).
  assert (H1 : length h1 = length h0) by (unfold h1; rewrite !write_length; reflexivity).
  unfold copyTo. rewrite C1. replace (Nat.leb (length values) (length go')) with true by (symmetry; apply Nat.leb_le; lia). cbn [bind].
  rewrite skipn_all2 by lia. rewrite app_nil_r. set (h2 := write h1 (pin p) values).
  assert (H2 : length h2 = length h0) by (unfold h2; rewrite write_length; exact H1).
  assert (C2 : content h2 (pin p) = values) by (apply content_write_eq; lia).
  destruct (transform_out fft p g h2) as (C3 & _ & H3 & F3); [lia|lia|exact N|]. rewrite C3, C2, T, Dp.
  rewrite times_combine. replace (length (fft RealDft [n] values)) with (Z.to_nat (n / 2 + 1)) by lia. rewrite Pqo. reflexivity.
Qed.

Lemma verbose_derivative n M a b values gi go gi' go' g g' h : IntShape [n] -> 2 * M < n -> Samples n (trig M a b) values ->
  Z.of_nat (length gi) = n -> Z.of_nat (length go) = n / 2 + 1 -> Z.of_nat (length gi') = n / 2 + 1 -> Z.of_nat (length go') = n ->
  exists out h' f', verboseDerivative fft n values gi go gi' go' g g' h = Ok (out, h') /\ Samples n f' out /\ (forall x, derivable_pt_lim (trig M a b) x (f' x)) /\
    forall k, (k < length h)%nat -> content h' k = content h k.
Proof.
  intros I HM S L1 L2 L3 L4. assert (Hn := int_1 n I). destruct (derivative_core n M a b values Hn HM S) as [L D].
  rewrite verbose_filter; try assumption; [|apply S]. assert (H := halved_cons n [] ltac:(lia)).
  assert (P1 : prod [n] = n) by (unfold prod; cbn [fold_right]; lia). assert (P2 : prod [n / 2 + 1] = n / 2 + 1) by (unfold prod; cbn [fold_right]; lia).
  edestruct (fourier_filter fft scaleC cmul RealDft [n] [n] [n / 2 + 1] values (map (fun i => (0%R, IZR (Z.of_nat i))) (seq 0 (Z.to_nat (n / 2 + 1)))) gi go gi' go' g g' h) as (h' & E & F); [exact I|reflexivity|exact H|lia|rewrite P2; exact L2|rewrite P2; exact L3|lia|destruct S; lia|].
  rewrite E. eexists. exists h', (slope M a b). split; [reflexivity|]. split; [|split; [apply slope_derivative|exact F]].
  cbn [rev app]. rewrite P1. replace (Z.to_nat (n / 2 + 1)) with (length (fft RealDft [n] values)) by lia.
  change (map (fun i => (0%R, IZR (Z.of_nat i)))) with (map (fun i => (0%R, IZR (0 + Z.of_nat i)))). rewrite <- times_combine. cbn [inverseTransform].
  erewrite map_ext; [exact D|]. intros v. apply scaleC_inverse_int. lia.
Qed.
End Fftw.

(** Aliasing. *)
Lemma rsum_zero {A} (f : A -> R) l : (forall a, In a l -> f a = 0%R) -> rsum l f = 0%R.
Proof. induction l as [|a l IH]; intros H; cbn [rsum fold_right]; [reflexivity|]. change (fold_right _ 0%R l) with (rsum l f). rewrite (H a) by (left; reflexivity). rewrite IH by (intros; apply H; right; assumption). ring. Qed.

Lemma rsum_single {A} (f : A -> R) a l : NoDup l -> In a l -> (forall b, In b l -> b <> a -> f b = 0%R) -> rsum l f = f a.
Proof.
  induction 1 as [|b l Hb Hl IH]; intros Ha Hf; [destruct Ha|]. cbn [rsum fold_right]. change (fold_right _ 0%R l) with (rsum l f). destruct Ha as [->|Ha].
  - rewrite rsum_zero; [ring|]. intros c Hc. apply Hf; [right; exact Hc|]. intros ->. contradiction.
  - rewrite IH; [|exact Ha|intros; apply Hf; [right|]; assumption]. rewrite (Hf b); [ring|left; reflexivity|]. intros ->. contradiction.
Qed.

Definition only (m : Z) (v : R) (k : Z) : R := if k =? m then v else 0%R.

Lemma trig_only M m v x : 0 <= m -> trig M (only 0 0) (only m v) x = if m <=? M then (v * sin (IZR m * x))%R else 0%R.
Proof.
  intros Hm. unfold trig. destruct (Z.leb_spec m M) as [L|L].
  - rewrite (rsum_single _ m); [|apply zrange_NoDup|apply In_zrange; lia|].
    + unfold only. rewrite Z.eqb_refl. destruct (m =? 0); ring.
    + intros k _ N. unfold only. replace (k =? m) with false by lia. destruct (k =? 0); ring.
  - apply rsum_zero. intros k Hk. apply In_zrange in Hk. unfold only. replace (k =? m) with false by lia. destruct (k =? 0); ring.
Qed.

Lemma slope_only M m v : 0 <= m -> slope M (only 0 0) (only m v) 0 = if m <=? M then (IZR m * v)%R else 0%R.
Proof.
  intros Hm. unfold slope. destruct (Z.leb_spec m M) as [L|L].
  - rewrite (rsum_single _ m); [|apply zrange_NoDup|apply In_zrange; lia|].
    + unfold only. rewrite Z.eqb_refl, Rmult_0_r, cos_0, sin_0. destruct (m =? 0); ring.
    + intros k _ N. unfold only. replace (k =? m) with false by lia. rewrite Rmult_0_r, cos_0, sin_0. destruct (k =? 0); ring.
  - apply rsum_zero. intros k Hk. apply In_zrange in Hk. unfold only. replace (k =? m) with false by lia. rewrite Rmult_0_r, cos_0, sin_0. destruct (k =? 0); ring.
Qed.

Lemma sample_alias n m j : 0 < n -> sin (IZR m * sample n j) = (- sin (IZR (n - m) * sample n j))%R.
Proof.
  intros Hn. unfold sample. rewrite minus_IZR. assert (N := not_0_IZR n ltac:(lia)).
  replace ((IZR n - IZR m) * (2 * PI * (IZR j / IZR n)))%R with (- (IZR m * (2 * PI * (IZR j / IZR n))) + 2 * PI * IZR j)%R by (field; exact N).
  assert (E := cis_add (- (IZR m * (2 * PI * (IZR j / IZR n)))) (2 * PI * IZR j)). rewrite cis_int in E. unfold cis, cmul, cone in E. cbn [fst snd] in E.
  injection E as _ E. rewrite E, sin_neg. ring.
Qed.

Definition sampled (n : Z) (f : R -> R) : list C := map (fun j => (f (sample n j), 0%R)) (zrange 0 (n - 1)).
Lemma sampled_ok n f : 0 < n -> Samples n f (sampled n f).
Proof.
  intros Hn. assert (L : length (zrange 0 (n - 1)) = Z.to_nat n) by (apply Nat2Z.inj; rewrite zrange_length; lia). split; [unfold sampled; rewrite map_length, L; lia|].
  intros j Hj. unfold valueAt, sampled. apply nth_error_nth. rewrite nth_error_map, nth_error_zrange. replace (0 + Z.of_nat (Z.to_nat j) <=? n - 1) with true by lia.
  cbn [option_map]. replace (0 + Z.of_nat (Z.to_nat j)) with j by lia. reflexivity.
Qed.

Lemma derivative_aliasing fft n M gi go g gi' go' g' : IsFftw fft -> IntShape [n] -> n <= 2 * M ->
  Z.of_nat (length gi) = n -> Z.of_nat (length go) = n / 2 + 1 -> Z.of_nat (length gi') = n / 2 + 1 -> Z.of_nat (length go') = n ->
  exists a b values out, Samples n (trig M a b) values /\ conciseDerivative fft n values gi go g gi' go' g' = Ok out /\
    forall f', Samples n f' out -> ~ (forall x, derivable_pt_lim (trig M a b) x (f' x)).
Proof.
  intros Fft I HM L1 L2 L3 L4. assert (Hn := int_1 n I). set (m := (n + 1) / 2).
  assert (Bm : n <= 2 * m <= n + 1) by (assert (D := Z.div_mod (n + 1) 2 ltac:(lia)); assert (B := Z.mod_pos_bound (n + 1) 2 ltac:(lia)); unfold m; lia).
  assert (Bh : 2 * ((n - 1) / 2) < n /\ n - 2 <= 2 * ((n - 1) / 2)) by (assert (D := Z.div_mod (n - 1) 2 ltac:(lia)); assert (B := Z.mod_pos_bound (n - 1) 2 ltac:(lia)); lia).
  clearbody m. set (M' := (n - 1) / 2) in *. clearbody M'.
  set (F := trig M (only 0 0) (only m 1)). set (G := trig M' (only 0 0) (only (n - m) (-1))).
  assert (A : forall j, F (sample n j) = G (sample n j)).
  { intros j. unfold F, G. rewrite !trig_only by lia. replace (m <=? M) with true by lia. destruct (Z.leb_spec (n - m) M') as [L|L].
    - rewrite (sample_alias n m j Hn). ring.
    - assert (n - m = m) by lia. assert (E := sample_alias n m j Hn). rewrite H in E. lra. }
  assert (S := sampled_ok n G Hn).
  assert (SF : Samples n F (sampled n G)) by (destruct S as [S1 S2]; split; [exact S1|]; intros j Hj; rewrite S2, A by exact Hj; reflexivity).
  destruct (concise_derivative fft Fft n M' (only 0 0) (only (n - m) (-1)) (sampled n G) gi go g gi' go' g' I ltac:(lia) S L1 L2 L3 L4) as (out & g1 & E & SO & DG).
  exists (only 0 0), (only m 1%R), (sampled n G), out. split; [exact SF|]. split; [exact E|]. intros f' S' D'.
  assert (Z0 : sample n 0 = 0%R) by (unfold sample, Rdiv; ring).
  assert (E0 : f' 0%R = g1 0%R). { destruct S' as [_ S']. destruct SO as [_ SO]. specialize (S' 0 ltac:(lia)). specialize (SO 0 ltac:(lia)). rewrite Z0 in S', SO. rewrite S' in SO. injection SO as ->. reflexivity. }
  assert (E1 : f' 0%R = IZR m).
  { rewrite (uniqueness_limite _ _ _ _ (D' 0%R) (slope_derivative M (only 0 0) (only m 1) 0)). rewrite slope_only by lia. replace (m <=? M) with true by lia. ring. }
  assert (E2 : g1 0%R = if n - m <=? M' then (- IZR (n - m))%R else 0%R).
  { rewrite (uniqueness_limite _ _ _ _ (DG 0%R) (slope_derivative M' (only 0 0) (only (n - m) (-1)) 0)). rewrite slope_only by lia. destruct (n - m <=? M'); ring. }
  rewrite E1, E2 in E0. assert (Pm := IZR_lt 0 m ltac:(lia)). destruct (n - m <=? M'); [|lra].
  assert (P2 := IZR_le 0 (n - m) ltac:(lia)). lra.
Qed.
