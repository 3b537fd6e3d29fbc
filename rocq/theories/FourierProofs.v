(** Discrete Fourier transforms: inversion, symmetry, convolution; transforms of rasters. *)
From Coq Require Import Reals QArith Qreals Lra Permutation.
From Verif Require Import Res Lemmas VecModel DftModel Spec DftSpec FourierSpec IndexProofs BoxIterProofs ViewProofs KernelProofs DftProofs.
Open Scope Z_scope.

(** Complex numbers *)
Definition cone : C := (1%R, 0%R).
Definition copp (a : C) : C := (- fst a, - snd a)%R.
Definition csub (a b : C) : C := cadd a (copp b).

Ltac cunfold := unfold csub, cadd, cmul, conj, cscale, copp, cone, czero in *; cbn [fst snd] in *.
Ltac cring := intros; cunfold; apply injective_projections; cbn [fst snd]; ring.

Lemma C_eta (a : C) : a = (fst a, snd a).
Proof. destruct a. reflexivity. Qed.

Lemma C_ring : ring_theory czero cone cadd cmul csub copp eq.
Proof.
  constructor; intros; cunfold; apply injective_projections; cbn [fst snd]; ring.
Qed.
Add Ring CRing : C_ring.

Lemma cmul_zero_r a : cmul a czero = czero. Proof. ring. Qed.

Lemma cmul_integral a b : cmul a b = czero -> a = czero \/ b = czero.
Proof.
  destruct a as [a1 a2], b as [b1 b2]. unfold cmul, czero. cbn [fst snd]. intros [= H1 H2].
  assert (E : ((a1 * a1 + a2 * a2) * (b1 * b1 + b2 * b2) = 0)%R).
  { replace ((a1 * a1 + a2 * a2) * (b1 * b1 + b2 * b2))%R with ((a1 * b1 - a2 * b2) * (a1 * b1 - a2 * b2) + (a1 * b2 + a2 * b1) * (a1 * b2 + a2 * b1))%R by ring.
    rewrite H1, H2. ring. }
  assert (Z0 : forall x y : R, (x * x + y * y = 0)%R -> x = 0%R /\ y = 0%R).
  { intros x y H. assert (0 <= x * x)%R by apply Rle_0_sqr. assert (0 <= y * y)%R by apply Rle_0_sqr.
    split; apply Rsqr_0_uniq; unfold Rsqr; lra. }
  apply Rmult_integral in E as [E|E]; apply Z0 in E as [-> ->]; auto.
Qed.

Lemma cis_add x y : cis (x + y) = cmul (cis x) (cis y).
Proof. unfold cis, cmul. cbn [fst snd]. rewrite cos_plus, sin_plus. f_equal; ring. Qed.

Lemma cis_0 : cis 0 = cone.
Proof. unfold cis. rewrite cos_0, sin_0. reflexivity. Qed.

Lemma cis_opp x : cis (- x) = conj (cis x).
Proof. unfold cis, conj. cbn [fst snd]. rewrite cos_neg, sin_neg. reflexivity. Qed.

Lemma cis_nat k : cis (2 * PI * INR k) = cone.
Proof.
  unfold cis, cone. replace (2 * PI * INR k)%R with (0 + 2 * INR k * PI)%R by ring. rewrite cos_period, sin_period, cos_0, sin_0. reflexivity.
Qed.

Lemma cis_int z : cis (2 * PI * IZR z) = cone.
Proof.
  destruct (Z_le_gt_dec 0 z) as [H|H].
  - rewrite <- (Z2Nat.id z) by exact H. rewrite <- INR_IZR_INZ. apply cis_nat.
  - replace (2 * PI * IZR z)%R with (- (2 * PI * INR (Z.to_nat (- z))))%R.
    + rewrite cis_opp, cis_nat. unfold conj, cone. cbn. f_equal. ring.
    + rewrite INR_IZR_INZ, Z2Nat.id, opp_IZR by lia. ring.
Qed.

Lemma cis_one x : cis (2 * PI * x) = cone -> exists z, x = IZR z.
Proof.
  unfold cis, cone. intros [= H _]. replace (2 * PI * x)%R with (2 * (PI * x))%R in H by ring. rewrite cos_2a_sin in H.
  assert (S : sin (PI * x) = 0%R). { apply Rsqr_0_uniq. unfold Rsqr. lra. }
  apply sin_eq_0_0 in S as [z Hz]. exists z. assert (PI <> 0)%R by apply PI_neq0. apply Rmult_eq_reg_l with PI; [|assumption]. rewrite Hz. ring.
Qed.

(** Sums *)
Section Sums.
Context {A : Type}.
Implicit Types (f g : A -> C) (l : list A).

Lemma csum_ext f g l : (forall a, In a l -> f a = g a) -> csum l f = csum l g.
Proof. induction l as [|a l IH]; intros H; [reflexivity|]. cbn [csum fold_right]. rewrite (H a) by (left; reflexivity). f_equal. apply IH. intros b Hb. apply H. right. exact Hb. Qed.

Lemma csum_cons f a l : csum (a :: l) f = cadd (f a) (csum l f).
Proof. reflexivity. Qed.

Lemma csum_app f l l' : csum (l ++ l') f = cadd (csum l f) (csum l' f).
Proof. induction l as [|a l IH]; cbn [app]; [unfold csum at 2; cbn [fold_right]; ring|]. rewrite !csum_cons, IH. ring. Qed.

Lemma csum_add f g l : csum l (fun a => cadd (f a) (g a)) = cadd (csum l f) (csum l g).
Proof. induction l as [|a l IH]; [unfold csum; cbn; ring|]. rewrite !csum_cons, IH. ring. Qed.

Lemma csum_mul c f l : csum l (fun a => cmul c (f a)) = cmul c (csum l f).
Proof. induction l as [|a l IH]; [unfold csum; cbn [fold_right]; ring|]. rewrite !csum_cons, IH. ring. Qed.

Lemma csum_zero f l : (forall a, In a l -> f a = czero) -> csum l f = czero.
Proof. intros H. induction l as [|a l IH]; [reflexivity|]. rewrite csum_cons, (H a), IH; [ring| |left; reflexivity]. intros b Hb. apply H. right. exact Hb. Qed.

Lemma csum_conj f l : csum l (fun a => conj (f a)) = conj (csum l f).
Proof. induction l as [|a l IH]; [unfold csum; cbn [fold_right]; cunfold; f_equal; ring|]. rewrite !csum_cons, IH. cring. Qed.

Lemma csum_single f a l : NoDup l -> In a l -> (forall b, In b l -> b <> a -> f b = czero) -> csum l f = f a.
Proof.
  induction 1 as [|b l Hb Hl IH]; intros Ha H; [destruct Ha|]. rewrite csum_cons. destruct Ha as [->|Ha].
  - rewrite (csum_zero f l); [ring|]. intros c Hc. apply H; [right; exact Hc|]. intros ->. contradiction.
  - rewrite (H b) by (try (left; reflexivity); intros ->; contradiction). rewrite IH; [ring|exact Ha|]. intros c Hc Hn. apply H; [right; exact Hc|exact Hn].
Qed.
End Sums.

Lemma csum_map {A B} (h : A -> B) (f : B -> C) l : csum (map h l) f = csum l (fun a => f (h a)).
Proof. induction l as [|a l IH]; [reflexivity|]. cbn [map]. rewrite !csum_cons, IH. reflexivity. Qed.

Lemma csum_flat_map {A B} (h : A -> list B) (f : B -> C) l : csum (flat_map h l) f = csum l (fun a => csum (h a) f).
Proof. induction l as [|a l IH]; [reflexivity|]. cbn [flat_map]. rewrite csum_app, csum_cons, IH. reflexivity. Qed.

Lemma csum_swap {A B} (f : A -> B -> C) l m : csum l (fun a => csum m (f a)) = csum m (fun b => csum l (fun a => f a b)).
Proof.
  induction l as [|a l IH].
  - symmetry. apply csum_zero. reflexivity.
  - rewrite csum_cons, IH. rewrite <- csum_add. apply csum_ext. intros b _. reflexivity.
Qed.

(** Positions *)
Lemma domain_cons n s : domain (n :: s) = flat_map (fun q => map (fun z => z :: q) (zrange 0 (n - 1))) (domain s).
Proof. reflexivity. Qed.

Lemma In_domain s p : In p (domain s) <-> InDomain s p.
Proof.
  unfold domain. rewrite In_positions. revert p. induction s as [|n s IH]; intros p; cbn [map].
  - split; inversion 1; constructor.
  - split; inversion 1; subst; constructor; try lia; apply IH; assumption.
Qed.

Lemma domain_NoDup s : NoDup (domain s).
Proof. apply positions_NoDup. Qed.

Lemma InDomain_length s p : InDomain s p -> length p = length s.
Proof. induction 1; cbn; auto. Qed.

Lemma domain_rank s : Positive s -> map (rank s) (domain s) = zrange 0 (prod s - 1).
Proof.
  induction 1 as [|n s Hn Hs IH]; [reflexivity|]. rewrite domain_cons, prod_cons. assert (P := prod_pos s Hs).
  assert (E : forall L, map (rank (n :: s)) (flat_map (fun q => map (fun z => z :: q) (zrange 0 (n - 1))) L) = flat_map (fun r => map (fun z => z + n * r) (zrange 0 (n - 1))) (map (rank s) L)).
  { induction L as [|q L IHL]; [reflexivity|]. cbn [flat_map map]. rewrite map_app, IHL. f_equal. rewrite map_map. apply map_ext. intros z. apply rank_cons. }
  rewrite E, IH. apply blocks; lia.
Qed.

(** Phases *)
Lemma phase_comm s p k : phase s p k = phase s k p.
Proof. revert p k. induction s as [|n s IH]; intros [|x p] [|y k]; cbn [phase]; try reflexivity. rewrite IH, (Z.mul_comm x y). reflexivity. Qed.

Lemma minus_length p q : length p = length q -> length (minus p q) = length p.
Proof. revert q. induction p as [|x p IH]; intros [|y q] H; cbn in *; try lia. rewrite IH; lia. Qed.

Lemma wrap_length s p : length p = length s -> length (wrap s p) = length s.
Proof. revert p. induction s as [|n s IH]; intros [|x p] H; cbn in *; try lia. rewrite IH; lia. Qed.

Lemma phase_minus s p q k : length p = length q -> phase s (minus p q) k = (phase s p k - phase s q k)%R.
Proof.
  revert p q k. induction s as [|n s IH]; intros [|x p] [|y q] [|z k] H; cbn in H; try lia; cbn [phase minus]; try ring.
  rewrite IH by lia. rewrite Z.mul_sub_distr_r, minus_IZR. unfold Rdiv. ring.
Qed.

Lemma phase_opp s p k : phase s p (map Z.opp k) = (- phase s p k)%R.
Proof.
  revert p k. induction s as [|n s IH]; intros [|x p] [|z k]; cbn [phase map]; try ring.
  rewrite IH, Z.mul_opp_r, opp_IZR. unfold Rdiv. ring.
Qed.

Lemma phase_wrap s p k : Positive s -> exists z, phase s (wrap s p) k = (phase s p k + IZR z)%R.
Proof.
  intros P. revert p k. induction P as [|n s Hn Hs IH]; intros p k; [exists 0; cbn [phase]; ring|].
  destruct p as [|x p], k as [|y k]; cbn [phase wrap]; try (exists 0; ring).
  destruct (IH p k) as [z Hz]. exists (z - x / n * y). rewrite Hz, minus_IZR, (Z.mod_eq x n), Z.mul_sub_distr_r, minus_IZR by lia. rewrite <- Z.mul_assoc, !mult_IZR.
  field. apply not_0_IZR. lia.
Qed.

Lemma cis_wrap s p k : Positive s -> cis (2 * PI * phase s (wrap s p) k) = cis (2 * PI * phase s p k).
Proof. intros P. destruct (phase_wrap s p k P) as [z ->]. rewrite Rmult_plus_distr_l, cis_add, cis_int. ring. Qed.

(** Orthogonality *)
Fixpoint cpow (w : C) (m : nat) : C := match m with O => cone | S m' => cmul w (cpow w m') end.

Lemma geometric (w : C) m : cmul (csub w cone) (csum (zrange 0 (Z.of_nat m - 1)) (fun z => cpow w (Z.to_nat z))) = csub (cpow w m) cone.
Proof.
  induction m as [|m IH].
  - rewrite zrange_empty by lia. unfold csum. cbn [fold_right cpow]. ring.
  - replace (Z.of_nat (S m) - 1) with (Z.of_nat m) by lia. rewrite zrange_snoc by lia. rewrite csum_app.
    replace (cmul (csub w cone) (cadd (csum (zrange 0 (Z.of_nat m - 1)) (fun z : Z => cpow w (Z.to_nat z))) (csum [Z.of_nat m] (fun z : Z => cpow w (Z.to_nat z)))))
      with (cadd (csub (cpow w m) cone) (cmul (csub w cone) (csum [Z.of_nat m] (fun z : Z => cpow w (Z.to_nat z))))) by (rewrite <- IH; ring).
    unfold csum. cbn [fold_right]. rewrite Nat2Z.id. cbn [cpow]. ring.
Qed.

Lemma cis_pow x m : cpow (cis x) m = cis (INR m * x).
Proof.
  induction m as [|m IH]; [cbn [cpow INR]; rewrite Rmult_0_l; symmetry; apply cis_0|].
  cbn [cpow]. rewrite IH, <- cis_add. f_equal. rewrite S_INR. ring.
Qed.

Lemma IZR_pos n : 0 < n -> IZR n <> 0%R.
Proof. intros H. apply not_0_IZR. lia. Qed.

Lemma root_sum n x : 0 < n -> csum (zrange 0 (n - 1)) (fun z => cis (2 * PI * (IZR (x * z) / IZR n))) = if x mod n =? 0 then (IZR n, 0%R) else czero.
Proof.
  intros Hn. assert (Nn := IZR_pos n Hn). set (t := (2 * PI * (IZR x / IZR n))%R).
  assert (E : csum (zrange 0 (n - 1)) (fun z => cis (2 * PI * (IZR (x * z) / IZR n))) = csum (zrange 0 (n - 1)) (fun z => cpow (cis t) (Z.to_nat z))).
  { apply csum_ext. intros z Hz. apply In_zrange in Hz. rewrite cis_pow, INR_IZR_INZ, Z2Nat.id by lia. f_equal. unfold t. rewrite mult_IZR. field. exact Nn. }
  rewrite E. clear E. destruct (Z.eqb_spec (x mod n) 0) as [Hx|Hx].
  - assert (O : cis t = cone).
    { unfold t. apply Z.mod_divide in Hx as [q ->]; [|lia]. rewrite mult_IZR. replace (IZR q * IZR n / IZR n)%R with (IZR q) by (field; exact Nn). apply cis_int. }
    rewrite O. assert (G : forall m : nat, csum (zrange 0 (Z.of_nat m - 1)) (fun z => cpow cone (Z.to_nat z)) = (IZR (Z.of_nat m), 0%R)).
    { induction m as [|m IH]; [rewrite zrange_empty by lia; reflexivity|]. replace (Z.of_nat (S m) - 1) with (Z.of_nat m) by lia. rewrite zrange_snoc, csum_app, IH by lia.
      assert (I : forall j, cpow cone j = cone) by (induction j as [|j IHj]; [reflexivity|]; cbn [cpow]; rewrite IHj; ring).
      unfold csum. cbn [fold_right]. rewrite I. replace (Z.of_nat (S m)) with (Z.of_nat m + 1) by lia. rewrite plus_IZR. cring. }
    specialize (G (Z.to_nat n)). rewrite Z2Nat.id in G by lia. exact G.
  - assert (G := geometric (cis t) (Z.to_nat n)). rewrite Z2Nat.id in G by lia. rewrite cis_pow, INR_IZR_INZ, Z2Nat.id in G by lia.
    assert (O : cis (IZR n * t) = cone). { unfold t. replace (IZR n * (2 * PI * (IZR x / IZR n)))%R with (2 * PI * IZR x)%R by (field; exact Nn). apply cis_int. }
    rewrite O in G. replace (csub cone cone) with czero in G by ring. apply cmul_integral in G as [G|G]; [|exact G]. exfalso.
    assert (W : cis t = cone). { replace (cis t) with (cadd (csub (cis t) cone) cone) by ring. rewrite G. ring. }
    unfold t in W. apply cis_one in W as [z Hz]. apply Hx. apply Z.mod_divide; [lia|]. exists z. apply eq_IZR. rewrite mult_IZR, <- Hz. field. exact Nn.
Qed.

Lemma ortho s d : Positive s -> length d = length s ->
  csum (domain s) (fun k => cis (2 * PI * phase s d k)) = if list_eq_dec Z.eq_dec (wrap s d) (map (fun _ => 0) s) then (IZR (prod s), 0%R) else czero.
Proof.
  intros P. revert d. induction P as [|n s Hn Hs IH]; intros d L; destruct d as [|x d]; cbn in L; try lia.
  - cbn [wrap map]. destruct (list_eq_dec Z.eq_dec [] []) as [_|N]; [|congruence]. unfold csum, domain. cbn [map positions fold_right phase]. rewrite Rmult_0_r, cis_0. change (prod []) with 1. cring.
  - rewrite domain_cons, csum_flat_map.
    assert (E : csum (domain s) (fun q => csum (map (fun z => z :: q) (zrange 0 (n - 1))) (fun k => cis (2 * PI * phase (n :: s) (x :: d) k))) =
      csum (domain s) (fun q => cmul (csum (zrange 0 (n - 1)) (fun z => cis (2 * PI * (IZR (x * z) / IZR n)))) (cis (2 * PI * phase s d q)))).
    { apply csum_ext. intros q _. rewrite csum_map. cbn [phase].
      replace (cmul (csum (zrange 0 (n - 1)) (fun z => cis (2 * PI * (IZR (x * z) / IZR n)))) (cis (2 * PI * phase s d q)))
        with (cmul (cis (2 * PI * phase s d q)) (csum (zrange 0 (n - 1)) (fun z => cis (2 * PI * (IZR (x * z) / IZR n))))) by ring.
      rewrite <- csum_mul. apply csum_ext. intros z _. rewrite Rmult_plus_distr_l, cis_add. ring. }
    rewrite E, csum_mul, root_sum, IH by lia. cbn [wrap map]. destruct (Z.eqb_spec (x mod n) 0) as [X|X].
    + rewrite X. destruct (list_eq_dec Z.eq_dec (wrap s d) (map (fun _ => 0) s)) as [W|W].
      * rewrite W. destruct (list_eq_dec Z.eq_dec _ _) as [_|N]; [|exfalso; apply N; reflexivity]. rewrite prod_cons, mult_IZR. cring.
      * destruct (list_eq_dec Z.eq_dec _ _) as [N|_]; [exfalso; injection N; intros; contradiction|]. ring.
    + destruct (list_eq_dec Z.eq_dec (x mod n :: wrap s d) (0 :: map (fun _ => 0) s)) as [N|_]; [exfalso; injection N; intros; contradiction|]. ring.
Qed.

Lemma wrap_id s p : InDomain s p -> wrap s p = p.
Proof. induction 1 as [|n x s p H HD IH]; cbn [wrap]; [reflexivity|]. rewrite Z.mod_small, IH by lia. reflexivity. Qed.

Lemma wrap_domain s p : Positive s -> length p = length s -> InDomain s (wrap s p).
Proof.
  intros P. revert p. induction P as [|n s Hn Hs IH]; intros [|x p] L; cbn in L; try lia; cbn [wrap]; constructor.
  - apply Z.mod_pos_bound. exact Hn.
  - apply IH. lia.
Qed.

Lemma wrap_minus s p q : length p = length s -> InDomain s q -> (wrap s (minus p q) = map (fun _ => 0) s <-> q = wrap s p).
Proof.
  intros L H. revert p L. induction H as [|n y s q Hy H IH]; intros [|x p] L; cbn in L; try lia; cbn [wrap minus map]; [tauto|].
  specialize (IH p ltac:(lia)). assert (E : (x - y) mod n = 0 <-> y = x mod n).
  { split; intros E.
    - apply Z.mod_divide in E as [k Hk]; [|lia]. apply (Z.mod_unique x n k); lia.
    - subst y. rewrite Zminus_mod_idemp_r, Z.sub_diag. reflexivity. }
  split; intros F.
  - injection F as F1 F2. f_equal; [apply E; exact F1|apply IH; exact F2].
  - injection F as F1 F2. f_equal; [apply E; exact F1|apply IH; exact F2].
Qed.

(** Inversion *)
Lemma inversion_wrap s f p : Positive s -> length p = length s -> inverseDft s (dft s f) p = cscale (IZR (prod s)) (f (wrap s p)).
Proof.
  intros P L. unfold inverseDft, dft.
  assert (E : csum (domain s) (fun k => cmul (csum (domain s) (fun q => cmul (f q) (cis (- (2 * PI * phase s q k))))) (cis (2 * PI * phase s p k))) =
    csum (domain s) (fun k => csum (domain s) (fun q => cmul (f q) (cis (2 * PI * phase s (minus p q) k))))).
  { apply csum_ext. intros k _. replace (cmul (csum (domain s) (fun q => cmul (f q) (cis (- (2 * PI * phase s q k))))) (cis (2 * PI * phase s p k)))
      with (cmul (cis (2 * PI * phase s p k)) (csum (domain s) (fun q => cmul (f q) (cis (- (2 * PI * phase s q k)))))) by ring.
    rewrite <- csum_mul. apply csum_ext. intros q Hq. apply In_domain, InDomain_length in Hq. rewrite phase_minus by lia.
    replace (2 * PI * (phase s p k - phase s q k))%R with (2 * PI * phase s p k + - (2 * PI * phase s q k))%R by ring. rewrite cis_add. ring. }
  rewrite E, csum_swap. rewrite (csum_single _ (wrap s p)).
  - rewrite csum_mul, ortho; [|exact P|rewrite minus_length by (rewrite wrap_length; lia); exact L].
    destruct (list_eq_dec Z.eq_dec _ _) as [_|N]; [cring|]. exfalso. apply N. apply wrap_minus; [exact L|apply wrap_domain; assumption|reflexivity].
  - apply domain_NoDup.
  - apply In_domain. apply wrap_domain; assumption.
  - intros q Hq N. apply In_domain in Hq. assert (Lq := InDomain_length _ _ Hq). rewrite csum_mul, ortho; [|exact P|rewrite minus_length by lia; exact L].
    destruct (list_eq_dec Z.eq_dec _ _) as [W|_]; [|ring]. exfalso. apply N. apply wrap_minus in W; assumption.
Qed.

Lemma inversion_dft s f p : Positive s -> InDomain s p -> inverseDft s (dft s f) p = cscale (IZR (prod s)) (f p).
Proof. intros P H. rewrite inversion_wrap by (try exact P; apply InDomain_length; exact H). rewrite wrap_id by exact H. reflexivity. Qed.

Lemma dft_ext s f g k : (forall p, InDomain s p -> f p = g p) -> dft s f k = dft s g k.
Proof. intros H. apply csum_ext. intros p Hp. apply In_domain in Hp. rewrite H by exact Hp. reflexivity. Qed.

Lemma inverseDft_ext s f g k : (forall p, InDomain s p -> f p = g p) -> inverseDft s f k = inverseDft s g k.
Proof. intros H. apply csum_ext. intros p Hp. apply In_domain in Hp. rewrite H by exact Hp. reflexivity. Qed.

(** Symmetry *)
Lemma conj_mul a b : conj (cmul a b) = cmul (conj a) (conj b).
Proof. cring. Qed.

Lemma conj_real a : IsReal a -> conj a = a.
Proof. unfold IsReal. destruct a as [x y]. cbn [snd]. intros ->. cring. Qed.

Lemma dft_hermitian s f : Positive s -> (forall p, InDomain s p -> IsReal (f p)) -> Hermitian s (dft s f).
Proof.
  intros P R k Hk. unfold dft. rewrite <- csum_conj. apply csum_ext. intros p Hp. apply In_domain in Hp.
  rewrite conj_mul, (conj_real (f p)) by (apply R; exact Hp). rewrite <- !cis_opp. f_equal.
  rewrite (cis_opp (2 * PI * phase s p (wrap s (map Z.opp k)))). rewrite phase_comm, cis_wrap by exact P. rewrite phase_comm, phase_opp, <- cis_opp. f_equal. ring.
Qed.

Lemma hermitian_mul s f g : Hermitian s f -> Hermitian s g -> Hermitian s (fun k => cmul (f k) (g k)).
Proof. intros F G k Hk. rewrite F, G, conj_mul by exact Hk. reflexivity. Qed.

Lemma wrap_opp_twice s k : InDomain s k -> wrap s (map Z.opp (wrap s (map Z.opp k))) = k.
Proof.
  induction 1 as [|n x s k H HD IH]; cbn [wrap map]; [reflexivity|]. rewrite IH. f_equal.
  rewrite <- (Z.sub_0_l ((- x) mod n)), Zminus_mod_idemp_r. replace (0 - - x) with x by lia. apply Z.mod_small. exact H.
Qed.

Lemma csum_permutation {A} (f : A -> C) l l' : Permutation l l' -> csum l f = csum l' f.
Proof. induction 1; rewrite ?csum_cons; [reflexivity| | |congruence]; [rewrite IHPermutation; reflexivity|ring]. Qed.

Lemma map_opp_length k : length (map Z.opp k) = length k.
Proof. apply map_length. Qed.

Lemma opposite_domain s k : Positive s -> InDomain s k -> InDomain s (wrap s (map Z.opp k)).
Proof. intros P H. apply wrap_domain; [exact P|]. rewrite map_length. apply InDomain_length. exact H. Qed.

Lemma domain_opposite s : Positive s -> Permutation (map (fun k => wrap s (map Z.opp k)) (domain s)) (domain s).
Proof.
  intros P. apply NoDup_Permutation.
  - assert (D : forall k, In k (domain s) -> InDomain s k) by (intros k; apply In_domain). assert (N := domain_NoDup s). revert D.
    induction N as [|k l Hk Hl IH]; intros D; cbn [map]; constructor.
    + intros H. apply in_map_iff in H as (k' & E & Hk'). apply Hk. rewrite <- (wrap_opp_twice s k), <- E, wrap_opp_twice; [exact Hk'| |]; apply D; [right; exact Hk'|left; reflexivity].
    + apply IH. intros k' Hk'. apply D. right. exact Hk'.
  - apply domain_NoDup.
  - intros k. rewrite in_map_iff. split.
    + intros (k' & <- & H). apply In_domain. apply opposite_domain; [exact P|]. apply In_domain. exact H.
    + intros H. apply In_domain in H. exists (wrap s (map Z.opp k)). split; [apply wrap_opp_twice; exact H|]. apply In_domain. apply opposite_domain; assumption.
Qed.

Lemma hermitian_real s f p : Positive s -> Hermitian s f -> IsReal (inverseDft s f p).
Proof.
  intros P H. assert (E : conj (inverseDft s f p) = inverseDft s f p).
  { unfold inverseDft at 2. rewrite <- (csum_permutation _ _ _ (domain_opposite s P)), csum_map. unfold inverseDft. rewrite <- csum_conj.
    apply csum_ext. intros k Hk. apply In_domain in Hk. rewrite conj_mul, H by exact Hk. f_equal. rewrite phase_comm, <- cis_opp.
    rewrite (phase_comm s p), cis_wrap by exact P. rewrite (phase_comm s (map Z.opp k)), phase_opp, (phase_comm s p k). f_equal. ring. }
  unfold IsReal. destruct (inverseDft s f p) as [x y]. unfold conj in E. cbn [fst snd] in *. injection E as E. lra.
Qed.

(** Direct transforms of inverse ones *)
Lemma inverse_as_dft s f p : Positive s -> inverseDft s f p = dft s (fun k => f (wrap s (map Z.opp k))) p.
Proof.
  intros P. unfold inverseDft, dft. rewrite <- (csum_permutation _ _ _ (domain_opposite s P)), csum_map. apply csum_ext. intros k _.
  rewrite (phase_comm s p), cis_wrap by exact P. rewrite (phase_comm s (map Z.opp k)), phase_opp, (phase_comm s p k). f_equal. f_equal. ring.
Qed.

Lemma dft_as_inverse s f k : Positive s -> dft s f k = inverseDft s f (wrap s (map Z.opp k)).
Proof.
  intros P. apply csum_ext. intros p _. rewrite cis_wrap by exact P. rewrite (phase_comm s (map Z.opp k)), phase_opp. f_equal. f_equal. ring.
Qed.

Lemma inversion_inverse s f k : Positive s -> InDomain s k -> dft s (inverseDft s f) k = cscale (IZR (prod s)) (f k).
Proof.
  intros P H. rewrite (dft_ext s _ (dft s (fun k => f (wrap s (map Z.opp k))))) by (intros p _; apply inverse_as_dft; exact P).
  rewrite dft_as_inverse, inversion_dft by (try exact P; apply opposite_domain; assumption). rewrite wrap_opp_twice by exact H. reflexivity.
Qed.

(** Convolution *)
Lemma convolution_theorem s f g p : Positive s -> InDomain s p ->
  inverseDft s (fun k => cmul (dft s f k) (dft s g k)) p = cscale (IZR (prod s)) (circular s f g p).
Proof.
  intros P H. assert (Lp := InDomain_length _ _ H). unfold inverseDft, circular.
  assert (E : csum (domain s) (fun k => cmul (cmul (dft s f k) (dft s g k)) (cis (2 * PI * phase s p k))) =
    csum (domain s) (fun k => csum (domain s) (fun q => cmul (f q) (cmul (dft s g k) (cis (2 * PI * phase s (minus p q) k)))))).
  { apply csum_ext. intros k _. unfold dft at 1. replace (cmul (cmul (csum (domain s) (fun q => cmul (f q) (cis (- (2 * PI * phase s q k))))) (dft s g k)) (cis (2 * PI * phase s p k)))
      with (cmul (cmul (dft s g k) (cis (2 * PI * phase s p k))) (csum (domain s) (fun q => cmul (f q) (cis (- (2 * PI * phase s q k)))))) by ring.
    rewrite <- csum_mul. apply csum_ext. intros q Hq. apply In_domain, InDomain_length in Hq. rewrite phase_minus by lia.
    replace (2 * PI * (phase s p k - phase s q k))%R with (2 * PI * phase s p k + - (2 * PI * phase s q k))%R by ring. rewrite cis_add. ring. }
  rewrite E, csum_swap. assert (S : forall c a, cscale c a = cmul (c, 0%R) a) by cring. rewrite S, <- csum_mul.
  apply csum_ext. intros q Hq. apply In_domain, InDomain_length in Hq. rewrite csum_mul.
  assert (I := inversion_wrap s g (minus p q) P). rewrite minus_length in I by lia. specialize (I Lp). unfold inverseDft in I. rewrite I, S. ring.
Qed.

(** Layout *)
Lemma rowMajor_rank dims k : length k = length dims -> rowMajor dims k = rank (rev dims) (rev k).
Proof.
  revert k. induction dims as [|n dims IH]; intros [|x k] L; cbn in L; try lia; [reflexivity|]. cbn [rowMajor rev].
  rewrite rank_app by (rewrite !rev_length; lia). rewrite <- IH by lia. unfold rank at 1. cbn [rankFrom]. rewrite prod_rev. lia.
Qed.

Lemma InDomain_app s p s' p' : InDomain s p -> InDomain s' p' -> InDomain (s ++ s') (p ++ p').
Proof. induction 1; cbn [app]; [auto|]. intros H'. constructor; auto. Qed.

Lemma InDomain_rev s p : InDomain s p -> InDomain (rev s) (rev p).
Proof. induction 1; cbn [rev]; [constructor|]. apply InDomain_app; [assumption|]. constructor; [assumption|constructor]. Qed.

Lemma Positive_rev s : Positive s -> Positive (rev s).
Proof. apply Forall_rev. Qed.

Lemma domain_rev s : Permutation (map (@rev Z) (domain (rev s))) (domain s).
Proof.
  apply NoDup_Permutation.
  - apply FinFun.Injective_map_NoDup; [|apply domain_NoDup]. intros p q E. rewrite <- (rev_involutive p), E. apply rev_involutive.
  - apply domain_NoDup.
  - intros p. rewrite in_map_iff, In_domain. split.
    + intros (q & <- & H). apply In_domain, InDomain_rev in H. rewrite rev_involutive in H. exact H.
    + intros H. exists (rev p). split; [apply rev_involutive|]. apply In_domain. apply InDomain_rev. exact H.
Qed.

Lemma phase_app s s' p p' k k' : length p = length s -> length k = length s -> phase (s ++ s') (p ++ p') (k ++ k') = (phase s p k + phase s' p' k')%R.
Proof.
  revert p k. induction s as [|n s IH]; intros [|x p] [|y k] L1 L2; cbn in L1, L2; try lia; cbn [app phase]; [ring|]. rewrite IH by lia. ring.
Qed.

Lemma phase_rev s p k : length p = length s -> length k = length s -> phase (rev s) (rev p) (rev k) = phase s p k.
Proof.
  revert p k. induction s as [|n s IH]; intros [|x p] [|y k] L1 L2; cbn in L1, L2; try lia; cbn [rev phase]; [reflexivity|].
  rewrite phase_app by (rewrite !rev_length; lia). rewrite IH by lia. cbn [phase]. ring.
Qed.

Lemma dft_rev s f k : length k = length s -> dft (rev s) f (rev k) = dft s (fun p => f (rev p)) k.
Proof.
  intros L. unfold dft. rewrite <- (csum_permutation _ _ _ (domain_rev (rev s))), rev_involutive, csum_map. apply csum_ext. intros p Hp.
  apply In_domain, InDomain_length in Hp. rewrite phase_rev by lia. reflexivity.
Qed.

Lemma inverseDft_rev s f k : length k = length s -> inverseDft (rev s) f (rev k) = inverseDft s (fun p => f (rev p)) k.
Proof.
  intros L. unfold inverseDft. rewrite <- (csum_permutation _ _ _ (domain_rev (rev s))), rev_involutive, csum_map. apply csum_ext. intros p Hp.
  apply In_domain, InDomain_length in Hp. rewrite phase_rev by lia. reflexivity.
Qed.

Lemma fftwAt_rev s x p : length p = length s -> fftwAt (rev s) x (rev p) = rasterAt s x p.
Proof. intros L. unfold fftwAt, rasterAt. rewrite rowMajor_rank by (rewrite !rev_length; exact L). rewrite !rev_involutive. reflexivity. Qed.

Lemma wrap_app s s' p p' : length p = length s -> wrap (s ++ s') (p ++ p') = wrap s p ++ wrap s' p'.
Proof. revert p. induction s as [|n s IH]; intros [|x p] L; cbn in L; try lia; cbn [app wrap]; [reflexivity|]. rewrite IH by lia. reflexivity. Qed.

Lemma wrap_rev s p : length p = length s -> wrap (rev s) (rev p) = rev (wrap s p).
Proof.
  revert p. induction s as [|n s IH]; intros [|x p] L; cbn in L; try lia; cbn [rev wrap]; [reflexivity|].
  rewrite wrap_app by (rewrite !rev_length; lia). rewrite IH by lia. reflexivity.
Qed.

Lemma halfLast_rev n rest : halfLast (rev (n :: rest)) = rev (n / 2 + 1 :: rest).
Proof. unfold halfLast. rewrite rev_involutive. reflexivity. Qed.

(** From FFTW's arrays to rasters *)
Lemma fftw_raster t n rest x y : FftwComputes t (rev (n :: rest)) x y -> TransformOf t n rest x y.
Proof.
  destruct t; unfold FftwComputes, TransformOf; try rewrite halfLast_rev.
  - intros H R k Hk. assert (Lk := InDomain_length _ _ Hk). specialize (H R (rev k) (InDomain_rev _ _ Hk)). rewrite fftwAt_rev in H by exact Lk. rewrite H.
    rewrite dft_rev by exact Lk. apply dft_ext. intros p Hp. apply fftwAt_rev. apply InDomain_length. exact Hp.
  - intros [R H]. split; [exact R|]. intros f Hf Hx p Hp. assert (Lp := InDomain_length _ _ Hp).
    specialize (H (fun k => f (rev k))). rewrite <- (fftwAt_rev (n :: rest)) by exact Lp. rewrite H.
    + rewrite inverseDft_rev by exact Lp. apply inverseDft_ext. intros k _. rewrite rev_involutive. reflexivity.
    + intros k Hk. rewrite <- Hf by (apply InDomain_rev in Hk; rewrite rev_involutive in Hk; exact Hk). f_equal.
      assert (Lk := InDomain_length _ _ Hk). rewrite rev_length in Lk. rewrite <- (rev_involutive k) at 1. rewrite map_rev, wrap_rev, rev_involutive by (rewrite map_length, rev_length; exact Lk). reflexivity.
    + intros k Hk. assert (Lk := InDomain_length _ _ Hk). rewrite rev_length in Lk. rewrite <- (rev_involutive k) at 1. rewrite fftwAt_rev by (rewrite rev_length; exact Lk).
      apply Hx. apply InDomain_rev in Hk. rewrite rev_involutive in Hk. exact Hk.
    + apply InDomain_rev. exact Hp.
  - intros H k Hk. assert (Lk := InDomain_length _ _ Hk). specialize (H (rev k) (InDomain_rev _ _ Hk)). rewrite fftwAt_rev in H by exact Lk. rewrite H.
    rewrite dft_rev by exact Lk. apply dft_ext. intros p Hp. apply fftwAt_rev. apply InDomain_length. exact Hp.
  - intros H k Hk. assert (Lk := InDomain_length _ _ Hk). specialize (H (rev k) (InDomain_rev _ _ Hk)). rewrite fftwAt_rev in H by exact Lk. rewrite H.
    rewrite inverseDft_rev by exact Lk. apply inverseDft_ext. intros p Hp. apply fftwAt_rev. apply InDomain_length. exact Hp.
Qed.

(** A list from its values *)
Lemma valueAt_In l i : 0 <= i < Z.of_nat (length l) -> In (valueAt l i) l.
Proof. intros H. apply nth_In. lia. Qed.

Lemma raster_values s x y : Positive s -> Z.of_nat (length x) = prod s -> Z.of_nat (length y) = prod s ->
  (forall p, InDomain s p -> rasterAt s x p = rasterAt s y p) -> x = y.
Proof.
  intros P Lx Ly H. apply (nth_ext x y czero czero); [lia|]. intros i Hi.
  assert (U := H (unrank s (Z.of_nat i)) (unrank_domain s _ P)). unfold rasterAt, valueAt in U. rewrite rank_unrank in U by (try exact P; lia). rewrite Nat2Z.id in U. exact U.
Qed.

Lemma map_valueAt (f : C -> C) l i : 0 <= i < Z.of_nat (length l) -> valueAt (map f l) i = f (valueAt l i).
Proof. intros H. unfold valueAt. rewrite (nth_indep _ czero (f czero)) by (rewrite map_length; lia). apply map_nth. Qed.

Lemma rasterAt_map f s x p : Z.of_nat (length x) = prod s -> InDomain s p -> rasterAt s (map f x) p = f (rasterAt s x p).
Proof. intros L H. apply map_valueAt. rewrite L. apply rank_bounds. exact H. Qed.

Lemma rasterAt_real s x p : Z.of_nat (length x) = prod s -> Forall IsReal x -> InDomain s p -> IsReal (rasterAt s x p).
Proof. intros L R H. rewrite Forall_forall in R. apply R. apply valueAt_In. rewrite L. apply rank_bounds. exact H. Qed.

Lemma half_domain n rest k : 0 < n -> InDomain (n / 2 + 1 :: rest) k -> InDomain (n :: rest) k.
Proof. intros Hn H. inversion H as [|? x ? p Hx Hp]; subst. constructor; [|exact Hp]. assert (n / 2 < n) by (apply Z.div_lt; lia). lia. Qed.

(** Transforms of FFTW are unnormalized *)
Lemma fftw_in_rev t n rest : 0 < n -> fftwIn t (rev (n :: rest)) = match t with InverseRealDft => prod (n / 2 + 1 :: rest) | _ => prod (n :: rest) end /\
  fftwOut t (rev (n :: rest)) = match t with RealDft => prod (n / 2 + 1 :: rest) | _ => prod (n :: rest) end.
Proof.
  intros Hn. assert (E : fftwComplex (rev (n :: rest)) = prod (n / 2 + 1 :: rest)) by (unfold fftwComplex; rewrite rev_involutive, prod_cons; reflexivity).
  assert (F : fftwReal (rev (n :: rest)) = prod (n :: rest)) by (apply prod_rev). destruct t; cbn [fftwIn fftwOut]; rewrite ?E, ?F; split; reflexivity.
Qed.

Section Fftw.
Variable fft : transform -> list Z -> list C -> list C.
Hypothesis Fft : IsFftw fft.

Lemma fftw_transform t n rest x : 0 < n -> Positive rest -> Z.of_nat (length x) = fftwIn t (rev (n :: rest)) ->
  Z.of_nat (length (fft t (rev (n :: rest)) x)) = fftwOut t (rev (n :: rest)) /\ TransformOf t n rest x (fft t (rev (n :: rest)) x).
Proof.
  intros Hn P L. destruct (Fft t (rev (n :: rest)) x) as [L' H]; [|exact L|].
  - apply Positive_rev. constructor; assumption.
  - split; [exact L'|]. apply fftw_raster. exact H.
Qed.

Lemma fftw_sized : Sized fft.
Proof. intros t dims l P L. apply Fft; assumption. Qed.

Lemma scaleC_int n v : scaleC (inject_Z n) v = cscale (IZR n) v.
Proof. unfold scaleC, Q2R. cbn [Qnum Qden inject_Z]. rewrite Rinv_1, Rmult_1_r. reflexivity. Qed.

Lemma scaleC_inverse_int n v : n <> 0 -> scaleC (1 / inject_Z n) v = cscale (/ IZR n) v.
Proof.
  intros H. unfold scaleC. f_equal. rewrite Q2R_div; [|intros E; apply H; unfold Qeq in E; cbn in E; lia].
  unfold Q2R. cbn [Qnum Qden inject_Z]. field. apply not_0_IZR. exact H.
Qed.

Lemma scaleC_inverse n v : n <> 0 -> scaleC (1 / inject_Z n) (scaleC (inject_Z n) v) = v.
Proof.
  intros H. rewrite scaleC_inverse_int, scaleC_int by exact H. rewrite (C_eta v) at 2. unfold cscale. cbn [fst snd]. f_equal; field; apply not_0_IZR; exact H.
Qed.

Lemma cscale_scale x y a : cscale x (cscale y a) = cscale (x * y) a.
Proof. cring. Qed.

Lemma cscale_1 a : cscale 1 a = a.
Proof. destruct a. cring. Qed.

Lemma accepted_real x : Forall (Accepted RealDft) x -> Forall IsReal x.
Proof. intros H. exact H. Qed.

Lemma fftw_unnormalized_rev t n rest : Direct t -> 0 < n -> Positive rest -> Unnormalized fft scaleC (Accepted t) t (rev (n :: rest)).
Proof.
  intros D Hn P x L A. assert (Ps : Positive (n :: rest)) by (constructor; assumption).
  destruct (fftw_transform t n rest x Hn P L) as [Ly Ty]. split; [exact Ly|].
  set (y := fft t (rev (n :: rest)) x) in *. destruct (fftw_in_rev t n rest Hn) as [Ei Eo]. destruct (fftw_in_rev (inverseTransform t) n rest Hn) as [Fi Fo].
  assert (Lx : Z.of_nat (length x) = prod (n :: rest)) by (rewrite L, Ei; destruct D as [-> | ->]; reflexivity).
  destruct (fftw_transform (inverseTransform t) n rest y Hn P) as [Lz Tz]; [rewrite Ly, Eo, Fi; destruct D as [-> | ->]; reflexivity|].
  set (z := fft (inverseTransform t) (rev (n :: rest)) y) in *.
  assert (Lz' : Z.of_nat (length z) = prod (n :: rest)) by (rewrite Lz, Fo; destruct D as [-> | ->]; reflexivity).
  apply (raster_values (n :: rest)); [exact Ps|exact Lz'|rewrite map_length; exact Lx|]. intros p Hp. rewrite rasterAt_map by assumption.
  rewrite prod_rev, scaleC_int. rewrite <- inversion_dft by assumption. destruct D as [-> | ->]; cbn [inverseTransform TransformOf] in Ty, Tz.
  - destruct Tz as [_ Tz]. apply Tz; [|intros k Hk; apply Ty; [exact A|exact Hk]|exact Hp]. apply dft_hermitian; [exact Ps|].
    intros q Hq. apply rasterAt_real; assumption.
  - rewrite Tz by exact Hp. apply inverseDft_ext. intros k Hk. apply Ty. exact Hk.
Qed.

Lemma fftw_unnormalized t dims : Direct t -> dims <> [] -> Positive dims -> Unnormalized fft scaleC (Accepted t) t dims.
Proof.
  intros D N P. rewrite <- (rev_involutive dims). assert (P' := Positive_rev _ P). destruct (rev dims) as [|n rest] eqn:E.
  - exfalso. apply N. rewrite <- (rev_involutive dims), E. reflexivity.
  - inversion P'; subst. apply fftw_unnormalized_rev; assumption.
Qed.

(** Functions *)
Lemma intShape_positive shape : IntShape shape -> Positive shape.
Proof. intros [_ F]. eapply Forall_impl; [|exact F]. cbn. intros; lia. Qed.

Lemma in_shape t n rest si so : 0 < n -> dftInShape t (n :: rest) = Ok si -> dftOutShape t (n :: rest) = Ok so ->
  prod si = fftwIn t (rev (n :: rest)) /\ prod so = fftwOut t (rev (n :: rest)).
Proof.
  intros Hn Ei Eo. destruct (fftw_in_rev t n rest Hn) as [-> ->]. assert (H := halved_cons n rest ltac:(lia)).
  destruct t; cbn [dftInShape dftOutShape] in Ei, Eo; rewrite ?H in *; injection Ei as <-; injection Eo as <-; split; reflexivity.
Qed.

Lemma function_transform t normalized n rest si so values gi go g : IntShape (n :: rest) -> dftInShape t (n :: rest) = Ok si -> dftOutShape t (n :: rest) = Ok so ->
  Z.of_nat (length gi) = prod si -> Z.of_nat (length go) = prod so -> Z.of_nat (length values) = prod si ->
  exists y, dftFunction fft scaleC t normalized (n :: rest) values gi go g = Ok (if normalized then map (cscale (/ IZR (prod (n :: rest)))) y else y) /\
    Z.of_nat (length y) = prod so /\ TransformOf t n rest values y.
Proof.
  intros I Ei Eo Li Lo Lv. assert (Ps := intShape_positive _ I). inversion Ps as [|? ? Hn Hr]; subst. destruct (in_shape t n rest si so Hn Ei Eo) as [Pi Po].
  exists (fft t (rev (n :: rest)) values). rewrite (dft_function fft scaleC t normalized (n :: rest) si so) by assumption. split.
  - destruct normalized; [|reflexivity]. f_equal. apply map_ext. intros v. apply scaleC_inverse_int. assert (P := prod_pos _ Ps). lia.
  - destruct (fftw_transform t n rest values Hn Hr) as [Ly T]; [lia|]. split; [lia|exact T].
Qed.

Lemma functions_inverse t n rest si so values gi go g gi' go' g' : IntShape (n :: rest) -> Direct t -> dftInShape t (n :: rest) = Ok si -> dftOutShape t (n :: rest) = Ok so ->
  Z.of_nat (length gi) = prod si -> Z.of_nat (length go) = prod so -> Z.of_nat (length values) = prod si -> Forall (Accepted t) values ->
  Z.of_nat (length gi') = prod so -> Z.of_nat (length go') = prod si ->
  exists coefficients, dftFunction fft scaleC t false (n :: rest) values gi go g = Ok coefficients /\
    Z.of_nat (length coefficients) = prod so /\
    dftFunction fft scaleC (inverseTransform t) true (n :: rest) coefficients gi' go' g' = Ok values.
Proof.
  intros I D Ei Eo L1 L2 L3 A L4 L5. assert (Ps := intShape_positive _ I). inversion Ps as [|? ? Hn Hr]; subst.
  eapply (functions_round_trip fft scaleC (Accepted t)); try eassumption; [apply fftw_unnormalized_rev; assumption|apply scaleC_inverse].
Qed.

Lemma functions_direct n rest values gi go g gi' go' g' : IntShape (n :: rest) ->
  Z.of_nat (length gi) = prod (n :: rest) -> Z.of_nat (length go) = prod (n :: rest) -> Z.of_nat (length values) = prod (n :: rest) ->
  Z.of_nat (length gi') = prod (n :: rest) -> Z.of_nat (length go') = prod (n :: rest) ->
  exists image, dftFunction fft scaleC InverseComplexDft true (n :: rest) values gi go g = Ok image /\
    Z.of_nat (length image) = prod (n :: rest) /\
    dftFunction fft scaleC ComplexDft false (n :: rest) image gi' go' g' = Ok values.
Proof.
  intros I L1 L2 L3 L4 L5. assert (Ps := intShape_positive _ I).
  destruct (function_transform InverseComplexDft true n rest (n :: rest) (n :: rest) values gi go g I eq_refl eq_refl L1 L2 L3) as (y & Ey & Ly & Ty).
  exists (map (cscale (/ IZR (prod (n :: rest)))) y). split; [exact Ey|]. split; [rewrite map_length; exact Ly|].
  destruct (function_transform ComplexDft false n rest (n :: rest) (n :: rest) (map (cscale (/ IZR (prod (n :: rest)))) y) gi' go' g' I eq_refl eq_refl L4 L5) as (z & Ez & Lz & Tz); [rewrite map_length; exact Ly|].
  rewrite Ez. f_equal. apply (raster_values (n :: rest)); [exact Ps|exact Lz|exact L3|]. intros k Hk. cbn [TransformOf] in Ty, Tz. rewrite Tz by exact Hk.
  assert (Np : prod (n :: rest) <> 0) by (assert (P := prod_pos _ Ps); lia).
  assert (S : forall c a, cscale c a = cmul (c, 0%R) a) by cring.
  transitivity (cscale (/ IZR (prod (n :: rest))) (dft (n :: rest) (inverseDft (n :: rest) (rasterAt (n :: rest) values)) k)).
  - rewrite S. unfold dft. rewrite <- csum_mul. apply csum_ext. intros p Hp. apply In_domain in Hp. rewrite rasterAt_map by assumption. rewrite Ty by exact Hp. rewrite S. ring.
  - rewrite inversion_inverse by assumption. rewrite cscale_scale, Rinv_l by (apply not_0_IZR; exact Np). apply cscale_1.
Qed.

(** Plans *)
Lemma history_fourier scale ps h p g n rest : History fft scale ps h -> In p ps -> pshape p = n :: rest ->
  TransformOf (ptransform p) n rest (content h (pin p)) (content (planTransform fft p g h) (pout p)).
Proof.
  intros H Hp S. destruct (history_transform fft scale ps h p g fftw_sized H Hp) as [-> _].
  destruct (history_allocated fft scale ps h fftw_sized H p Hp) as [I (si & so & Ei & Eo & Ed & Hi & Ho & N & Li & Lo)].
  unfold planInShape, planOutShape in Ei, Eo. rewrite S in *. assert (Ps := intShape_positive _ I). inversion Ps as [|? ? Hn Hr]; subst.
  destruct (fftw_extents (ptransform p) (n :: rest) I) as (_ & _ & dims & _ & _ & Ed' & _ & _ & _ & Dr). assert (pdims p = rev (n :: rest)) as -> by congruence.
  destruct (in_shape _ n rest si so Hn Ei Eo) as [Pi Po]. apply fftw_transform; [exact Hn|exact Hr|]. lia.
Qed.

Lemma combine_at x y i : length x = length y -> 0 <= i < Z.of_nat (length x) ->
  valueAt (map (fun ab => cmul (fst ab) (snd ab)) (combine x y)) i = cmul (valueAt x i) (valueAt y i).
Proof.
  intros L H. unfold valueAt. rewrite (nth_indep _ czero (cmul (fst (czero, czero)) (snd (czero, czero)))) by (rewrite map_length, combine_length; lia).
  rewrite (map_nth (fun ab : C * C => cmul (fst ab) (snd ab))). rewrite combine_nth by exact L. reflexivity.
Qed.

Lemma filter_convolution t n rest si so values kernel coefficients gi go gi' go' g g' gk gk' gk'' h : IntShape (n :: rest) -> Direct t ->
  dftInShape t (n :: rest) = Ok si -> dftOutShape t (n :: rest) = Ok so ->
  Z.of_nat (length gi) = prod si -> Z.of_nat (length go) = prod so -> Z.of_nat (length gi') = prod so -> Z.of_nat (length go') = prod si ->
  Z.of_nat (length gk) = prod si -> Z.of_nat (length gk') = prod so ->
  Z.of_nat (length values) = prod (n :: rest) -> Forall (Accepted t) values -> Z.of_nat (length kernel) = prod (n :: rest) -> Forall (Accepted t) kernel ->
  dftFunction fft scaleC t false (n :: rest) kernel gk gk' gk'' = Ok coefficients ->
  exists out h', fourierFilter fft scaleC cmul t (n :: rest) values coefficients gi go gi' go' g g' h = Ok (out, h') /\
    Z.of_nat (length out) = prod (n :: rest) /\
    (forall p, InDomain (n :: rest) p -> rasterAt (n :: rest) out p = circular (n :: rest) (rasterAt (n :: rest) values) (rasterAt (n :: rest) kernel) p) /\
    (t = RealDft -> Forall IsReal out) /\
    forall b, (b < length h)%nat -> content h' b = content h b.
Proof.
  intros I D Ei Eo L1 L2 L3 L4 L5 L6 Lv Av Lk Ak Ec. assert (Ps := intShape_positive _ I). inversion Ps as [|? ? Hn Hr]; subst. destruct (in_shape t n rest si so Hn Ei Eo) as [Pi Po].
  destruct (fftw_in_rev t n rest Hn) as [Fi Fo]. destruct (fftw_in_rev (inverseTransform t) n rest Hn) as [Gi Go].
  assert (Pi' : prod si = prod (n :: rest)) by (rewrite Pi, Fi; destruct D as [-> | ->]; reflexivity).
  destruct (function_transform t false n rest si so kernel gk gk' gk'' I Ei Eo L5 L6 ltac:(lia)) as (y & Ey & Ly & Ty). rewrite Ec in Ey. injection Ey as <-.
  destruct (fourier_filter fft scaleC cmul t (n :: rest) si so values coefficients gi go gi' go' g g' h I Ei Eo L1 L2 L3 L4 ltac:(lia)) as (h' & E & F).
  destruct (fftw_transform t n rest values Hn Hr ltac:(lia)) as [Lx Tx]. set (x := fft t (rev (n :: rest)) values) in *.
  set (z := map (fun ab => cmul (fst ab) (snd ab)) (combine x coefficients)) in *. assert (Lz : Z.of_nat (length z) = prod so) by (unfold z; rewrite map_length, combine_length; lia).
  destruct (fftw_transform (inverseTransform t) n rest z Hn Hr) as [Lw Tw]; [rewrite Lz, Po, Fo, Gi; destruct D as [-> | ->]; reflexivity|].
  set (w := fft (inverseTransform t) (rev (n :: rest)) z) in *. assert (Lw' : Z.of_nat (length w) = prod (n :: rest)) by (rewrite Lw, Go; destruct D as [-> | ->]; reflexivity).
  assert (Np : prod (n :: rest) <> 0) by (assert (P := prod_pos _ Ps); lia).
  exists (map (scaleC (1 / inject_Z (prod (n :: rest)))) w), h'. split; [exact E|]. split; [rewrite map_length; exact Lw'|]. split; [|split; [|exact F]].
  - intros p Hp. rewrite rasterAt_map by assumption. rewrite scaleC_inverse_int by exact Np.
    assert (W : rasterAt (n :: rest) w p = cscale (IZR (prod (n :: rest))) (circular (n :: rest) (rasterAt (n :: rest) values) (rasterAt (n :: rest) kernel) p)).
    { rewrite <- convolution_theorem by assumption. destruct D as [-> | ->]; cbn [inverseTransform TransformOf] in Ty, Tx, Tw.
      - destruct Tw as [_ Tw]. apply Tw; [apply hermitian_mul; apply dft_hermitian; try exact Ps; intros q Hq; apply rasterAt_real; assumption| |exact Hp].
        intros k Hk. unfold rasterAt at 1, z. rewrite combine_at; [|lia|].
        + f_equal; [apply (Tx Av k Hk)|apply (Ty Ak k Hk)].
        + assert (B := rank_bounds _ _ Hk). rewrite Lx, Fo. exact B.
      - rewrite Tw by exact Hp. apply inverseDft_ext. intros k Hk. unfold rasterAt at 1, z. rewrite combine_at; [|lia|].
        + f_equal; [apply (Tx k Hk)|apply (Ty k Hk)].
        + assert (B := rank_bounds _ _ Hk). rewrite Lx, Fo. exact B. }
    rewrite W, cscale_scale. rewrite Rinv_l by (apply not_0_IZR; exact Np). apply cscale_1.
  - intros ->. cbn [inverseTransform TransformOf] in Tw. destruct Tw as [Rw _]. apply Forall_forall. intros a Ha. apply in_map_iff in Ha as (b & <- & Hb).
    rewrite Forall_forall in Rw. specialize (Rw b Hb). unfold IsReal in *. unfold scaleC, cscale. cbn [snd]. rewrite Rw. ring.
Qed.
End Fftw.

(** Convolution with margins *)
Lemma circular_linear s a b f g p : Positive s -> InDomain s p -> Forall2 (fun n ab => fst ab + snd ab - 1 <= n) s (combine a b) -> length a = length s -> length b = length s ->
  NullOut a f -> NullOut b g -> circular s f g p = linear s f g p.
Proof.
  intros Ps Hp H La Lb Fa Gb. apply csum_ext. intros q Hq. apply In_domain in Hq.
  assert (Dec : forall s p, InDomain s p \/ ~ InDomain s p).
  { clear. induction s as [|n s IH]; intros [|x p]; try (right; inversion 1; fail); [left; constructor|].
    destruct (IH p) as [Y|N]; [|right; inversion 1; contradiction]. destruct (Z_le_gt_dec 0 x), (Z_lt_le_dec x n); try (right; inversion 1; lia). left. constructor; [lia|exact Y]. }
  destruct (Dec a q) as [Ha|Ha]; [|rewrite (Fa q Ha); ring].
  assert (K : wrap s (minus p q) = minus p q \/ (~ InDomain b (wrap s (minus p q)) /\ ~ InDomain b (minus p q))).
  { clear - Hp Hq H Ha La Lb. revert a b p q Hp Hq H Ha La Lb. induction s as [|n s IH]; intros [|x a] [|y b] p q Hp Hq H Ha La Lb; cbn in La, Lb; try lia.
    - inversion Hp; subst. inversion Hq; subst. left. reflexivity.
    - inversion Hp as [|? u ? p' Hu Hp']; subst. inversion Hq as [|? v ? q' Hv Hq']; subst. inversion Ha as [|? ? ? ? Hx Ha']; subst.
      cbn [combine] in H. inversion H as [|? ? ? ? Hn H']; subst. cbn [fst snd] in Hn. cbn [wrap minus]. destruct (IH a b p' q' Hp' Hq' H' Ha' ltac:(lia) ltac:(lia)) as [E|[E1 E2]].
      + rewrite E. destruct (Z_le_gt_dec 0 (u - v)).
        * left. rewrite Z.mod_small by lia. reflexivity.
        * right. split; inversion 1; subst; [|lia]. assert (M : (u - v) mod n = u - v + n) by (symmetry; apply (Z.mod_unique (u - v) n (-1)); lia). lia.
      + right. split; inversion 1; subst; contradiction. }
  destruct K as [->|[K1 K2]]; [reflexivity|]. rewrite (Gb _ K1), (Gb _ K2). reflexivity.
Qed.

(** Transforms by sums comply with the documentation *)
Lemma domain_nth s p d : Positive s -> InDomain s p -> nth (Z.to_nat (rank s p)) (domain s) d = p.
Proof.
  intros P H. assert (B := rank_bounds s p H). assert (E := domain_rank s P).
  assert (Ld : Z.of_nat (length (domain s)) = prod s) by (rewrite <- (map_length (rank s)), E, zrange_length; lia).
  assert (In (nth (Z.to_nat (rank s p)) (domain s) d) (domain s)) as I by (apply nth_In; lia). apply In_domain in I.
  apply (rank_inj s); [exact I|exact H|]. rewrite <- (map_nth (rank s)), E. apply nth_error_nth. rewrite nth_error_zrange.
  replace (0 + Z.of_nat (Z.to_nat (rank s p)) <=? prod s - 1) with true by lia. f_equal. lia.
Qed.

Lemma domain_count s : Positive s -> Z.of_nat (length (domain s)) = prod s.
Proof. intros P. rewrite <- (map_length (rank s)), domain_rank, zrange_length by exact P. assert (H := prod_pos s P). lia. Qed.

Lemma order_count dims : Positive dims -> Z.of_nat (length (rowMajorOrder dims)) = prod dims.
Proof. intros P. unfold rowMajorOrder. rewrite map_length, domain_count, prod_rev by (apply Positive_rev; exact P). reflexivity. Qed.

Lemma order_at dims F k : Positive dims -> InDomain dims k -> fftwAt dims (map F (rowMajorOrder dims)) k = F k.
Proof.
  intros P H. unfold fftwAt, valueAt, rowMajorOrder. rewrite map_map. rewrite rowMajor_rank by (apply InDomain_length; exact H).
  assert (H' := InDomain_rev _ _ H). assert (P' := Positive_rev _ P). assert (B := rank_bounds _ _ H'). assert (L := domain_count _ P').
  rewrite (nth_indep _ czero (F (rev []))) by (rewrite map_length; lia). rewrite (map_nth (fun x => F (rev x))), domain_nth by assumption. rewrite rev_involutive. reflexivity.
Qed.

Lemma halfLast_positive dims : Positive dims -> Positive (halfLast dims).
Proof.
  intros P. unfold halfLast. assert (P' := Positive_rev _ P). destruct (rev dims) as [|n r]; [constructor|]. inversion P' as [|? ? Hn Hr]; subst.
  apply Positive_rev. constructor; [|exact Hr]. assert (0 <= n / 2) by (apply Z.div_pos; lia). lia.
Qed.

Lemma halfLast_prod dims : prod (halfLast dims) = fftwComplex dims.
Proof. unfold halfLast, fftwComplex. destruct (rev dims) as [|n r]; [reflexivity|]. rewrite prod_rev, prod_cons. reflexivity. Qed.

Lemma last_rev (l : list Z) d : last (rev l) d = match l with [] => d | x :: _ => x end.
Proof. destruct l as [|x l]; [reflexivity|]. cbn [rev]. apply last_last. Qed.

Lemma restored_ok dims f x k : Positive dims -> Hermitian dims f -> (forall k, InDomain (halfLast dims) k -> fftwAt (halfLast dims) x k = f k) ->
  InDomain dims k -> restored dims x k = f k.
Proof.
  intros P Hf Hx Hk. unfold restored. rewrite <- (rev_involutive dims) in *. rewrite <- (rev_involutive k) in *. revert P Hf Hx Hk. generalize (rev dims) as s, (rev k) as q. intros s q P Hf Hx Hk.
  assert (P' := Positive_rev _ P). assert (Hq := InDomain_rev _ _ Hk). rewrite !rev_involutive in *. destruct s as [|n s].
  - inversion Hq; subst. cbn [rev last]. cbn [Z.leb Z.compare Z.div]. apply Hx. constructor.
  - inversion Hq as [|? y ? q' Hy Hq']; subst. inversion P' as [|? ? Hn Ps]; subst. rewrite halfLast_rev in *. rewrite !last_rev. destruct (Z.leb_spec y (n / 2)) as [L|L].
    + apply Hx. apply InDomain_rev. constructor; [lia|exact Hq'].
    + assert (Lq := InDomain_length _ _ Hq). rewrite Hx.
      * rewrite Hf by exact Hk. unfold conj. cbn [fst snd]. rewrite Ropp_involutive. symmetry. apply C_eta.
      * rewrite map_rev, wrap_rev by (rewrite map_length; exact Lq). apply InDomain_rev. cbn [map wrap]. constructor.
        -- assert (M : (- y) mod n = n - y) by (symmetry; apply (Z.mod_unique (- y) n (-1)); assert (0 <= n / 2) by (apply Z.div_pos; lia); lia). rewrite M.
           assert (n = 2 * (n / 2) + n mod 2) by (apply Z.div_mod; lia). assert (0 <= n mod 2 < 2) by (apply Z.mod_pos_bound; lia). lia.
        -- apply opposite_domain; assumption.
Qed.

Lemma exact_fftw : IsFftw exactFft.
Proof.
  intros t dims x P L. assert (Ph := halfLast_positive _ P). destruct t; cbn [exactFft fftwOut FftwComputes].
  - rewrite map_length, order_count, halfLast_prod by exact Ph. split; [reflexivity|]. intros _ k Hk. apply order_at; assumption.
  - rewrite map_length, order_count by exact P. split; [reflexivity|]. split.
    + apply Forall_forall. intros a Ha. apply in_map_iff in Ha as (p & <- & _). reflexivity.
    + intros f Hf Hx p Hp. rewrite order_at by assumption. rewrite (inverseDft_ext dims (restored dims x) f) by (intros k Hk; apply restored_ok; assumption).
      assert (R := hermitian_real dims f p P Hf). unfold IsReal in R. rewrite (C_eta (inverseDft dims f p)) at 2. rewrite R. reflexivity.
  - rewrite map_length, order_count by exact P. split; [reflexivity|]. intros k Hk. apply order_at; assumption.
  - rewrite map_length, order_count by exact P. split; [reflexivity|]. intros k Hk. apply order_at; assumption.
Qed.
