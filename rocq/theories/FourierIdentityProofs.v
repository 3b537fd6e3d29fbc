(** Identities between the transforms of related rasters. *)
From Coq Require Import Reals QArith Qreals Lra Permutation.
From Verif Require Import Res Lemmas VecModel DftModel Spec DftSpec FourierSpec FourierIdentitySpec IndexProofs BoxIterProofs ViewProofs KernelProofs DftProofs FourierProofs.
Open Scope Z_scope.

(** Sums *)
Lemma dft_linear s a b f g k : dft s (fun p => cadd (cmul a (f p)) (cmul b (g p))) k = cadd (cmul a (dft s f k)) (cmul b (dft s g k)).
Proof. unfold dft. rewrite <- !csum_mul, <- csum_add. apply csum_ext. intros p _. ring. Qed.

Lemma inverse_linear s a b f g k : inverseDft s (fun p => cadd (cmul a (f p)) (cmul b (g p))) k = cadd (cmul a (inverseDft s f k)) (cmul b (inverseDft s g k)).
Proof. unfold inverseDft. rewrite <- !csum_mul, <- csum_add. apply csum_ext. intros p _. ring. Qed.

Lemma domain_zero s : Positive s -> InDomain s (map (fun _ => 0) s).
Proof. induction 1; cbn [map]; constructor; [lia|assumption]. Qed.

Lemma phase_zero s p : phase s p (map (fun _ => 0) s) = 0%R.
Proof.
  revert p. induction s as [|n s IH]; intros [|x p]; cbn [map phase]; try reflexivity. rewrite IH, Z.mul_0_r. unfold Rdiv. ring.
Qed.

Lemma dft_zero s f : dft s f (map (fun _ => 0) s) = csum (domain s) f.
Proof. apply csum_ext. intros p _. rewrite phase_zero, Rmult_0_r, Ropp_0, cis_0. ring. Qed.

Lemma csum_total s x : Positive s -> Z.of_nat (length x) = prod s -> csum (domain s) (rasterAt s x) = total x.
Proof.
  intros P L. unfold rasterAt. rewrite <- (csum_map (rank s) (valueAt x)), (domain_rank s P), <- L. clear.
  unfold csum, total. rewrite <- (map_id x) at 2. 
  assert (E : map (valueAt x) (zrange 0 (Z.of_nat (length x) - 1)) = x).
  { apply (nth_ext _ _ czero czero).
    - rewrite map_length. unfold zrange. rewrite map_length, seq_length. lia.
    - intros i Hi. rewrite map_length in Hi. unfold zrange in *. rewrite map_length, seq_length in Hi.
      rewrite (nth_indep _ czero (valueAt x (0 + Z.of_nat 0))) by (rewrite !map_length, seq_length; lia).
      rewrite (map_nth (valueAt x)), (map_nth (fun i => 0 + Z.of_nat i)), seq_nth by lia. unfold valueAt. f_equal. lia. }
  rewrite map_id. rewrite <- E at 2. generalize (zrange 0 (Z.of_nat (length x) - 1)) as l. induction l as [|z l IH]; cbn [fold_right map]; [reflexivity|]. rewrite IH. reflexivity.
Qed.

Lemma energy_total x : total (map (fun a => cmul a (conj a)) x) = (energy x, 0%R).
Proof.
  induction x as [|a x IH]; [reflexivity|]. cbn [map]. change (total (?u :: ?v)) with (cadd u (total v)). rewrite IH.
  change (energy (a :: x)) with (power a + energy x)%R. unfold power. cunfold. f_equal; ring.
Qed.

Lemma csum_energy s x : Positive s -> Z.of_nat (length x) = prod s -> csum (domain s) (fun p => cmul (rasterAt s x p) (conj (rasterAt s x p))) = (energy x, 0%R).
Proof.
  intros P L. rewrite <- energy_total, <- (csum_total s) by (try exact P; rewrite map_length; exact L). apply csum_ext. intros p Hp. apply In_domain in Hp.
  rewrite rasterAt_map by assumption. reflexivity.
Qed.

(** Shifts *)
Lemma wrap_minus_injective s d p q : length d = length s -> InDomain s p -> InDomain s q -> wrap s (minus p d) = wrap s (minus q d) -> p = q.
Proof.
  intros L P. revert d L q. induction P as [|n x s p H HP IH]; intros d L q Q E; inversion Q as [|? y ? q' Hy HQ]; subst; [reflexivity|].
  destruct d as [|z d]; [discriminate|]. cbn [minus wrap] in E. injection E as E1 E2. f_equal.
  - rewrite <- (Z.mod_small x n), <- (Z.mod_small y n) by assumption. replace x with ((x - z) + z) by lia. replace y with ((y - z) + z) by lia.
    rewrite <- (Zplus_mod_idemp_l (x - z)), E1, Zplus_mod_idemp_l. reflexivity.
  - eapply IH; [|exact HQ|exact E2]. cbn in L. lia.
Qed.

Lemma minus_domain s d p : Positive s -> length d = length s -> InDomain s p -> InDomain s (wrap s (minus p d)).
Proof. intros P L H. assert (L' := InDomain_length _ _ H). apply wrap_domain; [exact P|]. rewrite minus_length by lia. exact L'. Qed.

Lemma NoDup_map_on {A B} (f : A -> B) l : (forall a b, In a l -> In b l -> f a = f b -> a = b) -> NoDup l -> NoDup (map f l).
Proof.
  intros I N. induction N as [|a l Ha N IH]; cbn [map]; constructor.
  - intros H. apply in_map_iff in H as (b & E & Hb). apply Ha. rewrite (I a b); [exact Hb|left; reflexivity|right; exact Hb|symmetry; exact E].
  - apply IH. intros b c Hb Hc. apply I; right; assumption.
Qed.

Lemma domain_shift s d : Positive s -> length d = length s -> Permutation (map (fun p => wrap s (minus p d)) (domain s)) (domain s).
Proof.
  intros P L. apply NoDup_Permutation_bis.
  - apply NoDup_map_on; [|apply domain_NoDup]. intros p q Hp Hq. apply wrap_minus_injective; [exact L| |]; apply In_domain; assumption.
  - rewrite map_length. lia.
  - intros k H. apply in_map_iff in H as (p & <- & Hp). apply In_domain. apply minus_domain; [exact P|exact L|]. apply In_domain. exact Hp.
Qed.

Lemma dft_shift s d f k : Positive s -> length d = length s ->
  dft s (fun p => f (wrap s (minus p d))) k = cmul (cis (- (2 * PI * phase s d k))) (dft s f k).
Proof.
  intros P L. unfold dft. rewrite <- (csum_permutation (fun p => cmul (f p) (cis (- (2 * PI * phase s p k)))) _ _ (domain_shift s d P L)), csum_map, <- csum_mul. apply csum_ext. intros p Hp.
  apply In_domain, InDomain_length in Hp. rewrite (cis_opp (2 * PI * phase s (wrap s (minus p d)) k)), cis_wrap, phase_minus, <- cis_opp by (try exact P; lia).
  replace (- (2 * PI * phase s p k))%R with (- (2 * PI * phase s d k) + - (2 * PI * (phase s p k - phase s d k)))%R by ring. rewrite cis_add. ring.
Qed.

(** Conjugates *)
Lemma inverse_conj s f k : inverseDft s f k = conj (dft s (fun p => conj (f p)) k).
Proof.
  unfold inverseDft, dft. rewrite <- csum_conj. apply csum_ext. intros p _. rewrite conj_mul, <- cis_opp, Ropp_involutive, phase_comm. f_equal. cring.
Qed.

(** Parseval *)
Lemma parseval s f : Positive s -> csum (domain s) (fun k => cmul (dft s f k) (conj (dft s f k))) = cscale (IZR (prod s)) (csum (domain s) (fun p => cmul (f p) (conj (f p)))).
Proof.
  intros P. assert (S : forall c a, cscale c a = cmul (c, 0%R) a) by cring.
  transitivity (csum (domain s) (fun k => csum (domain s) (fun p => cmul (f p) (cmul (cis (- (2 * PI * phase s p k))) (conj (dft s f k)))))).
  - apply csum_ext. intros k _. assert (K : forall u v, cmul u v = cmul v u) by (intros; ring). rewrite K. unfold dft at 2. rewrite <- csum_mul. apply csum_ext. intros p _. ring.
  - rewrite csum_swap, S, <- csum_mul. apply csum_ext. intros p Hp. apply In_domain in Hp. rewrite csum_mul.
    assert (E := inversion_dft s f p P Hp). unfold inverseDft in E. apply (f_equal conj) in E. rewrite <- csum_conj in E.
    assert (E' : csum (domain s) (fun k => cmul (cis (- (2 * PI * phase s p k))) (conj (dft s f k))) = conj (cscale (IZR (prod s)) (f p))).
    { rewrite <- E. apply csum_ext. intros k _. rewrite conj_mul, <- cis_opp. ring. }
    rewrite E'. cring.
Qed.

(** Sums of reals *)
Lemma rsum_permutation {A} (f : A -> R) l l' : Permutation l l' -> rsum l f = rsum l' f.
Proof. unfold rsum. induction 1; cbn [fold_right]; [reflexivity| | |congruence]; [rewrite IHPermutation; reflexivity|ring]. Qed.

Lemma rsum_map {A B} (h : A -> B) (f : B -> R) l : rsum (map h l) f = rsum l (fun a => f (h a)).
Proof. unfold rsum. induction l as [|a l IH]; cbn [map fold_right]; [reflexivity|]. rewrite IH. reflexivity. Qed.

Lemma rsum_ext {A} (f g : A -> R) l : (forall a, In a l -> f a = g a) -> rsum l f = rsum l g.
Proof. unfold rsum. intros H. induction l as [|a l IH]; cbn [fold_right]; [reflexivity|]. rewrite (H a), IH; [reflexivity| |left; reflexivity]. intros b Hb. apply H. right. exact Hb. Qed.

Lemma rsum_split {A} (b : A -> bool) (f : A -> R) l : rsum l f = (rsum (filter b l) f + rsum (filter (fun a => negb (b a)) l) f)%R.
Proof.
  unfold rsum. induction l as [|a l IH]; cbn [filter fold_right]; [ring|]. rewrite IH. destruct (b a); cbn [negb fold_right]; ring.
Qed.

Lemma rsum_csum {A} (f : A -> C) l : fst (csum l (fun a => cmul (f a) (conj (f a)))) = rsum l (fun a => power (f a)).
Proof.
  unfold csum, rsum. induction l as [|a l IH]; cbn [fold_right]; [reflexivity|]. rewrite <- IH. unfold power. cunfold. ring.
Qed.

Lemma power_conj a : power (conj a) = power a.
Proof. unfold power, conj. cbn [fst snd]. ring. Qed.

Lemma half_order n rest k : 0 < n -> Positive rest -> (InDomain (n / 2 + 1 :: rest) k <-> InDomain (n :: rest) k /\ hd 0 k <= n / 2).
Proof.
  intros Hn P. split.
  - intros H. split; [apply half_domain; assumption|]. inversion H; subst. cbn [hd]. lia.
  - intros [H L]. inversion H as [|? x ? q Hx Hq]; subst. cbn [hd] in L. constructor; [lia|exact Hq].
Qed.

Lemma half_permutation n rest : 0 < n -> Positive rest -> Permutation (filter (fun k => hd 0 k <=? n / 2) (domain (n :: rest))) (domain (n / 2 + 1 :: rest)).
Proof.
  intros Hn P. apply NoDup_Permutation; [apply NoDup_filter, domain_NoDup|apply domain_NoDup|]. intros k. rewrite filter_In, !In_domain, half_order by assumption. rewrite Z.leb_le. reflexivity.
Qed.

Lemma other_half_permutation n rest : 0 < n -> Positive rest ->
  Permutation (map (fun k => wrap (n :: rest) (map Z.opp k)) (filter (fun k => negb (hd 0 k <=? n / 2)) (domain (n :: rest))))
    (filter (fun k => negb ((hd 0 k =? 0) || (2 * hd 0 k =? n))) (domain (n / 2 + 1 :: rest))).
Proof.
  intros Hn P. assert (Ps : Positive (n :: rest)) by (constructor; assumption).
  assert (En : n = 2 * (n / 2) + n mod 2) by (apply Z.div_mod; lia). assert (Bn : 0 <= n mod 2 < 2) by (apply Z.mod_pos_bound; lia).
  assert (M : forall x, 0 < x < n -> (- x) mod n = n - x) by (intros x Hx; symmetry; apply Z.mod_unique with (-1); lia).
  apply NoDup_Permutation.
  - apply NoDup_map_on; [|apply NoDup_filter, domain_NoDup]. intros p q Hp Hq E. apply filter_In in Hp as [Hp _], Hq as [Hq _]. apply In_domain in Hp, Hq.
    rewrite <- (wrap_opp_twice (n :: rest) p), E, wrap_opp_twice by assumption. reflexivity.
  - apply NoDup_filter, domain_NoDup.
  - intros k. rewrite in_map_iff, filter_In, In_domain, half_order by assumption. split.
    + intros (q & <- & Hq). apply filter_In in Hq as [Hq L]. apply In_domain in Hq. split; [split|].
      * apply opposite_domain; assumption.
      * inversion Hq as [|? x ? r Hx Hr]; subst. cbn [hd wrap map] in *. rewrite M by lia. lia.
      * inversion Hq as [|? x ? r Hx Hr]; subst. cbn [hd wrap map] in *. rewrite M by lia. lia.
    + intros [[Hk Hl] N]. exists (wrap (n :: rest) (map Z.opp k)). split; [apply wrap_opp_twice; exact Hk|]. apply filter_In. split; [apply In_domain, opposite_domain; assumption|].
      inversion Hk as [|? x ? r Hx Hr]; subst. cbn [hd wrap map] in *. rewrite M by lia. lia.
Qed.

(** Functions *)
Lemma valueAt_combination a b x y i : length x = length y -> 0 <= i < Z.of_nat (length x) -> valueAt (combination a b x y) i = cadd (cmul a (valueAt x i)) (cmul b (valueAt y i)).
Proof.
  intros L H. unfold valueAt, combination. set (f := fun uv : C * C => cadd (cmul a (fst uv)) (cmul b (snd uv))).
  rewrite (nth_indep _ czero (f (czero, czero))) by (rewrite map_length, combine_length; lia). rewrite (map_nth f), combine_nth by exact L. reflexivity.
Qed.

Lemma combination_length a b x y : length x = length y -> length (combination a b x y) = length x.
Proof. intros L. unfold combination. rewrite map_length, combine_length. lia. Qed.

Lemma rasterAt_combination a b s x y p : Z.of_nat (length x) = prod s -> length x = length y -> InDomain s p ->
  rasterAt s (combination a b x y) p = cadd (cmul a (rasterAt s x p)) (cmul b (rasterAt s y p)).
Proof. intros L L' H. apply valueAt_combination; [exact L'|]. rewrite L. apply rank_bounds. exact H. Qed.

Lemma shapes t n rest si so : 0 < n -> dftInShape t (n :: rest) = Ok si -> dftOutShape t (n :: rest) = Ok so -> si = inDomain t n rest /\ so = outDomain t n rest.
Proof.
  intros Hn Ei Eo. assert (H := halved_cons n rest ltac:(lia)). destruct t; cbn [dftInShape dftOutShape inDomain outDomain] in *; rewrite ?H in *; split; congruence.
Qed.

Definition factor (normalized : bool) (s : list Z) : C := if normalized then (/ IZR (prod s), 0)%R else cone.

Section Fftw.
Variable fft : transform -> list Z -> list C -> list C.
Hypothesis Fft : IsFftw fft.

Lemma gives_transform t nm n rest x y : IntShape (n :: rest) -> Gives fft t nm (n :: rest) x y -> Z.of_nat (length x) = prod (inDomain t n rest) /\
  exists u, y = map (cmul (factor nm (n :: rest))) u /\ Z.of_nat (length u) = prod (outDomain t n rest) /\ TransformOf t n rest x u.
Proof.
  intros I (si & so & Ei & Eo & Lx & G). assert (Ps := intShape_positive _ I). inversion Ps as [|? ? Hn Hr]; subst.
  destruct (shapes t n rest si so Hn Ei Eo) as [Si So]. rewrite Si in Lx. split; [exact Lx|]. rewrite <- So.
  assert (Li : forall m, 0 <= m -> Z.of_nat (length (repeat czero (Z.to_nat m))) = m) by (intros m Hm; rewrite repeat_length; lia).
  assert (Pi : 0 < prod si /\ 0 < prod so).
  { assert (0 <= n / 2) by (apply Z.div_pos; lia). subst si so. split; apply prod_pos; destruct t; constructor; cbn; try lia; exact Hr. }
  specialize (G _ _ [] (Li (prod si) ltac:(lia)) (Li (prod so) ltac:(lia))).
  destruct (function_transform fft Fft t nm n rest si so x _ _ [] I Ei Eo (Li (prod si) ltac:(lia)) (Li (prod so) ltac:(lia))) as (u & Eu & Lu & T); [rewrite Si; exact Lx|].
  exists u. split; [|split; assumption]. assert (y = if nm then map (cscale (/ IZR (prod (n :: rest)))) u else u) as -> by congruence. destruct nm.
  - apply map_ext. intros a. unfold factor, cscale, cmul. cbn [fst snd]. f_equal; ring.
  - rewrite <- (map_id u) at 1. apply map_ext. intros a. unfold factor. ring.
Qed.

Lemma transform_gives t nm n rest x u : IntShape (n :: rest) -> Z.of_nat (length x) = prod (inDomain t n rest) -> Z.of_nat (length u) = prod (outDomain t n rest) ->
  (forall v, Z.of_nat (length v) = prod (outDomain t n rest) -> TransformOf t n rest x v -> v = u) -> Gives fft t nm (n :: rest) x (map (cmul (factor nm (n :: rest))) u).
Proof.
  intros I Lx Lu H. assert (Ps := intShape_positive _ I). inversion Ps as [|? ? Hn Hr]; subst.
  destruct (dftInShape t (n :: rest)) as [si| |] eqn:Ei; [|destruct t; cbn [dftInShape] in Ei; rewrite ?halved_cons in Ei by lia; discriminate..].
  destruct (dftOutShape t (n :: rest)) as [so| |] eqn:Eo; [|destruct t; cbn [dftOutShape] in Eo; rewrite ?halved_cons in Eo by lia; discriminate..].
  destruct (shapes t n rest si so Hn Ei Eo) as [Si So]. exists si, so. split; [exact Ei|]. split; [exact Eo|]. split; [rewrite Si; exact Lx|]. intros gi go g Lgi Lgo.
  destruct (function_transform fft Fft t nm n rest si so x gi go g I Ei Eo Lgi Lgo) as (v & Ev & Lv & T); [rewrite Si; exact Lx|].
  rewrite So in Lv. specialize (H v Lv T). subst v. rewrite Ev. f_equal. destruct nm.
  - apply map_ext. intros a. unfold factor, cscale, cmul. cbn [fst snd]. f_equal; ring.
  - rewrite <- (map_id u) at 1. apply map_ext. intros a. unfold factor. ring.
Qed.

(** The value at each position *)
Definition coefficient (t : transform) (n : Z) (rest : list Z) (x : list C) : list Z -> C :=
  match t with InverseComplexDft => inverseDft (n :: rest) (rasterAt (n :: rest) x) | _ => dft (n :: rest) (rasterAt (n :: rest) x) end.

Lemma gives_at t nm n rest x y k : t <> InverseRealDft -> IntShape (n :: rest) -> Forall (Accepted t) x -> Gives fft t nm (n :: rest) x y ->
  InDomain (outDomain t n rest) k -> rasterAt (outDomain t n rest) y k = cmul (factor nm (n :: rest)) (coefficient t n rest x k).
Proof.
  intros Nt I A G H. destruct (gives_transform t nm n rest x y I G) as (Lx & u & -> & Lu & T). rewrite rasterAt_map by assumption. f_equal.
  destruct t; cbn [TransformOf outDomain coefficient] in *; [apply T; assumption|contradiction|apply T; assumption..].
Qed.

Lemma gives_length t nm n rest x y : IntShape (n :: rest) -> Gives fft t nm (n :: rest) x y -> Z.of_nat (length y) = prod (outDomain t n rest).
Proof. intros I G. destruct (gives_transform t nm n rest x y I G) as (_ & u & -> & Lu & _). rewrite map_length. exact Lu. Qed.

Lemma out_positive t n rest : IntShape (n :: rest) -> Positive (outDomain t n rest).
Proof. intros I. assert (Ps := intShape_positive _ I). inversion Ps as [|? ? Hn Hr]; subst. assert (0 <= n / 2) by (apply Z.div_pos; lia). destruct t; constructor; try lia; exact Hr. Qed.

Lemma in_positive t n rest : IntShape (n :: rest) -> Positive (inDomain t n rest).
Proof. intros I. assert (Ps := intShape_positive _ I). inversion Ps as [|? ? Hn Hr]; subst. assert (0 <= n / 2) by (apply Z.div_pos; lia). destruct t; constructor; try lia; exact Hr. Qed.

Lemma real_combination a b x y : IsReal a -> IsReal b -> Forall IsReal x -> Forall IsReal y -> Forall IsReal (combination a b x y).
Proof.
  unfold IsReal, combination. intros A B X Y. apply Forall_forall. intros z H. apply in_map_iff in H as ([u v] & <- & H). cbn [fst snd].
  rewrite Forall_forall in X, Y. assert (U := X _ (in_combine_l _ _ _ _ H)). assert (V := Y _ (in_combine_r _ _ _ _ H)). cunfold. rewrite A, B, U, V. ring.
Qed.

Lemma gives_linear t nm n rest a b x x' y y' : IntShape (n :: rest) -> Valid t n rest x -> Valid t n rest x' ->
  (t = RealDft \/ t = InverseRealDft -> IsReal a /\ IsReal b) ->
  Gives fft t nm (n :: rest) x y -> Gives fft t nm (n :: rest) x' y' -> Gives fft t nm (n :: rest) (combination a b x x') (combination a b y y').
Proof.
  intros I V V' R G G'. destruct (gives_transform t nm n rest x y I G) as (Lx & u & Ey & Lu & T). destruct (gives_transform t nm n rest x' y' I G') as (Lx' & u' & Ey' & Lu' & T').
  assert (Lc : length u = length u') by lia. assert (Lxx : length x = length x') by lia.
  assert (combination a b y y' = map (cmul (factor nm (n :: rest))) (combination a b u u')) as ->.
  { subst y y'. unfold combination. clear - Lc. revert u' Lc. induction u as [|v u IH]; intros [|v' u'] L; try discriminate; [reflexivity|]. cbn [map combine].
    rewrite IH by (cbn in L; lia). f_equal. cbn [fst snd]. ring. }
  apply transform_gives; [exact I|rewrite combination_length by lia; exact Lx|rewrite combination_length by lia; exact Lu|]. intros v Lv Tv.
  apply (raster_values (outDomain t n rest)); [apply out_positive; exact I|exact Lv|rewrite combination_length by lia; exact Lu|]. intros k Hk.
  rewrite rasterAt_combination by assumption. destruct t; cbn [TransformOf outDomain inDomain Valid] in *.
  - destruct (R (or_introl eq_refl)) as [Ra Rb]. rewrite Tv by (try exact Hk; apply real_combination; assumption). rewrite T, T' by assumption.
    rewrite <- dft_linear. apply dft_ext. intros p Hp. apply rasterAt_combination; assumption.
  - destruct (R (or_intror eq_refl)) as [Ra Rb]. destruct V as (f & Hf & Ef), V' as (f' & Hf' & Ef'). destruct T as [_ T], T' as [_ T'], Tv as [_ Tv].
    rewrite (T f Hf Ef k Hk), (T' f' Hf' Ef' k Hk), <- inverse_linear. apply Tv; [|intros q Hq; rewrite <- Ef, <- Ef' by exact Hq; apply rasterAt_combination; assumption|exact Hk].
    intros q Hq. rewrite Hf, Hf' by exact Hq. rewrite <- (conj_real a Ra) at 1. rewrite <- (conj_real b Rb) at 1. cring.
  - rewrite Tv, T, T' by exact Hk. rewrite <- dft_linear. apply dft_ext. intros p Hp. apply rasterAt_combination; assumption.
  - rewrite Tv, T, T' by exact Hk. rewrite <- inverse_linear. apply inverseDft_ext. intros p Hp. apply rasterAt_combination; assumption.
Qed.

(** Halves *)
Lemma factor_real nm s : conj (factor nm s) = factor nm s.
Proof. apply conj_real. destruct nm; reflexivity. Qed.

Lemma accepted_complex x : Forall (Accepted ComplexDft) x.
Proof. apply Forall_forall. intros; exact Logic.I. Qed.

Lemma half_symmetric n rest k : Positive (n :: rest) -> InDomain (n :: rest) k -> ~ hd 0 k <= n / 2 -> InDomain (n / 2 + 1 :: rest) (wrap (n :: rest) (map Z.opp k)).
Proof.
  intros P H N. inversion H as [|? x ? q Hx Hq]; subst. inversion P as [|? ? Hn Hr]; subst. cbn [hd map wrap] in *. constructor; [|apply opposite_domain; assumption].
  assert (n = 2 * (n / 2) + n mod 2) by (apply Z.div_mod; lia). assert (0 <= n mod 2 < 2) by (apply Z.mod_pos_bound; lia).
  replace ((- x) mod n) with (n - x); [lia|]. apply Z.mod_unique with (-1); lia.
Qed.

Lemma half_first n rest k : InDomain (n :: rest) k -> hd 0 k <= n / 2 -> InDomain (n / 2 + 1 :: rest) k.
Proof. intros H L. inversion H as [|? x ? q Hx Hq]; subst. cbn [hd] in L. constructor; [lia|exact Hq]. Qed.

Lemma real_half nm n rest x y z : IntShape (n :: rest) -> Forall IsReal x -> Gives fft RealDft nm (n :: rest) x y -> Gives fft ComplexDft nm (n :: rest) x z ->
  forall k, InDomain (n :: rest) k ->
    (hd 0 k <= n / 2 -> InDomain (n / 2 + 1 :: rest) k /\ rasterAt (n :: rest) z k = rasterAt (n / 2 + 1 :: rest) y k) /\
    (~ hd 0 k <= n / 2 -> InDomain (n / 2 + 1 :: rest) (wrap (n :: rest) (map Z.opp k)) /\
      rasterAt (n :: rest) z k = conj (rasterAt (n / 2 + 1 :: rest) y (wrap (n :: rest) (map Z.opp k)))).
Proof.
  intros I R G G' k Hk. assert (Ps := intShape_positive _ I). assert (Gz := gives_at ComplexDft nm n rest x z k ltac:(discriminate) I (accepted_complex x) G' Hk).
  assert (Gy := fun q => gives_at RealDft nm n rest x y q ltac:(discriminate) I R G). cbn [outDomain coefficient] in *.
  destruct (gives_transform RealDft nm n rest x y I G) as (Lx & _). cbn [inDomain] in Lx.
  split; intros L.
  - assert (H := half_first n rest k Hk L). split; [exact H|]. rewrite Gz, Gy by exact H. reflexivity.
  - assert (H := half_symmetric n rest k Ps Hk L). split; [exact H|]. rewrite Gz, Gy by exact H. rewrite conj_mul, factor_real. f_equal.
    rewrite (dft_hermitian (n :: rest)); [symmetry; cring|exact Ps| |exact Hk]. intros p Hp. apply rasterAt_real; assumption.
Qed.

(** Moved rasters *)
Lemma moved_real shape d x x' : Positive shape -> length d = length shape -> Z.of_nat (length x) = prod shape -> Moved shape d x x' -> Forall IsReal x -> Forall IsReal x'.
Proof.
  intros P Ld L [L' M] R. apply Forall_forall. intros a H. apply (In_nth _ _ czero) in H as (i & Hi & <-).
  assert (D := unrank_domain shape (Z.of_nat i) P). assert (E := M _ D). unfold rasterAt at 1, valueAt in E. rewrite rank_unrank in E by (try exact P; lia). rewrite Nat2Z.id in E.
  rewrite E. apply rasterAt_real; [exact L|exact R|]. apply minus_domain; assumption.
Qed.

Lemma moved_transform t nm n rest d x x' y y' : IntShape (n :: rest) -> Direct t -> Forall (Accepted t) x -> length d = length (n :: rest) -> Moved (n :: rest) d x x' ->
  Gives fft t nm (n :: rest) x y -> Gives fft t nm (n :: rest) x' y' ->
  forall k, InDomain (outDomain t n rest) k -> rasterAt (outDomain t n rest) y' k = cmul (cis (- (2 * PI * phase (n :: rest) d k))) (rasterAt (outDomain t n rest) y k).
Proof.
  intros I D A Ld M G G' k Hk. assert (Ps := intShape_positive _ I). assert (Nt : t <> InverseRealDft) by (destruct D; subst; discriminate).
  destruct (gives_transform t nm n rest x y I G) as (Lx & _).
  assert (A' : Forall (Accepted t) x').
  { destruct D; subst t; [|apply accepted_complex]. eapply moved_real; [exact Ps|exact Ld| |exact M|exact A]. exact Lx. }
  rewrite (gives_at t nm n rest x y k), (gives_at t nm n rest x' y' k) by assumption. assert (coefficient t n rest x' k = cmul (cis (- (2 * PI * phase (n :: rest) d k))) (coefficient t n rest x k)) as ->.
  { assert (E : dft (n :: rest) (rasterAt (n :: rest) x') k = cmul (cis (- (2 * PI * phase (n :: rest) d k))) (dft (n :: rest) (rasterAt (n :: rest) x) k)).
    { rewrite <- dft_shift by assumption. apply dft_ext. apply M. }
    destruct D; subst t; exact E. }
  ring.
Qed.

(** Sums *)
Lemma first_coefficient t n rest x y : IntShape (n :: rest) -> Direct t -> Forall (Accepted t) x -> Gives fft t false (n :: rest) x y ->
  InDomain (outDomain t n rest) (map (fun _ => 0) (n :: rest)) /\ rasterAt (outDomain t n rest) y (map (fun _ => 0) (n :: rest)) = total x.
Proof.
  intros I D A G. assert (Ps := intShape_positive _ I). assert (Po := out_positive t n rest I). destruct (gives_transform t false n rest x y I G) as (Lx & _).
  assert (H : InDomain (outDomain t n rest) (map (fun _ => 0) (n :: rest))).
  { apply domain_zero in Po. destruct t; exact Po. }
  split; [exact H|]. rewrite (gives_at t false n rest x y) by (try assumption; destruct D; subst; discriminate).
  assert (coefficient t n rest x (map (fun _ => 0) (n :: rest)) = total x) as ->.
  { rewrite <- (csum_total (n :: rest)) by (try exact Ps; destruct D; subst; exact Lx). rewrite <- dft_zero. destruct D; subst; reflexivity. }
  cbn [factor]. unfold factor. ring.
Qed.

Lemma complex_energy n rest x y : IntShape (n :: rest) -> Gives fft ComplexDft false (n :: rest) x y -> energy y = (IZR (prod (n :: rest)) * energy x)%R.
Proof.
  intros I G. assert (Ps := intShape_positive _ I). destruct (gives_transform ComplexDft false n rest x y I G) as (Lx & _). assert (Ly := gives_length _ _ _ _ _ _ I G). cbn [inDomain outDomain] in Lx, Ly.
  assert (P := parseval (n :: rest) (rasterAt (n :: rest) x) Ps). rewrite csum_energy in P by assumption.
  assert (E : csum (domain (n :: rest)) (fun k => cmul (dft (n :: rest) (rasterAt (n :: rest) x) k) (conj (dft (n :: rest) (rasterAt (n :: rest) x) k))) = (energy y, 0%R)).
  { rewrite <- (csum_energy (n :: rest)) by assumption. apply csum_ext. intros k Hk. apply In_domain in Hk.
    assert (Gz := gives_at ComplexDft false n rest x y k ltac:(discriminate) I (accepted_complex x) G Hk). cbn [outDomain coefficient] in Gz. rewrite Gz. unfold factor. f_equal; [ring|f_equal; ring]. }
  rewrite E in P. apply (f_equal fst) in P. cbn [fst cscale] in P. exact P.
Qed.

(** Inverse transforms by direct ones *)
Lemma inverse_by_conjugates nm n rest x y : IntShape (n :: rest) -> Gives fft ComplexDft nm (n :: rest) (map conj x) y -> Gives fft InverseComplexDft nm (n :: rest) x (map conj y).
Proof.
  intros I G. assert (Ps := intShape_positive _ I). destruct (gives_transform ComplexDft nm n rest (map conj x) y I G) as (Lx & u & -> & Lu & T). cbn [inDomain outDomain TransformOf] in *. rewrite map_length in Lx.
  assert (map conj (map (cmul (factor nm (n :: rest))) u) = map (cmul (factor nm (n :: rest))) (map conj u)) as ->.
  { rewrite !map_map. apply map_ext. intros a. rewrite conj_mul, factor_real. reflexivity. }
  apply transform_gives; [exact I|exact Lx|cbn [outDomain]; rewrite map_length; exact Lu|]. cbn [outDomain TransformOf]. intros v Lv Tv.
  apply (raster_values (n :: rest)); [exact Ps|exact Lv|rewrite map_length; exact Lu|]. intros k Hk. rewrite Tv, rasterAt_map, T by assumption.
  rewrite inverse_conj. f_equal. apply dft_ext. intros p Hp. rewrite rasterAt_map by assumption. reflexivity.
Qed.

Lemma complex_twice n rest x y z : IntShape (n :: rest) -> Gives fft ComplexDft false (n :: rest) x y -> Gives fft ComplexDft false (n :: rest) y z ->
  forall p, InDomain (n :: rest) p -> rasterAt (n :: rest) z p = cscale (IZR (prod (n :: rest))) (rasterAt (n :: rest) x (wrap (n :: rest) (map Z.opp p))).
Proof.
  intros I G G' p Hp. assert (Ps := intShape_positive _ I).
  assert (Gy := fun k => gives_at ComplexDft false n rest x y k ltac:(discriminate) I (accepted_complex x) G).
  assert (Gz := gives_at ComplexDft false n rest y z p ltac:(discriminate) I (accepted_complex y) G' Hp). cbn [outDomain coefficient] in *. rewrite Gz.
  rewrite (dft_ext _ _ (dft (n :: rest) (rasterAt (n :: rest) x))) by (intros q Hq; rewrite Gy by exact Hq; unfold factor; ring).
  rewrite dft_as_inverse, inversion_dft by (try exact Ps; apply opposite_domain; assumption). unfold factor. ring.
Qed.
Lemma real_energy n rest x y : IntShape (n :: rest) -> Forall IsReal x -> Gives fft RealDft false (n :: rest) x y ->
  rsum (domain (n / 2 + 1 :: rest)) (fun k => (weight n k * power (rasterAt (n / 2 + 1 :: rest)%Z y k))%R) = (IZR (prod (n :: rest)) * energy x)%R.
Proof.
  intros I A G. assert (Ps := intShape_positive _ I). inversion Ps as [|? ? Hn Hr]; subst. destruct (gives_transform RealDft false n rest x y I G) as (Lx & _). cbn [inDomain] in Lx.
  set (F := dft (n :: rest) (rasterAt (n :: rest) x)).
  assert (HF : Hermitian (n :: rest) F) by (apply dft_hermitian; [exact Ps|]; intros p Hp; apply rasterAt_real; assumption).
  assert (P := parseval (n :: rest) (rasterAt (n :: rest) x) Ps). rewrite csum_energy in P by assumption. fold F in P. apply (f_equal fst) in P. rewrite rsum_csum in P. cbn [fst cscale] in P. rewrite <- P.
  rewrite (rsum_split (fun k => hd 0 k <=? n / 2) (fun a => power (F a))), (rsum_permutation _ _ _ (half_permutation n rest Hn Hr)).
  assert (E : rsum (filter (fun k => negb (hd 0 k <=? n / 2)) (domain (n :: rest))) (fun a => power (F a)) =
    rsum (filter (fun k => negb ((hd 0 k =? 0) || (2 * hd 0 k =? n))) (domain (n / 2 + 1 :: rest))) (fun a => power (F a))).
  { rewrite <- (rsum_permutation _ _ _ (other_half_permutation n rest Hn Hr)), rsum_map. apply rsum_ext. intros k Hk. apply filter_In in Hk as [Hk _]. apply In_domain in Hk. rewrite HF, power_conj by exact Hk. reflexivity. }
  rewrite E. clear E P.
  rewrite (rsum_ext _ (fun k => weight n k * power (F k))%R).
  - generalize (domain (n / 2 + 1 :: rest)) as l. unfold rsum. induction l as [|k l IH]; cbn [filter fold_right]; [ring|]. rewrite IH. unfold weight. destruct ((hd 0 k =? 0) || (2 * hd 0 k =? n)); cbn [negb fold_right]; ring.
  - intros k Hk. apply In_domain in Hk. assert (Gy := gives_at RealDft false n rest x y k ltac:(discriminate) I A G Hk). cbn [outDomain coefficient] in Gy. rewrite Gy. fold F. do 2 f_equal. unfold factor. ring.
Qed.

(** Existence *)
Lemma gives_exists t nm n rest x : IntShape (n :: rest) -> Z.of_nat (length x) = prod (inDomain t n rest) -> exists y, Gives fft t nm (n :: rest) x y.
Proof.
  intros I Lx. assert (Ps := intShape_positive _ I). inversion Ps as [|? ? Hn Hr]; subst.
  destruct (dftInShape t (n :: rest)) as [si| |] eqn:Ei; [|destruct t; cbn [dftInShape] in Ei; rewrite ?halved_cons in Ei by lia; discriminate..].
  destruct (dftOutShape t (n :: rest)) as [so| |] eqn:Eo; [|destruct t; cbn [dftOutShape] in Eo; rewrite ?halved_cons in Eo by lia; discriminate..].
  destruct (shapes t n rest si so Hn Ei Eo) as [Si So].
  exists (if nm then map (scaleC (1 / inject_Z (prod (n :: rest)))) (fft t (rev (n :: rest)) x) else fft t (rev (n :: rest)) x), si, so.
  split; [exact Ei|]. split; [exact Eo|]. split; [rewrite Si; exact Lx|]. intros gi go g Lgi Lgo. rewrite (dft_function fft scaleC t nm (n :: rest) si so) by (try assumption; rewrite Si; exact Lx). reflexivity.
Qed.
End Fftw.
