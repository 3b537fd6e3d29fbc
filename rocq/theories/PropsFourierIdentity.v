(** C95: identities between the transforms of related rasters. *)
From Coq Require Import Reals QArith.
From Verif Require Import Res Spec DftModel DftSpec FourierSpec FourierIdentitySpec FourierProofs FourierIdentityProofs.
Open Scope Z_scope.

(** C95. The functions return for every raster of the right size; what they return does not depend on the memory they allocate. *)
Theorem C95_returns : forall fft t normalized n rest x,
  IntShape (n :: rest) -> Z.of_nat (length x) = prod (inDomain t n rest) -> exists y, Gives fft t normalized (n :: rest) x y.
Proof. exact gives_exists. Qed.
Print Assumptions C95_returns.
Example C95_returns_met : IsFftw exactFft /\ IntShape [5; 6] /\ Z.of_nat (length (repeat czero 18)) = prod (inDomain InverseRealDft 5 [6]).
Proof. split; [exact exact_fftw|]. split; [split; [discriminate|repeat constructor]|]. reflexivity. Qed.

(** The transforms are linear: with respect to complex factors for complex transforms, and to real ones for real transforms. *)
Theorem C95_linear : forall fft, IsFftw fft -> forall t normalized n rest a b x x' y y',
  IntShape (n :: rest) -> Valid t n rest x -> Valid t n rest x' -> (t = RealDft \/ t = InverseRealDft -> IsReal a /\ IsReal b) ->
  Gives fft t normalized (n :: rest) x y -> Gives fft t normalized (n :: rest) x' y' ->
  Gives fft t normalized (n :: rest) (combination a b x x') (combination a b y y').
Proof. exact gives_linear. Qed.
Print Assumptions C95_linear.
Example C95_linear_met : IsFftw exactFft /\ IntShape [2] /\ Valid RealDft 2 [] [(1%R, 0%R); (3%R, 0%R)] /\ IsReal (2%R, 0%R) /\
  (exists y, Gives exactFft RealDft false [2] [(1%R, 0%R); (3%R, 0%R)] y) /\ Valid InverseRealDft 2 [] [czero; czero] /\ exists y, Gives exactFft InverseRealDft true [2] [czero; czero] y.
Proof.
  split; [exact exact_fftw|]. assert (I : IntShape [2]) by (split; [discriminate|repeat constructor]). split; [exact I|]. split; [repeat constructor|]. split; [reflexivity|].
  split; [exact (gives_exists exactFft RealDft false 2 [] [(1%R, 0%R); (3%R, 0%R)] I eq_refl)|]. split; [|exact (gives_exists exactFft InverseRealDft true 2 [] [czero; czero] I eq_refl)].
  exists (fun _ => czero). split; [intros k _; unfold conj, czero; cbn [fst snd]; rewrite Ropp_0; reflexivity|].
  intros k Hk. unfold rasterAt, valueAt. destruct (Z.to_nat _) as [|[|[|m]]]; reflexivity.
Qed.

(** realDft of real values is the first half of complexDft; the other coefficients are conjugates of those. *)
Theorem C95_half : forall fft, IsFftw fft -> forall normalized n rest x y z,
  IntShape (n :: rest) -> Forall IsReal x -> Gives fft RealDft normalized (n :: rest) x y -> Gives fft ComplexDft normalized (n :: rest) x z ->
  forall k, InDomain (n :: rest) k ->
    (hd 0 k <= n / 2 -> InDomain (n / 2 + 1 :: rest) k /\ rasterAt (n :: rest) z k = rasterAt (n / 2 + 1 :: rest) y k) /\
    (~ hd 0 k <= n / 2 -> InDomain (n / 2 + 1 :: rest) (wrap (n :: rest) (map Z.opp k)) /\
      rasterAt (n :: rest) z k = conj (rasterAt (n / 2 + 1 :: rest) y (wrap (n :: rest) (map Z.opp k)))).
Proof. exact real_half. Qed.
Print Assumptions C95_half.
Example C95_half_met : IsFftw exactFft /\ IntShape [3] /\ Forall IsReal [(1%R, 0%R); (3%R, 0%R); (4%R, 0%R)] /\ InDomain [3] [2] /\ ~ hd 0 [2] <= 3 / 2 /\
  (exists y, Gives exactFft RealDft true [3] [(1%R, 0%R); (3%R, 0%R); (4%R, 0%R)] y) /\ exists z, Gives exactFft ComplexDft true [3] [(1%R, 0%R); (3%R, 0%R); (4%R, 0%R)] z.
Proof.
  split; [exact exact_fftw|]. assert (I : IntShape [3]) by (split; [discriminate|repeat constructor]). split; [exact I|]. split; [repeat constructor|].
  split; [repeat constructor; lia|]. split; [intros H; apply H; reflexivity|].
  split; [exact (gives_exists exactFft RealDft true 3 [] [(1%R, 0%R); (3%R, 0%R); (4%R, 0%R)] I eq_refl)|exact (gives_exists exactFft ComplexDft true 3 [] [(1%R, 0%R); (3%R, 0%R); (4%R, 0%R)] I eq_refl)].
Qed.

(** Moving the image circularly multiplies the coefficients by phases. *)
Theorem C95_moved : forall fft, IsFftw fft -> forall t normalized n rest d x x' y y',
  IntShape (n :: rest) -> Direct t -> Forall (Accepted t) x -> length d = length (n :: rest) -> Moved (n :: rest) d x x' ->
  Gives fft t normalized (n :: rest) x y -> Gives fft t normalized (n :: rest) x' y' ->
  forall k, InDomain (outDomain t n rest) k ->
    rasterAt (outDomain t n rest) y' k = cmul (cis (- (2 * PI * phase (n :: rest) d k))) (rasterAt (outDomain t n rest) y k).
Proof. exact moved_transform. Qed.
Print Assumptions C95_moved.
Example C95_moved_met : IsFftw exactFft /\ IntShape [2] /\ Moved [2] [-1] [(1%R, 0%R); (3%R, 0%R)] [(3%R, 0%R); (1%R, 0%R)].
Proof.
  split; [exact exact_fftw|]. split; [split; [discriminate|repeat constructor]|]. split; [reflexivity|]. intros p H. inversion H as [|? x ? q Hx Hq]; subst. inversion Hq; subst.
  assert (x = 0 \/ x = 1) as [->| ->] by lia; reflexivity.
Qed.

(** The coefficient at frequency 0 is the sum of the values. *)
Theorem C95_first : forall fft, IsFftw fft -> forall t n rest x y,
  IntShape (n :: rest) -> Direct t -> Forall (Accepted t) x -> Gives fft t false (n :: rest) x y ->
  InDomain (outDomain t n rest) (map (fun _ => 0) (n :: rest)) /\ rasterAt (outDomain t n rest) y (map (fun _ => 0) (n :: rest)) = total x.
Proof. exact first_coefficient. Qed.
Print Assumptions C95_first.
Example C95_first_met : IsFftw exactFft /\ IntShape [2] /\ Direct RealDft /\ exists y, Gives exactFft RealDft false [2] [(1%R, 0%R); (3%R, 0%R)] y.
Proof.
  split; [exact exact_fftw|]. assert (I : IntShape [2]) by (split; [discriminate|repeat constructor]). split; [exact I|]. split; [left; reflexivity|].
  exact (gives_exists exactFft RealDft false 2 [] [(1%R, 0%R); (3%R, 0%R)] I eq_refl).
Qed.

(** Parseval's identity, for complex transforms. *)
Theorem C95_energy : forall fft, IsFftw fft -> forall n rest x y,
  IntShape (n :: rest) -> Gives fft ComplexDft false (n :: rest) x y -> energy y = (IZR (prod (n :: rest)) * energy x)%R.
Proof. exact complex_energy. Qed.
Print Assumptions C95_energy.
Example C95_energy_met : IsFftw exactFft /\ IntShape [2] /\ exists y, Gives exactFft ComplexDft false [2] [(1%R, 2%R); (3%R, 0%R)] y.
Proof.
  split; [exact exact_fftw|]. assert (I : IntShape [2]) by (split; [discriminate|repeat constructor]). split; [exact I|].
  exact (gives_exists exactFft ComplexDft false 2 [] [(1%R, 2%R); (3%R, 0%R)] I eq_refl).
Qed.

(** For real transforms, the coefficients which stand for two count twice. *)
Theorem C95_real_energy : forall fft, IsFftw fft -> forall n rest x y,
  IntShape (n :: rest) -> Forall IsReal x -> Gives fft RealDft false (n :: rest) x y ->
  rsum (domain (n / 2 + 1 :: rest)) (fun k => (weight n k * power (rasterAt (n / 2 + 1 :: rest)%Z y k))%R) = (IZR (prod (n :: rest)) * energy x)%R.
Proof. exact real_energy. Qed.
Print Assumptions C95_real_energy.
Example C95_real_energy_met : IsFftw exactFft /\ IntShape [2] /\ weight 2 [1] = 1%R /\ weight 3 [1] = 2%R /\ exists y, Gives exactFft RealDft false [2] [(1%R, 0%R); (3%R, 0%R)] y.
Proof.
  split; [exact exact_fftw|]. assert (I : IntShape [2]) by (split; [discriminate|repeat constructor]). split; [exact I|]. split; [reflexivity|]. split; [reflexivity|].
  exact (gives_exists exactFft RealDft false 2 [] [(1%R, 0%R); (3%R, 0%R)] I eq_refl).
Qed.

(** inverseComplexDft is complexDft between conjugations. *)
Theorem C95_conjugates : forall fft, IsFftw fft -> forall normalized n rest x y,
  IntShape (n :: rest) -> Gives fft ComplexDft normalized (n :: rest) (map conj x) y -> Gives fft InverseComplexDft normalized (n :: rest) x (map conj y).
Proof. exact inverse_by_conjugates. Qed.
Print Assumptions C95_conjugates.
Example C95_conjugates_met : IsFftw exactFft /\ IntShape [2] /\ exists y, Gives exactFft ComplexDft true [2] (map conj [(1%R, 2%R); (3%R, 0%R)]) y.
Proof.
  split; [exact exact_fftw|]. assert (I : IntShape [2]) by (split; [discriminate|repeat constructor]). split; [exact I|].
  exact (gives_exists exactFft ComplexDft true 2 [] (map conj [(1%R, 2%R); (3%R, 0%R)]) I eq_refl).
Qed.

(** complexDft applied twice reverses the image circularly, and multiplies it by its size. *)
Theorem C95_twice : forall fft, IsFftw fft -> forall n rest x y z,
  IntShape (n :: rest) -> Gives fft ComplexDft false (n :: rest) x y -> Gives fft ComplexDft false (n :: rest) y z ->
  forall p, InDomain (n :: rest) p -> rasterAt (n :: rest) z p = cscale (IZR (prod (n :: rest))) (rasterAt (n :: rest) x (wrap (n :: rest) (map Z.opp p))).
Proof. exact complex_twice. Qed.
Print Assumptions C95_twice.
Example C95_twice_met : IsFftw exactFft /\ IntShape [2] /\ exists y z, Gives exactFft ComplexDft false [2] [(1%R, 2%R); (3%R, 0%R)] y /\ Gives exactFft ComplexDft false [2] y z.
Proof.
  split; [exact exact_fftw|]. assert (I : IntShape [2]) by (split; [discriminate|repeat constructor]). split; [exact I|].
  destruct (gives_exists exactFft ComplexDft false 2 [] [(1%R, 2%R); (3%R, 0%R)] I eq_refl) as [y Hy].
  destruct (gives_exists exactFft ComplexDft false 2 [] y I (gives_length exactFft exact_fftw ComplexDft false 2 [] _ y I Hy)) as [z Hz]. exists y, z. split; assumption.
Qed.
