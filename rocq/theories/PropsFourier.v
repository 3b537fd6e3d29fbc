(** C79, C80: discrete Fourier transforms of rasters, filtering in Fourier domain. *)
From Coq Require Import Reals QArith.
From Verif Require Import Res Spec DftModel DftSpec FourierSpec FourierProofs.
Open Scope Z_scope.

(** C79. The functions: whatever the dimension, the output raster holds the discrete Fourier transform of the input raster,
    position by position, or its inverse, divided by the number of elements if [normalized]. *)
Theorem C79_functions : forall fft, IsFftw fft -> forall t normalized n rest si so values gi go g,
  IntShape (n :: rest) -> dftInShape t (n :: rest) = Ok si -> dftOutShape t (n :: rest) = Ok so ->
  Z.of_nat (length gi) = prod si -> Z.of_nat (length go) = prod so -> Z.of_nat (length values) = prod si ->
  exists y, dftFunction fft scaleC t normalized (n :: rest) values gi go g = Ok (if normalized then map (cscale (/ IZR (prod (n :: rest)))) y else y) /\
    Z.of_nat (length y) = prod so /\ TransformOf t n rest values y.
Proof. exact function_transform. Qed.
Print Assumptions C79_functions.
Example C79_functions_met : IsFftw exactFft /\ IntShape [5; 6] /\ dftInShape RealDft [5; 6] = Ok [5; 6] /\ dftOutShape RealDft [5; 6] = Ok [3; 6].
Proof. split; [exact exact_fftw|]. split; [split; [discriminate|repeat constructor]|]. split; reflexivity. Qed.

(** The plans: whatever the history, a transform writes the discrete Fourier transform of the input raster in the output raster. *)
Theorem C79_plans : forall fft, IsFftw fft -> forall scale ps h p g n rest,
  History fft scale ps h -> In p ps -> pshape p = n :: rest ->
  TransformOf (ptransform p) n rest (content h (pin p)) (content (planTransform fft p g h) (pout p)).
Proof. exact history_fourier. Qed.
Print Assumptions C79_plans.
Example C79_plans_met : IsFftw exactFft /\ History exactFft scaleC [mkPlan RealDft [2; 1] 0 1 [1; 2]] [[czero; czero]; [czero; czero]].
Proof.
  split; [exact exact_fftw|].
  eapply (HistoryNew exactFft scaleC RealDft [2; 1] [2; 1] [2; 1] [czero; czero] [czero; czero] [] []); try reflexivity; [constructor|].
  split; [discriminate|repeat constructor].
Qed.

(** realDft and inverseRealDft, complexDft and inverseComplexDft are inverse of each other, for real and complex values, respectively. *)
Theorem C79_inverse : forall fft, IsFftw fft -> forall t n rest si so values gi go g gi' go' g',
  IntShape (n :: rest) -> Direct t -> dftInShape t (n :: rest) = Ok si -> dftOutShape t (n :: rest) = Ok so ->
  Z.of_nat (length gi) = prod si -> Z.of_nat (length go) = prod so -> Z.of_nat (length values) = prod si -> Forall (Accepted t) values ->
  Z.of_nat (length gi') = prod so -> Z.of_nat (length go') = prod si ->
  exists coefficients, dftFunction fft scaleC t false (n :: rest) values gi go g = Ok coefficients /\
    Z.of_nat (length coefficients) = prod so /\
    dftFunction fft scaleC (inverseTransform t) true (n :: rest) coefficients gi' go' g' = Ok values.
Proof. exact functions_inverse. Qed.
Print Assumptions C79_inverse.
Example C79_inverse_met : IsFftw exactFft /\ IntShape [3; 2] /\ Direct RealDft /\ Forall (Accepted RealDft) [(3%R, 0%R); (4%R, 0%R)].
Proof. split; [exact exact_fftw|]. split; [split; [discriminate|repeat constructor]|]. split; [left; reflexivity|]. repeat constructor. Qed.

(** The other way round. *)
Theorem C79_direct : forall fft, IsFftw fft -> forall n rest values gi go g gi' go' g',
  IntShape (n :: rest) ->
  Z.of_nat (length gi) = prod (n :: rest) -> Z.of_nat (length go) = prod (n :: rest) -> Z.of_nat (length values) = prod (n :: rest) ->
  Z.of_nat (length gi') = prod (n :: rest) -> Z.of_nat (length go') = prod (n :: rest) ->
  exists image, dftFunction fft scaleC InverseComplexDft true (n :: rest) values gi go g = Ok image /\
    Z.of_nat (length image) = prod (n :: rest) /\
    dftFunction fft scaleC ComplexDft false (n :: rest) image gi' go' g' = Ok values.
Proof. exact functions_direct. Qed.
Print Assumptions C79_direct.
Example C79_direct_met : IsFftw exactFft /\ IntShape [1; 2] /\ Z.of_nat (length [(3%R, 1%R); (4%R, 2%R)]) = prod [1; 2].
Proof. split; [exact exact_fftw|]. split; [split; [discriminate|repeat constructor]|]. reflexivity. Qed.

(** C80. The documented way of filtering in Fourier domain gives the circular convolution of the image by the kernel,
    and nothing else changes in memory. *)
Theorem C80_convolution : forall fft, IsFftw fft -> forall t n rest si so values kernel coefficients gi go gi' go' g g' gk gk' gk'' h,
  IntShape (n :: rest) -> Direct t -> dftInShape t (n :: rest) = Ok si -> dftOutShape t (n :: rest) = Ok so ->
  Z.of_nat (length gi) = prod si -> Z.of_nat (length go) = prod so -> Z.of_nat (length gi') = prod so -> Z.of_nat (length go') = prod si ->
  Z.of_nat (length gk) = prod si -> Z.of_nat (length gk') = prod so ->
  Z.of_nat (length values) = prod (n :: rest) -> Forall (Accepted t) values -> Z.of_nat (length kernel) = prod (n :: rest) -> Forall (Accepted t) kernel ->
  dftFunction fft scaleC t false (n :: rest) kernel gk gk' gk'' = Ok coefficients ->
  exists out h', fourierFilter fft scaleC cmul t (n :: rest) values coefficients gi go gi' go' g g' h = Ok (out, h') /\
    Z.of_nat (length out) = prod (n :: rest) /\
    (forall p, InDomain (n :: rest) p -> rasterAt (n :: rest) out p = circular (n :: rest) (rasterAt (n :: rest) values) (rasterAt (n :: rest) kernel) p) /\
    (t = RealDft -> Forall IsReal out) /\
    forall b, (b < length h)%nat -> content h' b = content h b.
Proof. exact filter_convolution. Qed.
Print Assumptions C80_convolution.
Example C80_convolution_met : IsFftw exactFft /\ IntShape [5; 6] /\ Direct RealDft /\ Accepted RealDft (3%R, 0%R) /\
  exists coefficients, dftFunction exactFft scaleC RealDft false [2] [(3%R, 0%R); (4%R, 0%R)] [czero; czero] [czero; czero] [czero; czero] = Ok coefficients.
Proof.
  split; [exact exact_fftw|]. split; [split; [discriminate|repeat constructor]|]. split; [left; reflexivity|]. split; [reflexivity|].
  destruct (function_transform exactFft exact_fftw RealDft false 2 [] [2] [2] [(3%R, 0%R); (4%R, 0%R)] [czero; czero] [czero; czero] [czero; czero]) as (y & E & _); try reflexivity.
  - split; [discriminate|repeat constructor].
  - exists y. exact E.
Qed.

(** With margins, the circular convolution is the usual one. *)
Theorem C80_margins : forall shape a b f g p, Positive shape -> InDomain shape p ->
  Forall2 (fun n ab => fst ab + snd ab - 1 <= n) shape (combine a b) -> length a = length shape -> length b = length shape ->
  NullOut a f -> NullOut b g -> circular shape f g p = linear shape f g p.
Proof. exact circular_linear. Qed.
Print Assumptions C80_margins.
Example C80_margins_met : Positive [7; 8] /\ InDomain [7; 8] [2; 5] /\ Forall2 (fun n ab => fst ab + snd ab - 1 <= n) [7; 8] (combine [5; 6] [3; 3]) /\ NullOut [5; 6] (fun _ => czero).
Proof. split; [repeat constructor|]. split; [repeat constructor; lia|]. split; [repeat constructor; cbn; lia|]. intros p _. reflexivity. Qed.
