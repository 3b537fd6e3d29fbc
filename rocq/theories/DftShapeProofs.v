(** Proofs about the transforms of any shape. *)
From Coq Require Import QArith.
From Verif Require Import Res Lemmas Spec DftModel DftSpec IndexProofs DftProofs DftShapeModel DftShapeSpec.
Open Scope Z_scope.

Lemma toInt_narrowed s : Narrowed s (toInt s).
Proof.
  unfold Narrowed, toInt. assert (M := Z.mod_pos_bound (s + 2 ^ 31) (2 ^ 32) ltac:(lia)). split; [lia|].
  exists ((s + 2 ^ 31) / 2 ^ 32). assert (D := Z.div_mod (s + 2 ^ 31) (2 ^ 32) ltac:(lia)). lia.
Qed.

Lemma narrowed_le s d : 0 <= s -> Narrowed s d -> d <= s.
Proof. intros H [B [k E]]. destruct (Z_lt_le_dec k 0); nia. Qed.

Lemma narrowed_long s d : 2 ^ 31 <= s -> Narrowed s d -> d + 2 ^ 32 <= s.
Proof. intros H [B [k E]]. destruct (Z_le_gt_dec k 0); nia. Qed.

Lemma narrowed_all shape : Forall2 Narrowed shape (map toInt shape).
Proof. induction shape; constructor; [apply toInt_narrowed|assumption]. Qed.

Lemma narrowed_within shape ls : Forall (fun s => 0 <= s) shape -> Forall2 Narrowed shape ls -> Forall (fun d => 0 < d) ls -> Forall2 (fun d s => 0 < d <= s) ls shape.
Proof.
  intros N F. induction F as [|s d shape ls X F IH]; intros P; constructor; inversion N; inversion P; subst.
  - split; [assumption|]. apply narrowed_le; assumption.
  - apply IH; assumption.
Qed.

Lemma within_pos ls shape : Forall2 (fun d s => 0 < d <= s) ls shape -> 0 < prod ls <= prod shape.
Proof. induction 1 as [|d s ls shape X F IH]; [cbn; lia|]. rewrite !prod_cons. nia. Qed.

Lemma halved_le d s : 0 < d <= s -> d / 2 + 1 <= s / 2 + 1.
Proof. intros H. assert (d / 2 <= s / 2) by (apply Z.div_le_mono; lia). lia. Qed.

Lemma halvedSize_le ls shape : Forall2 (fun d s => 0 < d <= s) ls shape -> 0 < halvedSize ls <= halvedSize shape.
Proof.
  intros F. destruct F as [|d s ls shape X F]; [cbn; lia|]. cbn [halvedSize]. assert (P := within_pos ls shape F). assert (H := halved_le d s X).
  assert (0 <= d / 2) by (apply Z.div_pos; lia). nia.
Qed.

Lemma sizes_le t ls shape : Forall2 (fun d s => 0 < d <= s) ls shape -> 0 < inSize t ls <= inSize t shape /\ 0 < outSize t ls <= outSize t shape.
Proof. intros F. assert (A := within_pos _ _ F). assert (B := halvedSize_le _ _ F). destruct t; cbn [inSize outSize]; lia. Qed.

Lemma within_lt ls shape : Forall2 (fun d s => 0 < d <= s) ls shape -> Exists (fun p => fst p < snd p) (combine ls shape) -> prod ls < prod shape.
Proof.
  induction 1 as [|d s ls shape X F IH]; cbn [combine]; intros E; inversion E; subst; rewrite !prod_cons; assert (P := within_pos ls shape F); cbn [fst snd] in *.
  - nia.
  - assert (prod ls < prod shape) by (apply IH; assumption). nia.
Qed.

Lemma long_exists ls shape : Forall2 Narrowed shape ls -> Exists (fun s => 2 ^ 31 <= s) shape -> Exists (fun p => fst p + 2 ^ 32 <= snd p) (combine ls shape).
Proof.
  induction 1 as [|s d shape ls X F IH]; intros E; inversion E; subst; cbn [combine].
  - apply Exists_cons_hd. cbn [fst snd]. apply narrowed_long; assumption.
  - apply Exists_cons_tl. apply IH. assumption.
Qed.

Lemma sizes_lt t ls shape : Forall2 (fun d s => 0 < d <= s) ls shape -> Exists (fun p => fst p + 2 ^ 32 <= snd p) (combine ls shape) ->
  inSize t ls < inSize t shape /\ outSize t ls < outSize t shape.
Proof.
  intros F E. assert (A : prod ls < prod shape).
  { apply within_lt; [exact F|]. clear F. induction E as [p l H|p l E IH]; [apply Exists_cons_hd; lia|apply Exists_cons_tl; exact IH]. }
  assert (B : halvedSize ls < halvedSize shape).
  { destruct F as [|d s ls shape X F]; [inversion E|]. cbn [halvedSize combine] in *. assert (P := within_pos ls shape F). assert (H := halved_le d s X).
    assert (0 <= d / 2) by (apply Z.div_pos; lia). inversion E; subst; cbn [fst snd] in *.
    - assert (d / 2 + 1 <= s / 2).
      { rewrite <- Z.div_add by lia. apply Z.div_le_mono; lia. }
      nia.
    - assert (prod ls < prod shape).
      { apply within_lt; [exact F|]. match goal with Y : Exists _ (combine ls shape) |- _ => clear - Y; induction Y as [p l Z0|p l Y IH]; [apply Exists_cons_hd; lia|apply Exists_cons_tl; exact IH] end. }
      nia. }
  destruct t; cbn [inSize outSize]; lia.
Qed.

Lemma fftw_sizes t ls : fftwIn t (rev ls) = inSize t ls /\ fftwOut t (rev ls) = outSize t ls.
Proof.
  assert (R : fftwReal (rev ls) = prod ls) by (unfold fftwReal; apply prod_rev).
  assert (C : fftwComplex (rev ls) = halvedSize ls) by (unfold fftwComplex; rewrite rev_involutive; destruct ls; reflexivity).
  destruct t; cbn [fftwIn fftwOut inSize outSize]; rewrite ?R, ?C; split; reflexivity.
Qed.

Lemma plan_dims t shape : shape <> [] -> planDims t shape = Ok (rev (map toInt shape)).
Proof. intros N. destruct t; reflexivity. Qed.

Lemma buffers_sizes {V} t shape (inp out : list V) : Forall (fun s => 0 <= s) shape -> Buffers t shape inp out ->
  Z.of_nat (length inp) = inSize t shape /\ Z.of_nat (length out) = outSize t shape.
Proof.
  intros N (si & so & Hi & Ho & Li & Lo). rewrite Li, Lo. clear Li Lo.
  assert (Q : forall s, halved shape = Ok s -> prod s = halvedSize shape).
  { intros s E. destruct shape as [|n rest]; [discriminate|]. inversion N; subst. cbn in E. injection E as E. subst s. cbn [halvedSize]. rewrite prod_cons, Z.quot_div_nonneg by lia. reflexivity. }
  destruct t; cbn [dftInShape dftOutShape inSize outSize] in *; try (injection Hi as Hi; subst si); try (injection Ho as Ho; subst so); split; auto.
Qed.

Section Shape.
Context {V : Type}.
Variable planner : transform -> list Z -> bool.
Variable fft : transform -> list Z -> list V -> list V.

Theorem dft_any t shape (inp out : list V) : PositiveOnly planner -> shape <> [] -> Forall (fun s => 0 <= s) shape -> Buffers t shape inp out ->
  exists ls, Forall2 Narrowed shape ls /\
    ((planner t (rev ls) = true /\ Forall2 (fun d s => 0 < d <= s) ls shape /\
      inSize t ls <= Z.of_nat (length inp) /\ outSize t ls <= Z.of_nat (length out) /\
      runTransform planner fft t shape inp out = Ok (fft t (rev ls) (firstn (Z.to_nat (inSize t ls)) inp) ++ skipn (Z.to_nat (outSize t ls)) out)) \/
     (planner t (rev ls) = false /\ runTransform planner fft t shape inp out = UB)).
Proof.
  intros P N F B. exists (map toInt shape). split; [apply narrowed_all|]. destruct (buffers_sizes t shape inp out F B) as [Li Lo].
  unfold runTransform, fftwPlan. rewrite plan_dims by exact N. cbn [bind]. destruct (planner t (rev (map toInt shape))) eqn:E; cbn [bind]; [left|right; split; reflexivity].
  assert (W : Forall2 (fun d s => 0 < d <= s) (map toInt shape) shape).
  { apply narrowed_within; [exact F|apply narrowed_all|]. apply P in E. rewrite <- (rev_involutive (map toInt shape)). apply Forall_rev. exact E. }
  destruct (sizes_le t _ _ W) as [Si So]. destruct (fftw_sizes t (map toInt shape)) as [Fi Fo]. rewrite Fi, Fo.
  split; [reflexivity|]. split; [exact W|]. split; [lia|]. split; [lia|].
  replace (inSize t (map toInt shape) <=? Z.of_nat (length inp)) with true by (symmetry; apply Z.leb_le; lia).
  replace (outSize t (map toInt shape) <=? Z.of_nat (length out)) with true by (symmetry; apply Z.leb_le; lia). reflexivity.
Qed.

Theorem dft_short t shape (inp out : list V) : IntShape shape -> planner t (rev shape) = true -> Buffers t shape inp out ->
  runTransform planner fft t shape inp out = Ok (fft t (rev shape) inp).
Proof.
  intros [N I] E B. assert (F : Forall (fun s => 0 <= s) shape) by (eapply Forall_impl; [|exact I]; cbn; lia).
  destruct (buffers_sizes t shape inp out F B) as [Li Lo]. unfold runTransform, fftwPlan. rewrite plan_dims by exact N. rewrite map_toInt by exact I. cbn [bind]. rewrite E. cbn [bind].
  destruct (fftw_sizes t shape) as [Fi Fo]. rewrite Fi, Fo, <- Li, <- Lo, !Z.leb_refl, !Nat2Z.id, firstn_all, skipn_all, app_nil_r. reflexivity.
Qed.

Lemma toInt_self s : 0 <= s -> toInt s = s -> s < 2 ^ 31.
Proof. intros H E. assert (X := toInt_narrowed s). rewrite E in X. destruct X as [X _]. lia. Qed.

Theorem dft_requested t shape : shape <> [] -> Forall (fun s => 0 <= s) shape -> PositiveOnly planner ->
  (fftwPlan planner t shape = Ok (Some (rev shape)) <-> planner t (rev shape) = true /\ Forall (fun s => s < 2 ^ 31) shape).
Proof.
  intros N F P. unfold fftwPlan. rewrite plan_dims by exact N. cbn [bind]. split.
  - destruct (planner t (rev (map toInt shape))) eqn:E; [|discriminate]. intros X. injection X as X. rewrite X in E. split; [exact E|].
    assert (Y : map toInt shape = shape) by (rewrite <- (rev_involutive (map toInt shape)), X; apply rev_involutive).
    clear - F Y. induction F as [|s shape H F IH]; constructor; cbn [map] in Y; injection Y as Y1 Y2; [apply toInt_self; assumption|apply IH; exact Y2].
  - intros [E S]. assert (Y : map toInt shape = shape).
    { apply map_toInt. apply P in E. apply Forall_rev in E. rewrite rev_involutive in E. clear - E S. induction E; inversion S; subst; constructor; auto. }
    rewrite Y, E. reflexivity.
Qed.

Theorem dft_long t shape (inp out l : list V) : PositiveOnly planner -> Sized fft -> shape <> [] -> Forall (fun s => 0 <= s) shape -> Exists (fun s => 2 ^ 31 <= s) shape ->
  Buffers t shape inp out -> runTransform planner fft t shape inp out = Ok l ->
  exists i o, (i < length inp)%nat /\ (o < length out)%nat /\ length l = length out /\ skipn o l = skipn o out /\
    forall inp', length inp' = length inp -> firstn i inp' = firstn i inp -> runTransform planner fft t shape inp' out = Ok l.
Proof.
  intros P Sz N F L B R. destruct (buffers_sizes t shape inp out F B) as [Li Lo].
  destruct (dft_any t shape inp out P N F B) as (ls & A & [(E & W & Bi & Bo & X)|(E & X)]); rewrite R in X; [|discriminate]. injection X as X.
  destruct (sizes_lt t ls shape W (long_exists ls shape A L)) as [Hi Ho]. destruct (sizes_le t ls shape W) as [Pi Po].
  destruct (fftw_sizes t ls) as [Fi Fo].
  assert (Q : length (fft t (rev ls) (firstn (Z.to_nat (inSize t ls)) inp)) = Z.to_nat (outSize t ls)).
  { rewrite <- Fo. rewrite <- (Sz t (rev ls) (firstn (Z.to_nat (inSize t ls)) inp)).
    - rewrite Nat2Z.id. reflexivity.
    - apply (P t). exact E.
    - rewrite Fi, firstn_length. lia. }
  exists (Z.to_nat (inSize t ls)), (Z.to_nat (outSize t ls)). split; [lia|]. split; [lia|]. split; [|split].
  - rewrite X, app_length, Q, skipn_length. lia.
  - rewrite X. rewrite <- Q at 1. rewrite skipn_app, skipn_all, Nat.sub_diag. reflexivity.
  - intros inp' Le Eq. rewrite <- R. unfold runTransform, fftwPlan. rewrite plan_dims by exact N. cbn [bind].
    assert (Y : map toInt shape = ls).
    { clear - A. induction A as [|s d shape ls X A IH]; [reflexivity|]. cbn [map]. f_equal; [|exact IH]. assert (Y := toInt_narrowed s). destruct X as [B1 [k1 E1]], Y as [B2 [k2 E2]]. nia. }
    rewrite Y, E. cbn [bind]. rewrite Fi, Le, Eq. reflexivity.
Qed.
End Shape.

Lemma plannerAll_positive : PositiveOnly plannerAll.
Proof. intros t dims H. unfold plannerAll in H. rewrite forallb_forall in H. apply Forall_forall. intros x I. apply H in I. lia. Qed.

Lemma fftZero_sized : Sized fftZero.
Proof.
  intros t dims l P L. unfold fftZero. rewrite repeat_length, Z2Nat.id; [reflexivity|].
  rewrite <- (rev_involutive dims). destruct (fftw_sizes t (rev dims)) as [_ O0]. rewrite O0.
  assert (W : Forall2 (fun d s => 0 < d <= s) (rev dims) (rev dims)).
  { apply Forall_rev in P. clear - P. induction P; [constructor|constructor; [lia|assumption]]. }
  destruct (sizes_le t _ _ W). lia.
Qed.

(** Lengths from 2^31 on: no plan, or that of a smaller transform. *)
Theorem dft_truncated : exists s, 0 < s /\ forall t, fftwPlan plannerAll t [s] = Ok (Some [2]).
Proof. exists (2 ^ 32 + 2). split; [lia|]. intros []; vm_compute; reflexivity. Qed.

Theorem dft_null V (planner : transform -> list Z -> bool) (fft : transform -> list Z -> list V -> list V) t s inp out : PositiveOnly planner ->
  s = 0 \/ 2 ^ 31 <= s <= 2 ^ 32 -> runTransform planner fft t [s] inp out = UB.
Proof.
  intros P H. unfold runTransform, fftwPlan. rewrite plan_dims by discriminate. cbn [map rev app bind].
  destruct (planner t [toInt s]) eqn:E; [|reflexivity]. apply P in E. inversion E as [|? ? X Y]; subst.
  assert (Z0 := toInt_narrowed s). destruct Z0 as [B [k Ek]]. exfalso. destruct H as [H|H]; [subst s|]; nia.
Qed.

Lemma long_defined : exists inp out l : list Z, Buffers ComplexDft [2 ^ 32 + 2] inp out /\ runTransform plannerAll fftZero ComplexDft [2 ^ 32 + 2] inp out = Ok l.
Proof.
  assert (H : exists r : list Z, Z.of_nat (length r) = prod [2 ^ 32 + 2]).
  { assert (G : forall n, 0 <= n -> exists r : list Z, Z.of_nat (length r) = n) by (intros n N; exists (repeat 0 (Z.to_nat n)); rewrite repeat_length; apply Z2Nat.id; exact N).
    apply G. cbn. lia. }
  destruct H as [r L]. exists r, r, (fftZero ComplexDft [2] (firstn (Z.to_nat (fftwIn ComplexDft [2])) r) ++ skipn (Z.to_nat (fftwOut ComplexDft [2])) r). split.
  - exists [2 ^ 32 + 2], [2 ^ 32 + 2]. split; [reflexivity|]. split; [reflexivity|]. split; exact L.
  - unfold runTransform. replace (fftwPlan plannerAll ComplexDft [2 ^ 32 + 2]) with (Ok (Some [2])) by (vm_compute; reflexivity). cbn [bind]. rewrite L. reflexivity.
Qed.
