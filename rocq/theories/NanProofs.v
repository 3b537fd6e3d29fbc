(** Values which are not numbers. *)
From Coq Require Import Reals Lra.
From Flocq Require Import Core IEEE754.BinarySingleNaN.
From Verif Require Import Res Lemmas Spec KernelSpec SeparableSpec VecModel BoxModel RasterModel SamplingModel LineKernelModel SeparableModel FloatModel FloatSpec.
From Verif Require Import ContainerModel ContainerSpec QuantileModel NanModel NanSpec SeparableProofs MixedProofs FloatProofs QuantileProofs FloatKernelModel FloatKernelSpec FloatKernelProofs ContainerProofs.
Open Scope Z_scope.

(** ** Three runs: two of doubles, and one of integers which counts something *)

Definition tri {A B C} (P : A -> B -> C -> Prop) (a : res A) (b : res B) (c : res C) : Prop :=
  match a, b, c with Ok x, Ok y, Ok z => P x y z | Throw e, Throw e', Throw e'' => e = e' /\ e' = e'' | UB, UB, UB => True | _, _, _ => False end.
Definition otri {A B C} (P : A -> B -> C -> Prop) (a : option (res A)) (b : option (res B)) (c : option (res C)) : Prop :=
  match a, b, c with Some a, Some b, Some c => tri P a b c | None, None, None => True | _, _, _ => False end.

Lemma tri_bind {A B C A' B' C'} (P : A -> B -> C -> Prop) (Q : A' -> B' -> C' -> Prop) a b c f g h :
  tri P a b c -> (forall x y z, P x y z -> tri Q (f x) (g y) (h z)) -> tri Q (bind a f) (bind b g) (bind c h).
Proof. intros H K. destruct a, b, c; cbn [tri bind] in *; try contradiction; auto. Qed.

Lemma otri_bind {A B C A' B' C'} (P : A -> B -> C -> Prop) (Q : A' -> B' -> C' -> Prop) a b c f g h :
  otri P a b c -> (forall x y z, P x y z -> otri Q (f x) (g y) (h z)) -> otri Q (obind a f) (obind b g) (obind c h).
Proof. intros H K. destruct a as [[]|], b as [[]|], c as [[]|]; cbn [otri tri obind] in *; try contradiction; auto. Qed.

Lemma otri_same {A B C D} (P : A -> B -> C -> Prop) (r : option (res D)) f g h : (forall d, otri P (f d) (g d) (h d)) -> otri P (obind r f) (obind r g) (obind r h).
Proof. intros H. destruct r as [[]|]; cbn [otri tri obind]; auto. Qed.

Inductive Forall3 {A B C} (P : A -> B -> C -> Prop) : list A -> list B -> list C -> Prop :=
| Forall3_nil : Forall3 P [] [] []
| Forall3_cons x y z l m n : P x y z -> Forall3 P l m n -> Forall3 P (x :: l) (y :: m) (z :: n).

Lemma forall3_get {A B C} (P : A -> B -> C -> Prop) l m n i : Forall3 P l m n -> tri P (zget l i) (zget m i) (zget n i).
Proof.
  intros H. unfold zget. destruct (i <? 0); [exact I|]. revert l m n H. induction (Z.to_nat i) as [|j IH]; intros l m n H; destruct H; cbn [nth_error tri]; auto.
Qed.

Lemma forall3_len {A B C} (P : A -> B -> C -> Prop) l m n : Forall3 P l m n -> length l = length m /\ length m = length n.
Proof. induction 1 as [|x y z l m n _ _ [IH1 IH2]]; cbn [length]; split; congruence. Qed.

Lemma forall3_replace {A B C} (P : A -> B -> C -> Prop) l m n i a b c : Forall3 P l m n -> P a b c -> Forall3 P (replace l i a) (replace m i b) (replace n i c).
Proof.
  intros H Q. revert i. induction H as [|x y z l m n H0 H IH]; intros [|i]; cbn [replace]; constructor; auto.
Qed.

Lemma forall3_set {A B C} (P : A -> B -> C -> Prop) l m n i a b c : Forall3 P l m n -> P a b c -> tri (Forall3 P) (zset l i a) (zset m i b) (zset n i c).
Proof.
  intros H Q. destruct (forall3_len _ _ _ _ H) as [E1 E2]. unfold zset. rewrite <- E2, <- E1. destruct (_ || _); cbn [tri]; [exact I|]. now apply forall3_replace.
Qed.

Section Triple.
Context (k : list double) (l : list Z) (RX : double -> double -> Z -> Prop) (R : double -> double -> Z -> Prop).
Hypothesis Hlen : length k = length l.
Hypothesis Hzero : R (dofZ 0) (dofZ 0) 0.
Hypothesis Hstep : forall acc acc' acc0 v w x y z, In v k -> In w l -> RX x y z -> R acc acc' acc0 -> R (dadd acc (dmul v x)) (dadd acc' (dmul v y)) (acc0 + w * z).

Lemma inner_tri xs ys zs stride : Forall3 RX xs ys zs -> forall n a b acc acc' acc0, R acc acc' acc0 ->
  tri R (innerLoopD n k xs a b stride acc) (innerLoopD n k ys a b stride acc') (innerLoop n l zs a b stride acc0).
Proof.
  intros H. induction n as [|n IH]; intros a b acc acc' acc0 HR; cbn [innerLoopD innerLoop]; [exact HR|].
  assert (K : (exists v w, zget k a = Ok v /\ zget l a = Ok w /\ In v k /\ In w l) \/ zget k a = UB /\ zget l a = UB).
  { unfold zget. destruct (a <? 0); [right; auto|]. destruct (nth_error k (Z.to_nat a)) as [v|] eqn:E1, (nth_error l (Z.to_nat a)) as [w|] eqn:E2; [left|right; exfalso..|right; auto].
    - exists v, w. apply nth_error_In in E1, E2. auto.
    - apply nth_error_None in E2. assert (E := nth_error_Some k (Z.to_nat a)). rewrite E1 in E. destruct E as [E _]. specialize (E ltac:(discriminate)). lia.
    - apply nth_error_None in E1. assert (E := nth_error_Some l (Z.to_nat a)). rewrite E2 in E. destruct E as [E _]. specialize (E ltac:(discriminate)). lia. }
  destruct K as [(v & w & -> & -> & Hv & Hw)|[-> ->]]; cbn [bind]; [|exact I].
  apply (tri_bind RX); [now apply forall3_get|]. intros x y z Hx. apply IH. now apply Hstep.
Qed.

Lemma product_tri xs ys zs first last b stride : Forall3 RX xs ys zs ->
  tri R (innerProductD k xs first last b stride) (innerProductD k ys first last b stride) (innerProduct l zs first last b stride 0).
Proof. intros H. unfold innerProductD, innerProduct. destruct (last <? first); [exact I|]. now apply inner_tri. Qed.

Definition crel3 (s s' : dcstate) (t : cstate) : Prop :=
  dci s = dci s' /\ dcin s = dcin s' /\ dcout s = dcout s' /\ dci s = ci t /\ dcin s = cin t /\ dcout s = cout t /\ Forall3 R (dcmem s) (dcmem s') (cmem t).

Lemma loop_tri cond value value' value0 st istride ostride : (forall i it, tri R (value i it) (value' i it) (value0 i it)) ->
  forall fuel s s' t, crel3 s s' t ->
  otri crel3 (corrLoopD fuel cond value st istride ostride s) (corrLoopD fuel cond value' st istride ostride s') (corrLoop fuel cond value0 st istride ostride t).
Proof.
  intros HV. induction fuel as [|fuel IH]; intros s s' t (E1 & E2 & E3 & E4 & E5 & E6 & HM); cbn [corrLoopD corrLoop]; [exact I|].
  rewrite <- E4, <- E5, <- E6, <- E1, <- E2, <- E3. destruct (cond (dci s)); [|repeat split; auto].
  assert (V := HV (dci s) (dcin s)). destruct (value _ _), (value' _ _), (value0 _ _); cbn [tri] in V; try contradiction; [|exact V|exact I].
  assert (W := forall3_set _ _ _ _ (dcout s) _ _ _ HM V). destruct (zset (dcmem s) _ _), (zset (dcmem s') _ _), (zset (cmem t) _ _); cbn [tri] in W; try contradiction; [|exact W|exact I].
  apply IH. unfold crel3. cbn [dci dcin dcout dcmem ci cin cout cmem]. repeat split; auto.
Qed.

Lemma along_tri fuel n o axis shape xs ys zs : Forall3 RX xs ys zs ->
  otri (fun a b c => rshape a = shape /\ rshape b = shape /\ rshape c = shape /\ Forall3 R (rdata a) (rdata b) (rdata c))
    (correlateAlongD fuel n (mkDkernel k o) axis (mkRaster shape xs)) (correlateAlongD fuel n (mkDkernel k o) axis (mkRaster shape ys))
    (correlateAlong fuel n (mkLkernel l o) axis (mkRaster shape zs)).
Proof.
  intros HD. unfold correlateAlongD, correlateAlong. cbn [rshape rdata].
  apply otri_same. intros len. apply otri_same. intros domain. apply otri_same. intros ps.
  apply (otri_bind (Forall3 R)); [|intros a b c H; cbn [otri tri rshape rdata]; auto].
  set (st := shapeStride shape (Z.to_nat axis)).
  assert (G : forall o1 o2 o3, Forall3 R o1 o2 o3 -> otri (Forall3 R)
    (eachRow (fun out p => obind (lift (rindex n shape p)) (fun a => correlateD fuel (mkDkernel k o) xs (dsMake a len sdefault st) out (dsMake a len sdefault st))) ps o1)
    (eachRow (fun out p => obind (lift (rindex n shape p)) (fun a => correlateD fuel (mkDkernel k o) ys (dsMake a len sdefault st) out (dsMake a len sdefault st))) ps o2)
    (eachRow (fun out p => obind (lift (rindex n shape p)) (fun a => correlate fuel (mkLkernel l o) zs (dsMake a len sdefault st) out (dsMake a len sdefault st))) ps o3)).
  { induction ps as [|p ps IH]; intros o1 o2 o3 HO; cbn [eachRow]; [exact HO|].
    apply (otri_bind (Forall3 R)); auto. apply otri_same. intros a.
    unfold correlateD, correlate, dksize, lsize. cbn [dkvalues dkorigin lvalues lorigin]. rewrite <- Hlen.
    apply (otri_bind crel3); [apply loop_tri; [intros; now apply product_tri|repeat split; auto]|]. intros s1 s1' t1 H1.
    apply (otri_bind crel3); [apply loop_tri; [intros; now apply product_tri|auto]|]. intros s2 s2' t2 H2.
    apply (otri_bind crel3); [apply loop_tri; [intros; now apply product_tri|auto]|]. intros s3 s3' t3 (_ & _ & _ & _ & _ & _ & H3). exact H3. }
  apply G. clear G. induction (Z.to_nat (shapeSize shape)) as [|m IH]; cbn [repeat]; constructor; auto.
Qed.
End Triple.

(** ** Propagation *)
Lemma nan_dadd_l x : dadd nan x = nan. Proof. destruct x; reflexivity. Qed.
Lemma nan_dadd_r x : dadd x nan = nan. Proof. destruct x; reflexivity. Qed.
Lemma nan_dsub_l x : dsub nan x = nan. Proof. destruct x; reflexivity. Qed.
Lemma nan_dsub_r x : dsub x nan = nan. Proof. destruct x; reflexivity. Qed.
Lemma nan_dmul_l x : dmul nan x = nan. Proof. destruct x; reflexivity. Qed.
Lemma nan_dmul_r x : dmul x nan = nan. Proof. destruct x; reflexivity. Qed.
Lemma nan_ddiv_l x : ddiv nan x = nan. Proof. destruct x; reflexivity. Qed.
Lemma nan_dopp : dopp nan = nan. Proof. reflexivity. Qed.
Ltac nans := rewrite ?nan_dopp, ?nan_dadd_l, ?nan_dadd_r, ?nan_dsub_l, ?nan_dsub_r, ?nan_dmul_l, ?nan_dmul_r, ?nan_ddiv_l.

Lemma nan_fold l : fold_left dadd l nan = nan.
Proof. induction l as [|x l IH]; cbn [fold_left]; [reflexivity|]. rewrite nan_dadd_l. exact IH. Qed.

Lemma mean_nan l : In nan l -> dmean l = nan.
Proof.
  intros H. unfold dmean. assert (E : forall acc, fold_left dadd l acc = nan).
  { induction l as [|x l IH]; intros acc; [destruct H|]. cbn [fold_left]. destruct H as [->|H]; [rewrite nan_dadd_r; apply nan_fold|apply IH; exact H]. }
  rewrite E. apply nan_ddiv_l.
Qed.

(** ** Interpolation *)
Lemma around_length b a p q : Around b a p q -> length p = length q.
Proof. induction 1; cbn [length]; congruence. Qed.

Lemma Around_snoc b a p q x i : Around b a (p ++ [x]) (q ++ [i]) <-> Around b a p q /\ exists f, dfloor x = Ok f /\ f - b <= i <= f + a.
Proof.
  split.
  - intros H. apply Forall2_app_inv_l in H as (q1 & q2 & H1 & H2 & E). inversion H2 as [|? ? ? ? H3 H4]; subst. inversion H4; subst. apply app_inj_tail in E as [-> ->]. split; assumption.
  - intros [H1 H2]. apply Forall2_app; [exact H1|]. constructor; [exact H2|constructor].
Qed.
Lemma linear_nan_rec get : forall rpos indices, rpos <> [] -> Forall (fun x => exists f, dfloor x = Ok f) rpos ->
  (forall q, Around 0 1 (rev rpos) q -> exists v, get (q ++ indices) = Ok v) ->
  (exists v, dlinearRec get rpos indices = Ok v) /\ forall q, Around 0 1 (rev rpos) q -> get (q ++ indices) = Ok nan -> dlinearRec get rpos indices = Ok nan.
Proof.
  induction rpos as [|x rpos IH]; intros indices Hne HF HG; [contradiction|]. inversion HF as [|? ? [f Ef] HF']; subst. cbn [dlinearRec]. rewrite Ef. cbn [bind].
  set (at_ := fun i => match rpos with [] => get (i :: indices) | _ => dlinearRec get rpos (i :: indices) end).
  assert (A : forall i, 0 <= i - f <= 1 -> (exists v, at_ i = Ok v) /\ forall q, Around 0 1 (rev rpos) q -> get (q ++ i :: indices) = Ok nan -> at_ i = Ok nan).
  { intros i Hi. assert (G : forall q, Around 0 1 (rev rpos) q -> exists v, get (q ++ i :: indices) = Ok v).
    { intros q Hq. destruct (HG (q ++ [i])) as [v Hv]; [cbn [rev]; apply Around_snoc; split; [exact Hq|exists f; split; [exact Ef|lia]]|]. rewrite <- app_assoc in Hv. eauto. }
    destruct rpos as [|y rpos'].
    - unfold at_. split; [destruct (G []) as [v Hv]; [constructor|]; exists v; exact Hv|]. intros q Hq. inversion Hq; subst. exact (fun E => E).
    - unfold at_. apply IH; [discriminate|exact HF'|exact G]. }
  destruct (A f ltac:(lia)) as [[v Ev] N0]. destruct (A (f + 1) ltac:(lia)) as [[w Ew] N1]. fold (at_ f). fold (at_ (f + 1)). rewrite Ev, Ew. cbn [bind]. split; [eauto|].
  intros q Hq E. cbn [rev] in Hq. assert (L := around_length _ _ _ _ Hq). rewrite app_length in L. cbn [length] in L.
  destruct (exists_last (l := q)) as (q' & i & ->); [intros ->; cbn in L; lia|]. apply Around_snoc in Hq as [Hq (f' & Ef' & Hi)]. assert (f' = f) by congruence. subst f'.
  rewrite <- app_assoc in E. cbn [app] in E. assert (i = f \/ i = f + 1) as [-> | ->] by lia.
  - specialize (N0 q' Hq E). assert (v = nan) by congruence. subst v. unfold dlinear. nans. reflexivity.
  - specialize (N1 q' Hq E). assert (w = nan) by congruence. subst w. unfold dlinear. nans. reflexivity.
Qed.

Lemma linear_nan get p : p <> [] -> Forall (fun x => exists f, dfloor x = Ok f) p -> (forall q, Around 0 1 p q -> exists v, get q = Ok v) ->
  (exists q, Around 0 1 p q /\ get q = Ok nan) -> dlinearAt get p = Ok nan.
Proof.
  intros Hne HF HG (q & Hq & E). unfold dlinearAt.
  destruct (linear_nan_rec get (rev p) []) as [_ N].
  - intros H. apply Hne. rewrite <- (rev_involutive p), H. reflexivity.
  - apply Forall_rev. exact HF.
  - rewrite rev_involutive. intros r Hr. rewrite app_nil_r. apply HG. exact Hr.
  - apply (N q); [rewrite rev_involutive; exact Hq|rewrite app_nil_r; exact E].
Qed.

Lemma cubic_nan_rec get : forall rpos indices, rpos <> [] -> Forall (fun x => exists f, dfloor x = Ok f) rpos ->
  (forall q, Around 1 2 (rev rpos) q -> exists v, get (q ++ indices) = Ok v) ->
  (exists v, dcubicRec get rpos indices = Ok v) /\ forall q, Around 1 2 (rev rpos) q -> get (q ++ indices) = Ok nan -> dcubicRec get rpos indices = Ok nan.
Proof.
  induction rpos as [|x rpos IH]; intros indices Hne HF HG; [contradiction|]. inversion HF as [|? ? [f Ef] HF']; subst. cbn [dcubicRec]. rewrite Ef. cbn [bind].
  set (at_ := fun i => match rpos with [] => get (i :: indices) | _ => dcubicRec get rpos (i :: indices) end).
  assert (A : forall i, f - 1 <= i <= f + 2 -> (exists v, at_ i = Ok v) /\ forall q, Around 1 2 (rev rpos) q -> get (q ++ i :: indices) = Ok nan -> at_ i = Ok nan).
  { intros i Hi. assert (G : forall q, Around 1 2 (rev rpos) q -> exists v, get (q ++ i :: indices) = Ok v).
    { intros q Hq. destruct (HG (q ++ [i])) as [v Hv]; [cbn [rev]; apply Around_snoc; split; [exact Hq|exists f; split; [exact Ef|lia]]|]. rewrite <- app_assoc in Hv. eauto. }
    destruct rpos as [|y rpos'].
    - unfold at_. split; [destruct (G []) as [v Hv]; [constructor|]; exists v; exact Hv|]. intros q Hq. inversion Hq; subst. exact (fun E => E).
    - unfold at_. apply IH; [discriminate|exact HF'|exact G]. }
  destruct (A (f - 1) ltac:(lia)) as [[u Eu] N_]. destruct (A f ltac:(lia)) as [[v Ev] N0]. destruct (A (f + 1) ltac:(lia)) as [[w Ew] N1]. destruct (A (f + 2) ltac:(lia)) as [[z Ez] N2].
  fold (at_ (f - 1)). fold (at_ f). fold (at_ (f + 1)). fold (at_ (f + 2)). rewrite Eu, Ev, Ew, Ez. cbn [bind]. split; [eauto|].
  intros q Hq E. cbn [rev] in Hq. assert (L := around_length _ _ _ _ Hq). rewrite app_length in L. cbn [length] in L.
  destruct (exists_last (l := q)) as (q' & i & ->); [intros ->; cbn in L; lia|]. apply Around_snoc in Hq as [Hq (f' & Ef' & Hi)]. assert (f' = f) by congruence. subst f'.
  rewrite <- app_assoc in E. cbn [app] in E. f_equal. assert (i = f - 1 \/ i = f \/ i = f + 1 \/ i = f + 2) as [-> | [-> | [-> | ->]]] by lia.
  - specialize (N_ q' Hq E). assert (u = nan) by congruence. subst u. unfold dcubic. repeat progress nans. reflexivity.
  - specialize (N0 q' Hq E). assert (v = nan) by congruence. subst v. unfold dcubic. repeat progress nans. reflexivity.
  - specialize (N1 q' Hq E). assert (w = nan) by congruence. subst w. unfold dcubic. repeat progress nans. reflexivity.
  - specialize (N2 q' Hq E). assert (z = nan) by congruence. subst z. unfold dcubic. repeat progress nans. reflexivity.
Qed.

Lemma cubic_nan get p : p <> [] -> Forall (fun x => exists f, dfloor x = Ok f) p -> (forall q, Around 1 2 p q -> exists v, get q = Ok v) ->
  (exists q, Around 1 2 p q /\ get q = Ok nan) -> dcubicAt get p = Ok nan.
Proof.
  intros Hne HF HG (q & Hq & E). unfold dcubicAt.
  destruct (cubic_nan_rec get (rev p) []) as [_ N].
  - intros H. apply Hne. rewrite <- (rev_involutive p), H. reflexivity.
  - apply Forall_rev. exact HF.
  - rewrite rev_involutive. intros r Hr. rewrite app_nil_r. apply HG. exact Hr.
  - apply (N q); [rewrite rev_involutive; exact Hq|rewrite app_nil_r; exact E].
Qed.

(** ** Correlations *)
Definition ones (k : list double) : list Z := repeat 1 (length k).

Lemma padded_ones k j : 0 <= j < Z.of_nat (length k) -> padded (ones k) j = 1.
Proof.
  intros H. unfold padded, zget, ones. replace (j <? 0) with false by lia. rewrite nth_error_repeat by lia. reflexivity.
Qed.

Lemma total_nonneg {A} (f : A -> Z) l : (forall a, In a l -> 0 <= f a) -> 0 <= total (map f l).
Proof. intros H. induction l as [|a l IH]; cbn [map]; [unfold total; cbn; lia|]. change (total (?u :: ?v)) with (u + total v). assert (0 <= f a) by (apply H; left; reflexivity). assert (0 <= total (map f l)) by (apply IH; intros b Hb; apply H; right; exact Hb). lia. Qed.

Lemma total_positive {A} (f : A -> Z) l a : (forall a, In a l -> 0 <= f a) -> In a l -> 0 < f a -> 0 < total (map f l).
Proof.
  intros H Ha P. induction l as [|b l IH]; [destruct Ha|]. cbn [map]. change (total (?u :: ?v)) with (u + total v).
  assert (0 <= f b) by (apply H; left; reflexivity). assert (0 <= total (map f l)) by (apply total_nonneg; intros c Hc; apply H; right; exact Hc).
  destruct Ha as [->|Ha]; [lia|]. assert (0 < total (map f l)) by (apply IH; [intros c Hc; apply H; right; exact Hc|exact Ha]). lia.
Qed.

Lemma total_null {A} (f : A -> Z) l : (forall a, In a l -> f a = 0) -> total (map f l) = 0.
Proof. intros H. induction l as [|a l IH]; cbn [map]; [reflexivity|]. change (total (?u :: ?v)) with (u + total v). rewrite (H a) by (left; reflexivity). rewrite IH; [reflexivity|]. intros b Hb. apply H. right. exact Hb. Qed.

Lemma In_zrange0 n j : In j (zrange 0 (n - 1)) <-> 0 <= j < n.
Proof. unfold zrange. rewrite in_map_iff. split; [intros (i & <- & H); apply in_seq in H; lia|]. intros H. exists (Z.to_nat j). rewrite in_seq. lia. Qed.

Lemma pixel_nonneg shape zs p : Forall (fun z => 0 <= z) zs -> 0 <= pixel shape zs p.
Proof.
  intros H. unfold pixel, padded. destruct (inside shape p); [|lia]. unfold zget. destruct (_ <? 0); [lia|]. destruct (nth_error zs _) as [z|] eqn:E; [|lia].
  rewrite Forall_forall in H. apply H. apply nth_error_In in E. exact E.
Qed.

Lemma count_positive shape koa zs p q : Forall (fun z => 0 <= z) zs -> InDomain shape p -> Window shape koa p q -> 0 < pixel shape zs q ->
  0 < axisCorrelation shape (ones (fst (fst koa))) (snd (fst koa)) (snd koa) (pixel shape zs) p.
Proof.
  intros N Hp [Hq (j & Hj & ->)] P. unfold axisCorrelation. rewrite (proj2 (inside_spec shape p)) by exact Hp. unfold correlation.
  apply (total_positive _ _ j); [| |].
  - intros i Hi. unfold ones in Hi. rewrite repeat_length, In_zrange0 in Hi. rewrite padded_ones by exact Hi. assert (Q := pixel_nonneg shape zs (replace p (snd koa) (nth (snd koa) p 0 - snd (fst koa) + i)) N). lia.
  - unfold ones. rewrite repeat_length, In_zrange0. exact Hj.
  - rewrite padded_ones by exact Hj. lia.
Qed.

Lemma count_null shape koa zs p : InDomain shape p -> (forall q, Window shape koa p q -> pixel shape zs q = 0) ->
  axisCorrelation shape (ones (fst (fst koa))) (snd (fst koa)) (snd koa) (pixel shape zs) p = 0.
Proof.
  intros Hp H. unfold axisCorrelation. rewrite (proj2 (inside_spec shape p)) by exact Hp. unfold correlation. apply total_null. intros j Hj. unfold ones in Hj. rewrite repeat_length, In_zrange0 in Hj.
  rewrite padded_ones by exact Hj. set (q := replace p _ _). destruct (inside shape q) eqn:E; [|unfold pixel; rewrite E; lia].
  rewrite (H q); [lia|]. split; [apply inside_spec; exact E|]. exists j. split; [exact Hj|reflexivity].
Qed.

(** What a correlation along an axis reads, for two images and any count of their pixels *)
Lemma along_count shape k o a xs ys zs (RX R : double -> double -> Z -> Prop) : Positive shape -> FitsAny shape (k, o, a) -> Z.of_nat (length xs) = Spec.prod shape ->
  Forall3 RX xs ys zs -> R (dofZ 0) (dofZ 0) 0 ->
  (forall acc acc' acc0 v x y z, RX x y z -> R acc acc' acc0 -> R (dadd acc (dmul v x)) (dadd acc' (dmul v y)) (acc0 + z)) ->
  exists out out' ints enough, Z.of_nat (length out) = Spec.prod shape /\ Z.of_nat (length out') = Spec.prod shape /\ Z.of_nat (length ints) = Spec.prod shape /\ Forall3 R out out' ints /\
    (forall p, pixel shape ints p = axisCorrelation shape (ones k) o a (pixel shape zs) p) /\
    forall fuel, (enough <= fuel)%nat ->
      correlateAlongD fuel (Z.of_nat (length shape)) (mkDkernel k o) (Z.of_nat a) (mkRaster shape xs) = Some (Ok (mkRaster shape out)) /\
      correlateAlongD fuel (Z.of_nat (length shape)) (mkDkernel k o) (Z.of_nat a) (mkRaster shape ys) = Some (Ok (mkRaster shape out')).
Proof.
  intros HP (F1 & F2 & F3 & F4) HL H3 HZ HS. destruct (forall3_len _ _ _ _ H3) as [L1 L2].
  assert (LO : length (ones k) = length k) by (unfold ones; apply repeat_length).
  destruct (along_spec shape zs (ones k) o a F1 HP) as (ints & LI & PI & e & E); try (rewrite LO; lia); try lia.
  assert (T := along_tri k (ones k) RX R (eq_sym LO) HZ). 
  assert (T' : forall acc acc' acc0 v w x y z, In v k -> In w (ones k) -> RX x y z -> R acc acc' acc0 -> R (dadd acc (dmul v x)) (dadd acc' (dmul v y)) (acc0 + w * z)).
  { intros acc acc' acc0 v w x y z _ Hw Hx HR. apply repeat_spec in Hw. subst w. replace (1 * z) with z by lia. apply HS; assumption. }
  specialize (T T' e (Z.of_nat (length shape)) o (Z.of_nat a) shape xs ys zs H3). rewrite (E e (le_n _)) in T.
  destruct (correlateAlongD e _ _ _ (mkRaster shape xs)) as [[[s1 out]| |]|] eqn:E1; cbn [otri] in T; try contradiction;
    destruct (correlateAlongD e _ _ _ (mkRaster shape ys)) as [[[s2 out']| |]|] eqn:E2; cbn [otri tri] in T; try contradiction.
  cbn [rshape rdata] in T. destruct T as (-> & -> & _ & T). destruct (forall3_len _ _ _ _ T) as [L3 L4].
  exists out, out', ints, e. repeat split; [lia..|exact LI|exact T|exact PI| |].
  - destruct (correlateAlongD_more (Z.of_nat (length shape)) (mkDkernel k o) (Z.of_nat a) (mkRaster shape xs) e fuel H) as [X|X]; [congruence|]. now rewrite <- X.
  - destruct (correlateAlongD_more (Z.of_nat (length shape)) (mkDkernel k o) (Z.of_nat a) (mkRaster shape ys) e fuel H) as [X|X]; [congruence|]. now rewrite <- X.
Qed.

Lemma double_dec (x y : double) : {x = y} + {x <> y}.
Proof.
  assert (D : {B2SF x = B2SF y} + {B2SF x <> B2SF y}) by (decide equality; (apply Bool.bool_dec || apply Pos.eq_dec || apply Z.eq_dec)).
  destruct D as [E|E]; [left; apply B2SF_inj; exact E|right; intros ->; apply E; reflexivity].
Qed.

Lemma forall3_of {A B} (f : A -> B -> Z) (l : list A) (m : list B) : length l = length m -> Forall3 (fun x y z => z = f x y) l m (map (fun xy => f (fst xy) (snd xy)) (combine l m)).
Proof. revert m. induction l as [|x l IH]; intros [|y m] L; try discriminate; cbn [combine map]; constructor; [reflexivity|]. apply IH. cbn in L. lia. Qed.

Lemma forall3_weaken {A B C} (P Q : A -> B -> C -> Prop) l m n : (forall x y z, P x y z -> Q x y z) -> Forall3 P l m n -> Forall3 Q l m n.
Proof. intros H. induction 1; constructor; auto. Qed.

Lemma forall3_third {A B C} (P : A -> B -> C -> Prop) (Q : C -> Prop) l m n : (forall x y z, P x y z -> Q z) -> Forall3 P l m n -> Forall Q n.
Proof. intros H. induction 1; constructor; eauto. Qed.

(** Values at a position *)
Lemma rank_get {A} shape (data : list A) p : Z.of_nat (length data) = Spec.prod shape -> InDomain shape p -> exists v, zget data (rank shape p) = Ok v.
Proof. intros L H. destruct (zget_In data (rank shape p)) as (v & E & _); [rewrite L; apply IndexProofs.rank_bounds; exact H|]. eauto. Qed.

Lemma along_local shape k o a xs ys : Positive shape -> FitsAny shape (k, o, a) -> Z.of_nat (length xs) = Spec.prod shape -> Z.of_nat (length ys) = Spec.prod shape ->
  exists out out' enough, Z.of_nat (length out) = Spec.prod shape /\ Z.of_nat (length out') = Spec.prod shape /\
    (forall p, InDomain shape p -> (forall q, Window shape (k, o, a) p q -> zget xs (rank shape q) = zget ys (rank shape q)) -> zget out (rank shape p) = zget out' (rank shape p)) /\
    forall fuel, (enough <= fuel)%nat ->
      correlateAlongD fuel (Z.of_nat (length shape)) (mkDkernel k o) (Z.of_nat a) (mkRaster shape xs) = Some (Ok (mkRaster shape out)) /\
      correlateAlongD fuel (Z.of_nat (length shape)) (mkDkernel k o) (Z.of_nat a) (mkRaster shape ys) = Some (Ok (mkRaster shape out')).
Proof.
  intros HP F L L'. set (f := fun x y => if double_dec x y then 0 else 1). assert (T := forall3_of f xs ys ltac:(lia)). set (zs := map _ _) in T.
  destruct (along_count shape k o a xs ys zs (fun x y z => z = f x y) (fun x y z => 0 <= z /\ (z = 0 -> x = y)) HP F L T) as (out & out' & ints & e & L1 & L2 & L3 & TO & PI & E).
  - split; [lia|auto].
  - intros acc acc' acc0 v x y z -> [N H]. unfold f. destruct (double_dec x y) as [->|]; split; try lia. intros Z0. rewrite H by lia. reflexivity.
  - exists out, out', e. split; [exact L1|]. split; [exact L2|]. split; [|exact E]. intros p Hp H.
    assert (C : axisCorrelation shape (ones k) o a (pixel shape zs) p = 0).
    { apply (count_null shape (k, o, a)); [exact Hp|]. intros q Hq. specialize (H q Hq). destruct Hq as [Dq _]. unfold pixel. rewrite (proj2 (inside_spec shape q)) by exact Dq. unfold padded.
      assert (G := forall3_get _ _ _ _ (rank shape q) T). destruct (rank_get shape xs q L Dq) as [x Ex]. rewrite H in *. rewrite Ex in G. destruct (zget zs _); cbn [tri] in G; try contradiction. subst. unfold f. destruct (double_dec x x); [reflexivity|contradiction]. }
    rewrite <- PI in C. unfold pixel in C. rewrite (proj2 (inside_spec shape p)) in C by exact Hp. unfold padded in C.
    assert (G := forall3_get _ _ _ _ (rank shape p) TO). destruct (rank_get shape out p L1 Hp) as [x Ex]. destruct (rank_get shape out' p L2 Hp) as [y Ey]. destruct (rank_get shape ints p L3 Hp) as [z Ez].
    rewrite Ex, Ey, Ez in *. cbn [tri] in G. f_equal. apply G. exact C.
Qed.

Lemma along_nan shape k o a xs : Positive shape -> FitsAny shape (k, o, a) -> Z.of_nat (length xs) = Spec.prod shape ->
  exists out enough, Z.of_nat (length out) = Spec.prod shape /\
    (forall p q, InDomain shape p -> Window shape (k, o, a) p q -> zget xs (rank shape q) = Ok nan -> zget out (rank shape p) = Ok nan) /\
    forall fuel, (enough <= fuel)%nat -> correlateAlongD fuel (Z.of_nat (length shape)) (mkDkernel k o) (Z.of_nat a) (mkRaster shape xs) = Some (Ok (mkRaster shape out)).
Proof.
  intros HP F L. set (f := fun x y : double => if double_dec x nan then 1 else 0). assert (T := forall3_of f xs xs eq_refl). set (zs := map _ _) in T.
  destruct (along_count shape k o a xs xs zs (fun x y z => z = f x y) (fun x y z => 0 <= z /\ (0 < z -> x = nan)) HP F L T) as (out & out' & ints & e & L1 & L2 & L3 & TO & PI & E).
  - split; [lia|lia].
  - intros acc acc' acc0 v x y z -> [N H]. unfold f. destruct (double_dec x nan) as [->|]; split; try lia; intros Z0; [repeat progress nans; reflexivity|]. rewrite H by lia. nans. reflexivity.
  - exists out, e. split; [exact L1|]. split; [|intros fuel Hf; apply (E fuel Hf)]. intros p q Hp Hq Eq.
    assert (NZ : Forall (fun z => 0 <= z) zs) by (refine (forall3_third _ _ _ _ _ _ T); intros x y z ->; unfold f; destruct (double_dec x nan); lia).
    assert (C : 0 < axisCorrelation shape (ones k) o a (pixel shape zs) p).
    { apply (count_positive shape (k, o, a) zs p q); [exact NZ|exact Hp|exact Hq|]. destruct Hq as [Dq _]. unfold pixel. rewrite (proj2 (inside_spec shape q)) by exact Dq. unfold padded.
      assert (G := forall3_get _ _ _ _ (rank shape q) T). rewrite Eq in G. destruct (zget zs _); cbn [tri] in G; try contradiction. subst. unfold f. destruct (double_dec nan nan); [lia|contradiction]. }
    rewrite <- PI in C. unfold pixel in C. rewrite (proj2 (inside_spec shape p)) in C by exact Hp. unfold padded in C.
    assert (G := forall3_get _ _ _ _ (rank shape p) TO). destruct (rank_get shape out p L1 Hp) as [x Ex]. destruct (rank_get shape out' p L2 Hp) as [y Ey]. destruct (rank_get shape ints p L3 Hp) as [z Ez].
    rewrite Ex, Ey, Ez in *. cbn [tri] in G. f_equal. apply G. exact C.
Qed.

Lemma windows_domain shape ks p q : InDomain shape p -> Windows shape ks p q -> InDomain shape q.
Proof. destruct ks as [|koa ks]; cbn [Windows]; [intros H <-; exact H|]. intros _ (r & _ & H & _). exact H. Qed.

Lemma seq_local shape ks : Positive shape -> Forall (FitsAny shape) ks -> forall xs ys, Z.of_nat (length xs) = Spec.prod shape -> Z.of_nat (length ys) = Spec.prod shape ->
  exists out out' enough, Z.of_nat (length out) = Spec.prod shape /\ Z.of_nat (length out') = Spec.prod shape /\
    (forall p, InDomain shape p -> (forall q, Windows shape ks p q -> zget xs (rank shape q) = zget ys (rank shape q)) -> zget out (rank shape p) = zget out' (rank shape p)) /\
    forall fuel, (enough <= fuel)%nat ->
      correlateSeqD fuel (Z.of_nat (length shape)) (kernelsOf ks) (mkRaster shape xs) = Some (Ok (mkRaster shape out)) /\
      correlateSeqD fuel (Z.of_nat (length shape)) (kernelsOf ks) (mkRaster shape ys) = Some (Ok (mkRaster shape out')).
Proof.
  intros HP. induction ks as [|[[k o] a] ks IH]; intros HF xs ys L L'.
  - exists xs, ys, 0%nat. split; [exact L|]. split; [exact L'|]. split; [|intros; split; reflexivity]. intros p _ H. apply H. reflexivity.
  - inversion HF as [|? ? HF1 HF']; subst. destruct (along_local shape k o a xs ys HP HF1 L L') as (m & m' & e1 & L1 & L1' & H1 & E1).
    destruct (IH HF' m m' L1 L1') as (out & out' & e2 & L2 & L2' & H2 & E2). exists out, out', (Nat.max e1 e2). split; [exact L2|]. split; [exact L2'|]. split.
    + intros p Hp H. apply H2; [exact Hp|]. intros r Hr. apply H1; [eapply windows_domain; eauto|]. intros q Hq. apply H. cbn [Windows]. eauto.
    + intros fuel Hf. cbn [kernelsOf map fst snd correlateSeqD]. destruct (E1 fuel ltac:(lia)) as [-> ->]. cbn [obind]. apply E2. lia.
Qed.

Lemma seq_nan shape ks : Positive shape -> Forall (FitsAny shape) ks -> forall xs, Z.of_nat (length xs) = Spec.prod shape ->
  exists out enough, Z.of_nat (length out) = Spec.prod shape /\
    (forall p q, InDomain shape p -> Windows shape ks p q -> zget xs (rank shape q) = Ok nan -> zget out (rank shape p) = Ok nan) /\
    forall fuel, (enough <= fuel)%nat -> correlateSeqD fuel (Z.of_nat (length shape)) (kernelsOf ks) (mkRaster shape xs) = Some (Ok (mkRaster shape out)).
Proof.
  intros HP. induction ks as [|[[k o] a] ks IH]; intros HF xs L.
  - exists xs, 0%nat. split; [exact L|]. split; [|reflexivity]. intros p q _ <-. exact (fun E => E).
  - inversion HF as [|? ? HF1 HF']; subst. destruct (along_nan shape k o a xs HP HF1 L) as (m & e1 & L1 & H1 & E1).
    destruct (IH HF' m L1) as (out & e2 & L2 & H2 & E2). exists out, (Nat.max e1 e2). split; [exact L2|]. split.
    + intros p q Hp (r & Hr & Hq) E. apply (H2 p r Hp Hr). apply (H1 r q); [eapply windows_domain; eauto|exact Hq|exact E].
    + intros fuel Hf. cbn [kernelsOf map fst snd correlateSeqD]. rewrite E1 by lia. cbn [obind]. apply E2. lia.
Qed.

(** ** Comparisons *)
Lemma compare_finite x y : is_finite x = true -> is_finite y = true -> Bcompare x y = Some (Rcompare (real x) (real y)).
Proof. intros Fx Fy. apply (Bcompare_correct 53 1024 x y Fx Fy). Qed.

Lemma dltb_spec x y : dltb x y = true <-> lessThan x y.
Proof.
  assert (G : is_finite x = true -> is_finite y = true -> (dltb x y = true <-> (real x < real y)%R)).
  { intros Fx Fy. unfold dltb. rewrite compare_finite by assumption. destruct (Rcompare_spec (real x) (real y)); split; intros; try discriminate; try lra; reflexivity. }
  destruct x as [s|s| |s m e B], y as [s'|s'| |s' m' e' B']; cbn [lessThan]; try (apply G; reflexivity); try (split; [discriminate|intros []]); unfold dltb; cbn.
  all: try destruct s; try destruct s'; cbn; split; intros; try discriminate; try reflexivity; try tauto; intuition discriminate.
Qed.

Lemma deqb_spec x y : deqb x y = true <-> sameNumber x y.
Proof.
  assert (G : is_finite x = true -> is_finite y = true -> (deqb x y = true <-> (real x = real y)%R)).
  { intros Fx Fy. unfold deqb. rewrite compare_finite by assumption. destruct (Rcompare_spec (real x) (real y)); split; intros; try discriminate; try lra; reflexivity. }
  destruct x as [s|s| |s m e B], y as [s'|s'| |s' m' e' B']; cbn [sameNumber]; try (apply G; reflexivity); try (split; [discriminate|intros []]); unfold deqb; cbn.
  all: try destruct s; try destruct s'; cbn; split; intros; try discriminate; try reflexivity; try tauto; intuition discriminate.
Qed.

Lemma lessThan_irrefl x : ~ lessThan x x.
Proof. destruct x as [s|s| |s m e B]; cbn [lessThan]; [lra|destruct s; intuition discriminate|tauto|lra]. Qed.

Lemma lessThan_trans x y z : lessThan x y -> lessThan y z -> lessThan x z.
Proof.
  destruct x as [s|s| |s m e B], y as [s'|s'| |s' m' e' B'], z as [s''|s''| |s'' m'' e'' B'']; cbn [lessThan]; intros; try tauto; try lra; intuition congruence.
Qed.

Lemma lessThan_neg x y z : x <> nan -> y <> nan -> z <> nan -> ~ lessThan x y -> ~ lessThan y z -> ~ lessThan x z.
Proof.
  unfold nan. destruct x as [s|s| |s m e B], y as [s'|s'| |s' m' e' B'], z as [s''|s''| |s'' m'' e'' B'']; cbn [lessThan]; intros; try congruence; try lra;
    try destruct s; try destruct s'; try destruct s''; intuition congruence.
Qed.

Lemma dltb_false x y : dltb x y = false <-> ~ lessThan x y.
Proof. rewrite <- dltb_spec. destruct (dltb x y); split; intros; congruence || tauto || (exfalso; tauto). Qed.

Lemma lessThan_nan_l x : ~ lessThan nan x. Proof. destruct x; cbn; tauto. Qed.
Lemma lessThan_nan_r x : ~ lessThan x nan. Proof. destruct x; cbn; tauto. Qed.

Lemma is_nan_spec (x : double) : is_nan x = true <-> x = nan.
Proof. destruct x; cbn; split; intros H; try discriminate; reflexivity. Qed.

Lemma weak_order l : WeakOrderOn l <-> ~ In nan l \/ forall x y, In x l -> In y l -> ~ lessThan x y.
Proof.
  unfold WeakOrderOn. split.
  - intros (_ & _ & N). destruct (in_dec double_dec nan l) as [H|H]; [right|left; exact H]. intros x y Hx Hy. rewrite <- dltb_false.
    apply (N x nan y Hx H Hy); apply dltb_false; [apply lessThan_nan_r|apply lessThan_nan_l].
  - intros H. split; [intros x _; apply dltb_false, lessThan_irrefl|]. split; [intros x y z _ _ _; rewrite !dltb_spec; apply lessThan_trans|].
    intros x y z Hx Hy Hz. rewrite !dltb_false. destruct H as [H|H]; [apply lessThan_neg; intros ->; contradiction|]. intros _ _. apply H; assumption.
Qed.

Lemma comparable_spec l : comparable l = true <-> WeakOrderOn l.
Proof.
  rewrite weak_order. unfold comparable. rewrite orb_true_iff, !forallb_forall. split; intros [H|H].
  - left. intros Hn. specialize (H nan Hn). discriminate.
  - right. intros x y Hx Hy. specialize (H x Hx). rewrite forallb_forall in H. specialize (H y Hy). apply dltb_false. destruct (dltb x y); [discriminate|reflexivity].
  - left. intros x Hx. destruct (is_nan x) eqn:E; [|reflexivity]. apply is_nan_spec in E. subst. contradiction.
  - right. intros x Hx. apply forallb_forall. intros y Hy. rewrite (proj2 (dltb_false x y)) by (apply H; assumption). reflexivity.
Qed.

(** Extrema: the order of all doubles where NaN are with infinities *)
Definition tame (x : double) : double := if is_nan x then B754_infinity false else x.
Definition tameLt (x y : double) : bool := dltb (tame x) (tame y).

Lemma tame_number x : tame x <> nan.
Proof. unfold tame. destruct (is_nan x) eqn:E; [discriminate|]. intros H. rewrite H in E. discriminate. Qed.

Lemma tame_order : StrictWeakOrder tameLt.
Proof.
  unfold tameLt. split; intros *; rewrite ?dltb_spec, ?dltb_false; [apply lessThan_irrefl|apply lessThan_trans|apply lessThan_neg; apply tame_number].
Qed.

Lemma tame_lt x y : x <> nan -> y <> nan -> tameLt x y = dltb x y.
Proof.
  intros Hx Hy. unfold tameLt, tame. destruct (is_nan x) eqn:Ex; [apply is_nan_spec in Ex; contradiction|]. destruct (is_nan y) eqn:Ey; [apply is_nan_spec in Ey; contradiction|]. reflexivity.
Qed.

Lemma min_loop_ext : forall l i k v, v <> nan -> ~ In nan l -> minLoop dltb l i k v = minLoop tameLt l i k v.
Proof.
  induction l as [|x l IH]; intros i k v Hv Hl; cbn [minLoop]; [reflexivity|]. assert (Hx : x <> nan) by (intros ->; apply Hl; left; reflexivity). assert (Hl' : ~ In nan l) by (intros H; apply Hl; right; exact H).
  rewrite tame_lt by assumption. destruct (dltb x v); apply IH; assumption.
Qed.

Lemma max_loop_ext : forall l i k v, v <> nan -> ~ In nan l -> maxLoop dltb l i k v = maxLoop tameLt l i k v.
Proof.
  induction l as [|x l IH]; intros i k v Hv Hl; cbn [maxLoop]; [reflexivity|]. assert (Hx : x <> nan) by (intros ->; apply Hl; left; reflexivity). assert (Hl' : ~ In nan l) by (intros H; apply Hl; right; exact H).
  rewrite tame_lt by assumption. destruct (dltb v x); apply IH; assumption.
Qed.

Lemma zget_number (l : list double) j x : ~ In nan l -> zget l j = Ok x -> x <> nan.
Proof. intros H E ->. apply H. unfold zget in E. destruct (j <? 0); [discriminate|]. destruct (nth_error l _) eqn:N; [|discriminate]. injection E as ->. apply nth_error_In in N. exact N. Qed.

Lemma dmin_spec l : l <> [] -> ~ In nan l ->
  exists k v, dmin l = Ok (k, v) /\ zget l k = Ok v /\ (forall j x, zget l j = Ok x -> ~ lessThan x v) /\ (forall j x, zget l j = Ok x -> j < k -> lessThan v x).
Proof.
  intros Hne Hl. unfold dmin. rewrite (proj2 (comparable_spec l)) by (apply weak_order; left; exact Hl). destruct (cmin_spec tameLt tame_order l Hne) as (k & v & E & G & H1 & H2).
  destruct l as [|a l]; [contradiction|]. cbn [cmin] in *. rewrite min_loop_ext by (intros H; apply Hl; (left; exact H) || (right; exact H)). exists k, v. split; [exact E|]. split; [exact G|]. assert (Hv := zget_number _ _ _ Hl G). split.
  - intros j x Hx. assert (Nx := zget_number _ _ _ Hl Hx). apply dltb_false. rewrite <- tame_lt by assumption. eapply H1; eauto.
  - intros j x Hx Hj. assert (Nx := zget_number _ _ _ Hl Hx). apply dltb_spec. rewrite <- tame_lt by assumption. eapply H2; eauto.
Qed.

Lemma dmax_spec l : l <> [] -> ~ In nan l ->
  exists k v, dmaxElement l = Ok (k, v) /\ zget l k = Ok v /\ (forall j x, zget l j = Ok x -> ~ lessThan v x) /\ (forall j x, zget l j = Ok x -> j < k -> lessThan x v).
Proof.
  intros Hne Hl. unfold dmaxElement. rewrite (proj2 (comparable_spec l)) by (apply weak_order; left; exact Hl). destruct (cmax_spec tameLt tame_order l Hne) as (k & v & E & G & H1 & H2).
  destruct l as [|a l]; [contradiction|]. cbn [cmax] in *. rewrite max_loop_ext by (intros H; apply Hl; (left; exact H) || (right; exact H)). exists k, v. split; [exact E|]. split; [exact G|]. assert (Hv := zget_number _ _ _ Hl G). split.
  - intros j x Hx. assert (Nx := zget_number _ _ _ Hl Hx). apply dltb_false. rewrite <- tame_lt by assumption. eapply H1; eauto.
  - intros j x Hx Hj. assert (Nx := zget_number _ _ _ Hl Hx). apply dltb_spec. rewrite <- tame_lt by assumption. eapply H2; eauto.
Qed.

Lemma extrema_undefined l x y : In nan l -> In x l -> In y l -> lessThan x y -> dmin l = UB /\ dmaxElement l = UB /\ dminmax l = UB.
Proof.
  intros Hn Hx Hy H. unfold dmin, dmaxElement, dminmax. destruct (comparable l) eqn:E; [|auto]. exfalso. apply comparable_spec, weak_order in E as [E|E]; [contradiction|]. apply (E x y); assumption.
Qed.

(** Usual implementations *)
Lemma loop_keeps_nan : forall l i k, snd (minLoop dltb l i k nan) = nan /\ snd (maxLoop dltb l i k nan) = nan.
Proof.
  induction l as [|x l IH]; intros i k; cbn [minLoop maxLoop]; [auto|]. rewrite (proj2 (dltb_false x nan)) by apply lessThan_nan_r. rewrite (proj2 (dltb_false nan x)) by apply lessThan_nan_l. apply IH.
Qed.

(** ** Equality *)
Lemma listEqb_iff {A} (eqb : A -> A -> bool) l m : listEqb eqb l m = true <-> Forall2 (fun x y => eqb x y = true) l m.
Proof.
  revert m. induction l as [|x l IH]; intros [|y m]; cbn [listEqb]; split; intros H; try discriminate; try (now constructor); try (now inversion H).
  - apply andb_true_iff in H as [H1 H2]. constructor; [exact H1|]. apply IH. exact H2.
  - inversion H; subst. apply andb_true_iff. split; [assumption|]. apply IH. assumption.
Qed.

Lemma veqb_iff a b : veqb a b = true <-> a = b.
Proof.
  unfold veqb. revert b. induction a as [|x a IH]; intros [|y b]; cbn; split; intros H; try discriminate; try reflexivity.
  - apply andb_true_iff in H as [H1 H2]. apply Z.eqb_eq in H1. apply IH in H2. congruence.
  - injection H as -> ->. rewrite Z.eqb_refl. apply IH. reflexivity.
Qed.

Lemma equality_numbers a b : rasterEqb deqb a b = true <-> rshape a = rshape b /\ Forall2 sameNumber (rdata a) (rdata b).
Proof.
  unfold rasterEqb. destruct (veqb (rshape a) (rshape b)) eqn:E; cbn [negb].
  - apply veqb_iff in E. rewrite listEqb_iff. split; intros H; [split; [exact E|]|destruct H as [_ H]]; (eapply forall2_weaken; [|exact H]); intros x y; apply deqb_spec.
  - split; [discriminate|]. intros [H _]. apply veqb_iff in H. congruence.
Qed.

Lemma equality_self a : rasterEqb deqb a a = true <-> ~ In nan (rdata a).
Proof.
  rewrite equality_numbers. split.
  - intros [_ H] Hn. induction (rdata a) as [|x l IH]; [destruct Hn|]. inversion H as [|? ? ? ? H1 H2]; subst. destruct Hn as [->|Hn]; [exact H1|exact (IH H2 Hn)].
  - intros H. split; [reflexivity|]. induction (rdata a) as [|x l IH]; constructor; [|apply IH; intros Hn; apply H; right; exact Hn].
    destruct x; cbn [sameNumber]; try reflexivity. apply H. left. reflexivity.
Qed.

Lemma equality_sym a b : rasterEqb deqb a b = rasterEqb deqb b a.
Proof.
  assert (S : forall a b, rasterEqb deqb a b = true -> rasterEqb deqb b a = true).
  { intros u v. rewrite !equality_numbers. intros [E H]. split; [congruence|]. induction H as [|x y l m H _ IH]; constructor; [|exact IH]. destruct x, y; cbn [sameNumber] in *; auto. }
  destruct (rasterEqb deqb a b) eqn:E1, (rasterEqb deqb b a) eqn:E2; try reflexivity; [apply S in E1|apply S in E2]; congruence.
Qed.

Lemma equality_trans a b c : rasterEqb deqb a b = true -> rasterEqb deqb b c = true -> rasterEqb deqb a c = true.
Proof.
  rewrite !equality_numbers. intros [E H] [E' H']. split; [congruence|]. revert H'. generalize (rdata c). induction H as [|x y l m H _ IH]; intros n H'; inversion H' as [|? z ? n' H1 H2]; subst; constructor; [|apply IH; exact H2].
  destruct x, y, z; cbn [sameNumber] in *; try contradiction; congruence.
Qed.

Lemma minmax_loop_ext : forall l i mn mx, snd mn <> nan -> snd mx <> nan -> ~ In nan l -> minmaxLoop dltb l i mn mx = minmaxLoop tameLt l i mn mx.
Proof.
  induction l as [|x l IH]; intros i mn mx Hn Hm Hl; cbn [minmaxLoop]; [reflexivity|]. assert (Hx : x <> nan) by (intros ->; apply Hl; left; reflexivity). assert (Hl' : ~ In nan l) by (intros H; apply Hl; right; exact H).
  rewrite !tame_lt by assumption. apply IH; [destruct (dltb x (snd mn))|destruct (dltb x (snd mx))|]; assumption.
Qed.

Lemma dminmax_spec l : l <> [] -> ~ In nan l ->
  exists mn k v, dminmax l = Ok (mn, (k, v)) /\ dmin l = Ok mn /\ zget l k = Ok v /\ (forall j x, zget l j = Ok x -> ~ lessThan v x) /\ (forall j x, zget l j = Ok x -> k < j -> lessThan x v).
Proof.
  intros Hne Hl. unfold dminmax, dmin. rewrite (proj2 (comparable_spec l)) by (apply weak_order; left; exact Hl). destruct (cminmax_spec tameLt tame_order l Hne) as (kn & vn & k & v & E & M & G & H1 & H2).
  destruct l as [|a l]; [contradiction|]. cbn [cminmax cmin] in *. assert (Ha : a <> nan) by (intros H; apply Hl; left; exact H). assert (Hl' : ~ In nan l) by (intros H; apply Hl; right; exact H).
  rewrite min_loop_ext by assumption. rewrite minmax_loop_ext by assumption. exists (kn, vn), k, v. split; [exact E|]. split; [exact M|]. split; [exact G|]. assert (Hv := zget_number _ _ _ Hl G). split.
  - intros j x Hx. assert (Nx := zget_number _ _ _ Hl Hx). apply dltb_false. rewrite <- tame_lt by assumption. eapply H1; eauto.
  - intros j x Hx Hj. assert (Nx := zget_number _ _ _ Hl Hx). apply dltb_spec. rewrite <- tame_lt by assumption. eapply H2; eauto.
Qed.

(** A leading NaN hides all other values from the loops; elsewhere it is ignored. *)
Lemma min_loop_skips : forall l i k v, v <> nan -> snd (minLoop dltb l i k v) = snd (minLoop dltb (filter (fun x => negb (is_nan x)) l) i k v).
Proof.
  assert (G : forall l i i' k k' v, snd (minLoop dltb l i k v) = snd (minLoop dltb l i' k' v)).
  { induction l as [|x l IH]; intros; cbn [minLoop]; [reflexivity|]. destruct (dltb x v); apply IH. }
  induction l as [|x l IH]; intros i k v Hv; cbn [minLoop filter]; [reflexivity|]. destruct (is_nan x) eqn:E; cbn [negb].
  - apply is_nan_spec in E. subst. rewrite (proj2 (dltb_false nan v)) by apply lessThan_nan_l. rewrite (G l _ i _ k). apply IH. exact Hv.
  - cbn [minLoop]. destruct (dltb x v); apply IH; [|exact Hv]. intros ->. discriminate.
Qed.

Lemma usual_extrema l v : v <> nan ->
  (exists k, cmin dltb (nan :: l) = Ok (k, nan)) /\ (exists k, cmax dltb (nan :: l) = Ok (k, nan)) /\
  exists k k' w, cmin dltb (v :: l) = Ok (k, w) /\ cmin dltb (v :: filter (fun x => negb (is_nan x)) l) = Ok (k', w).
Proof.
  intros Hv. cbn [cmin cmax]. destruct (loop_keeps_nan l 1 0) as [N X]. assert (S' := min_loop_skips l 1 0 v Hv).
  destruct (minLoop dltb l 1 0 nan) as [k1 w1], (maxLoop dltb l 1 0 nan) as [k2 w2], (minLoop dltb l 1 0 v) as [k3 w3], (minLoop dltb (filter (fun x => negb (is_nan x)) l) 1 0 v) as [k4 w4]. cbn [snd] in *. subst.
  split; [eexists; reflexivity|]. split; [eexists; reflexivity|]. exists k3, k4, w4. split; reflexivity.
Qed.

Lemma zeros_differ : exists a b : raster double, rasterEqb deqb a b = true /\
  rasterEqb deqb (mkRaster (rshape a) (map (ddiv (dofZ 1)) (rdata a))) (mkRaster (rshape b) (map (ddiv (dofZ 1)) (rdata b))) = false.
Proof. exists (mkRaster [1] [dofZ 0]), (mkRaster [1] [dopp (dofZ 0)]). split; vm_compute; reflexivity. Qed.
