(** Proofs about the prints of correlations. *)
From Verif Require Import Res Lemmas Spec VecModel BoxModel RasterModel SamplingModel LineKernelModel SeparableModel Conv2dModel WidthModel WidthSpec
  KernelSpec SeparableSpec PrintModel PrintSpec.
From Verif Require Import IndexProofs LineKernelProofs SeparableProofs.

Lemma asInt_spec t z : asInt t z = Ok z /\ Printable t z \/ asInt t z = UB /\ ~ Printable t z.
Proof.
  unfold asInt, Printable, PassedAsInt. destruct t as [t|]; [|right; tauto].
  assert (P : (ibits (promoted t) =? 32) = true <-> ibits t <= 32).
  { unfold promoted. destruct (Z.ltb_spec (ibits t) 32); cbn [ibits int32]; split; intros; lia. }
  assert (F : fits int32 z = true <-> - 2 ^ 31 <= z < 2 ^ 31) by (unfold fits, itmin, itmax; cbn [isigned ibits int32]; lia).
  destruct (ibits (promoted t) =? 32); cbn [andb]; [|right; split; auto; intros [A _]; apply P in A; congruence].
  destruct (fits int32 z); [left|right]; split; auto.
  - split; [now apply P|now apply F].
  - intros [_ A]. apply F in A. congruence.
Qed.

Lemma asInt_ok t z : Printable t z -> asInt t z = Ok z.
Proof. intros H. destruct (asInt_spec t z) as [[E _]|[_ E]]; tauto. Qed.
Lemma asInt_inv t z v : asInt t z = Ok v -> v = z /\ Printable t z.
Proof. intros H. destruct (asInt_spec t z) as [[E P]|[E P]]; rewrite E in H; [injection H; auto|discriminate]. Qed.
Lemma asInt_ub t z : ~ Printable t z -> asInt t z = UB.
Proof. intros H. destruct (asInt_spec t z) as [[_ P]|[E P]]; tauto. Qed.

Lemma obind_ok {A B} (x : option (res A)) (f : A -> option (res B)) y : obind x f = Some (Ok y) -> exists a, x = Some (Ok a) /\ f a = Some (Ok y).
Proof. destruct x as [[a| |]|]; cbn [obind]; intros H; try discriminate. eauto. Qed.
Lemma bind_ok {A B} (x : res A) (f : A -> res B) y : bind x f = Ok y -> exists a, x = Ok a /\ f a = Ok y.
Proof. destruct x; cbn [bind]; intros H; try discriminate. eauto. Qed.
Ltac unbind H := let a := fresh "a" in let E := fresh "E" in apply bind_ok in H; destruct H as (a & E & H).
Ltac unobind H := let a := fresh "a" in let E := fresh "E" in apply obind_ok in H; destruct H as (a & E & H).

(** ** Separable kernels *)

Lemma seqP_result t m axes : forall fuel n r out cs, correlateSeqP fuel n t m axes r = Some (Ok (out, cs)) ->
  correlateSeq fuel n m axes r = Some (Ok out) /\ length cs = length axes.
Proof.
  induction axes as [|axis axes IH]; intros fuel n r out cs H; cbn [correlateSeqP correlateSeq] in *.
  - injection H as <- <-. auto.
  - unobind H. unobind H. unobind H. destruct a1 as [o c]. destruct (IH _ _ _ _ _ E1) as [A B]. rewrite E. cbn [obind]. rewrite E0. cbn [obind].
    unfold lift in H. injection H as H. cbn [fst snd] in H. unbind H. unbind H. unbind H. unbind H. injection H as <- <-. split; [exact A|].
    rewrite app_length. cbn. lia.
Qed.

Lemma sapplyP_result fuel n t s r out cs : sapplyP fuel n t s r = Some (Ok (out, cs)) -> sapply fuel n s r = Some (Ok out) /\ length cs = length (saxes s).
Proof. apply seqP_result. Qed.

Lemma first_domain shape : Positive shape -> InDomain shape (firstPosition shape).
Proof. induction 1 as [|s shape Hs H IH]; [constructor|]. cbn. constructor; [lia|exact IH]. Qed.

Lemma rank_first shape : rank shape (firstPosition shape) = 0.
Proof.
  unfold rank. generalize 1. induction shape as [|s shape IH]; intros st; [reflexivity|]. cbn [firstPosition map]. fold (firstPosition shape). cbn [rankFrom]. rewrite IH. lia.
Qed.

Lemma first_pixel shape data : Positive shape -> Z.of_nat (length data) = prod shape -> zget data 0 = Ok (pixel shape data (firstPosition shape)).
Proof.
  intros Hp Hd. unfold pixel. rewrite (proj2 (inside_spec _ _) (first_domain _ Hp)), rank_first. apply padded_in. split; [lia|]. rewrite Hd.
  assert (B := rank_bounds shape (firstPosition shape) (first_domain _ Hp)). lia.
Qed.

Lemma calls_cons shape k o a ks X :
  separableCalls shape ((k, o, a) :: ks) X =
  separableCalls shape ks (axisCorrelation shape k o a X) ++
  [mkCall "%li: %i -> %i" [Z.of_nat a; stage shape ((k, o, a) :: ks) X 1; stage shape ((k, o, a) :: ks) X (S (length ks))]].
Proof.
  unfold separableCalls. cbn [length seq map nth rev snd]. f_equal. rewrite <- seq_shift, map_map. f_equal.
Qed.

Lemma printable_all t f n : (forall j, (0 < j <= n)%nat -> Printable t (f j)) \/ exists j, (0 < j <= n)%nat /\ ~ Printable t (f j).
Proof.
  induction n as [|n [IH|(j & Hj & N)]]; [left; lia| |right; exists j; split; [lia|auto]].
  destruct (asInt_spec t (f (S n))) as [[_ P]|[_ P]]; [left|right; exists (S n); split; [lia|auto]].
  intros j Hj. destruct (Nat.eq_dec j (S n)) as [->|]; [exact P|apply IH; lia].
Qed.

Lemma seqP_ok shape t m axes ks : Positive shape -> Forall2 (Found m) axes ks -> Forall (Fits shape) ks ->
  forall data, Z.of_nat (length data) = prod shape ->
  exists out, Z.of_nat (length out) = prod shape /\ (forall p, pixel shape out p = axesCorrelation shape ks (pixel shape data) p) /\
  exists enough, forall fuel, (enough <= fuel)%nat ->
    correlateSeq fuel (Z.of_nat (length shape)) m axes (mkRaster shape data) = Some (Ok (mkRaster shape out)) /\
    ((forall j, (0 < j <= length ks)%nat -> Printable t (stage shape ks (pixel shape data) j)) ->
     correlateSeqP fuel (Z.of_nat (length shape)) t m axes (mkRaster shape data) = Some (Ok (mkRaster shape out, separableCalls shape ks (pixel shape data)))) /\
    ((exists j, (0 < j <= length ks)%nat /\ ~ Printable t (stage shape ks (pixel shape data) j)) ->
     correlateSeqP fuel (Z.of_nat (length shape)) t m axes (mkRaster shape data) = Some UB).
Proof.
  intros Hpos HF. induction HF as [|axis [[k o] a] axes ks Hf HF IH]; intros HT data Hd.
  - exists data. split; [auto|]. split; [reflexivity|]. exists O. intros fuel _. split; [reflexivity|]. split; [reflexivity|]. intros (j & Hj & _). cbn in Hj. lia.
  - inversion HT as [|? ? T T5]; subst. destruct T as (T1 & T2 & T3 & T4). destruct Hf as [-> Hm].
    destruct (along_spec shape data k o a T1 Hpos Hd T2 T3 T4) as (tmp & L1 & P1 & e1 & E1).
    destruct (IH T5 tmp L1) as (out & L2 & P2 & e2 & E2). exists out. split; [auto|].
    assert (PX : forall p, pixel shape out p = axesCorrelation shape ((k, o, a) :: ks) (pixel shape data) p).
    { intros p. rewrite P2. cbn [axesCorrelation]. apply axes_ext, P1. }
    split; [exact PX|]. exists (Nat.max e1 e2). intros fuel Hfu. destruct (E2 fuel ltac:(lia)) as (A & B & C).
    assert (SX : forall j, stage shape ks (pixel shape tmp) j = stage shape ((k, o, a) :: ks) (pixel shape data) (S j)).
    { intros j. unfold stage. cbn [firstn axesCorrelation]. apply axes_ext, P1. }
    assert (CX : separableCalls shape ks (pixel shape tmp) = separableCalls shape ks (axisCorrelation shape k o a (pixel shape data))).
    { unfold separableCalls. f_equal. apply map_ext. intros j. unfold stage. rewrite !(axes_ext _ _ _ _ P1). reflexivity. }
    cbn [correlateSeq correlateSeqP]. rewrite Hm. cbn [lift obind]. rewrite E1 by lia. cbn [obind]. split; [exact A|].
    assert (Z1 : zget tmp 0 = Ok (stage shape ((k, o, a) :: ks) (pixel shape data) 1)).
    { rewrite (first_pixel shape tmp Hpos L1). f_equal. exact (SX O). }
    assert (Z2 : zget out 0 = Ok (stage shape ((k, o, a) :: ks) (pixel shape data) (S (length ks)))).
    { rewrite (first_pixel shape out Hpos L2), PX. unfold stage. now rewrite (firstn_all2 ((k, o, a) :: ks)) by (cbn; lia). }
    split.
    + intros H. rewrite B by (intros j Hj; rewrite SX; apply H; cbn; lia). cbn [obind fst snd rdata]. rewrite Z1, Z2. cbn [bind].
      rewrite !asInt_ok by (apply H; cbn; lia). cbn [bind lift]. rewrite calls_cons, CX. reflexivity.
    + intros (j & Hj & HN). destruct (printable_all t (stage shape ks (pixel shape tmp)) (length ks)) as [G|G]; [|now rewrite (C G)].
      rewrite (B G). cbn [obind fst snd rdata]. rewrite Z1, Z2. cbn [bind lift].
      destruct (asInt_spec t (stage shape ((k, o, a) :: ks) (pixel shape data) 1)) as [[E3 P3]|[E3 P3]]; rewrite E3; [|reflexivity].
      exfalso. destruct j as [|[|j]]; [lia|tauto|]. apply HN. rewrite <- SX. apply G. cbn in Hj. lia.
Qed.

Lemma sapplyP_ok shape t s ks data : Positive shape -> Forall2 (Found (smap s)) (saxes s) ks -> Forall (Fits shape) ks -> Z.of_nat (length data) = prod shape ->
  exists out enough, forall fuel, (enough <= fuel)%nat ->
    sapply fuel (Z.of_nat (length shape)) s (mkRaster shape data) = Some (Ok (mkRaster shape out)) /\
    ((forall j, (0 < j <= length ks)%nat -> Printable t (stage shape ks (pixel shape data) j)) ->
     sapplyP fuel (Z.of_nat (length shape)) t s (mkRaster shape data) = Some (Ok (mkRaster shape out, separableCalls shape ks (pixel shape data)))) /\
    ((exists j, (0 < j <= length ks)%nat /\ ~ Printable t (stage shape ks (pixel shape data) j)) ->
     sapplyP fuel (Z.of_nat (length shape)) t s (mkRaster shape data) = Some UB).
Proof.
  intros Hp HF HT Hd. destruct (seqP_ok shape t (smap s) (saxes s) ks Hp HF HT data Hd) as (out & _ & _ & e & E). exists out, e. exact E.
Qed.

Lemma sapplyP_not_int fuel n t s r out cs : ~ PassedAsInt t -> sapplyP fuel n t s r = Some (Ok (out, cs)) -> saxes s = [].
Proof.
  intros Ht H. unfold sapplyP in H. destruct (saxes s) as [|axis axes]; [reflexivity|]. exfalso. cbn [correlateSeqP] in H. unobind H. unobind H. unobind H.
  unfold lift in H. injection H as H. unbind H. unbind H. unbind H. apply asInt_inv in E4. destruct E4 as [_ [P _]]. tauto.
Qed.

(** ** Lines *)

Lemma loopP fuel cond value step istride ostride : forall s s', corrLoop fuel cond value step istride ostride s = Some (Ok s') ->
  exists ivs, map fst ivs = map (fun j => ci s + Z.of_nat j * step) (seq 0 (length ivs)) /\ ci s' = ci s + Z.of_nat (length ivs) * step /\
    cin s' = cin s + Z.of_nat (length ivs) * (step * istride) /\
    Forall (fun iv => cond (fst iv) = true) ivs /\ cond (ci s') = false /\
    (forall j i v, nth_error ivs j = Some (i, v) -> value i (cin s + Z.of_nat j * (step * istride)) = Ok v) /\
    forall print cs, corrLoopP fuel cond value print step istride ostride s cs =
      match mapRes (fun iv => print (fst iv) (snd iv)) ivs with Ok l => Some (Ok (s', cs ++ l)) | Throw e => Some (Throw e) | UB => Some UB end.
Proof.
  induction fuel as [|fuel IH]; intros s s' H; cbn [corrLoop] in *; [discriminate|]. destruct (cond (ci s)) eqn:C.
  - destruct (value (ci s) (cin s)) as [v| |] eqn:V; try discriminate. destruct (zset (cmem s) (cout s) v) as [m| |] eqn:M; try discriminate.
    destruct (IH _ _ H) as (ivs & A1 & A2 & A3 & A4 & A5 & A6 & A7). cbn [ci cin] in *. exists ((ci s, v) :: ivs). cbn [length seq map fst snd].
    split; [f_equal; [lia|]; rewrite <- seq_shift, map_map; rewrite A1; apply map_ext; intros j; lia|]. split; [lia|]. split; [lia|].
    split; [constructor; auto|]. split; [auto|]. split.
    + intros [|j] i w N; cbn [nth_error] in N; [injection N as <- <-; now rewrite Z.mul_0_l, Z.add_0_r|]. rewrite <- (A6 j i w N). f_equal. lia.
    + intros print cs. cbn [corrLoopP]. rewrite C, V. cbn [bind]. rewrite M. cbn [bind mapRes fst snd]. destruct (print (ci s) v) as [c| |]; cbn [lift obind bind fst snd]; [|reflexivity|reflexivity].
      rewrite A7. destruct (mapRes _ ivs); auto. now rewrite <- app_assoc.
  - injection H as <-. exists []. cbn [map length seq fst]. split; [auto|]. split; [lia|]. split; [lia|]. split; [constructor|]. split; [auto|]. split; [intros [|j]; discriminate|].
    intros print cs. cbn [corrLoopP mapRes]. now rewrite C, app_nil_r.
Qed.

Lemma loopP_inv fuel cond value print step istride ostride : forall s cs s' cs', corrLoopP fuel cond value print step istride ostride s cs = Some (Ok (s', cs')) ->
  corrLoop fuel cond value step istride ostride s = Some (Ok s') /\ exists l, cs' = cs ++ l /\ ((forall i v c, print i v <> Ok c) -> l = [] /\ s' = s).
Proof.
  induction fuel as [|fuel IH]; intros s cs s' cs' H; cbn [corrLoop corrLoopP] in *; [discriminate|]. destruct (cond (ci s)).
  - unobind H. unfold lift in E. injection E as E. unbind E. unbind E. unbind E. injection E as <-. rewrite E0, E1. cbn [fst snd] in H.
    apply IH in H. destruct H as (A & l & -> & B). split; [exact A|]. exists (a2 :: l). rewrite <- app_assoc. split; [reflexivity|]. intros N. destruct (N _ _ _ E2).
  - injection H as <- <-. split; [reflexivity|]. exists []. now rewrite app_nil_r.
Qed.

Lemma mapRes_ok {A B} (f : A -> res B) (g : A -> B) l : (forall a, In a l -> f a = Ok (g a)) -> mapRes f l = Ok (map g l).
Proof. induction l as [|a l IH]; intros H; cbn [mapRes map]; [reflexivity|]. rewrite H by now left. cbn [bind]. rewrite IH by (intros; apply H; now right). reflexivity. Qed.

Lemma mapRes_ub {A B} (f : A -> res B) l : (forall a, In a l -> f a = UB) -> l <> [] -> mapRes f l = UB.
Proof. destruct l as [|a l]; intros H N; [congruence|]. cbn [mapRes]. rewrite H by now left. reflexivity. Qed.

(** The result of a correlation with prints is that without. *)
Lemma correlateP_result fuel t k min din mout dout m cs : correlateP fuel t k min din mout dout = Some (Ok (m, cs)) ->
  correlate fuel k min din mout dout = Some (Ok m) /\ (exists c l, cs = c :: l) /\ (~ PassedAsInt t -> m = mout).
Proof.
  unfold correlateP, correlate. intros H. unobind H. unobind H. unobind H. injection H as H1 H2. destruct a as [s1 c1], a0 as [s2 c2], a1 as [s3 c3]. cbn [fst snd] in *.
  apply loopP_inv in E. apply loopP_inv in E0. apply loopP_inv in E1. destruct E as (E & l1 & L1 & N1). destruct E0 as (E0 & l2 & L2 & N2). destruct E1 as (E1 & l3 & L3 & N3).
  rewrite E. cbn [obind]. rewrite E0. cbn [obind]. rewrite E1. cbn [obind]. subst. split; [reflexivity|]. split.
  - eexists. eexists. cbn [app]. reflexivity.
  - intros Nt. assert (NP : forall f b i v c, (b <- asLong b ;; i <- asLong i ;; v <- asInt t v ;; Ok (mkCall f [b; i; v])) <> Ok c).
    { intros f b i v c Q. unbind Q. unbind Q. unbind Q. apply asInt_inv in E4. destruct E4 as [_ [P _]]. tauto. }
    destruct (N1 (NP _ _)) as [_ ->]. destruct (N2 (NP _ _)) as [_ ->]. destruct (N3 (NP _ _)) as [_ ->]. reflexivity.
Qed.

Lemma asLong_ok z : - 2 ^ 63 <= z < 2 ^ 63 -> asLong z = Ok z.
Proof. intros H. unfold asLong, fits, itmin, itmax. cbn [isigned ibits int64]. replace (_ && _) with true by lia. reflexivity. Qed.

Lemma indices_range (ivs : list (Z * Z)) a : map fst ivs = map (fun j => a + Z.of_nat j * 1) (seq 0 (length ivs)) -> map fst ivs = zrange a (a + Z.of_nat (length ivs) - 1).
Proof.
  intros ->. generalize (length ivs). intros n. revert a. induction n as [|n IH]; intros a; [rewrite zrange_empty by lia; reflexivity|].
  rewrite zrange_cons by lia. cbn [seq map]. f_equal; [lia|]. rewrite <- seq_shift, map_map. replace (a + Z.of_nat (S n) - 1) with (a + 1 + Z.of_nat n - 1) by lia.
  rewrite <- IH. apply map_ext. intros j. lia.
Qed.

(** A list of pairs of index and value, where the value is given by the index. *)
Lemma pairs_map (ivs : list (Z * Z)) a f : map fst ivs = zrange a (a + Z.of_nat (length ivs) - 1) -> (forall j i v, nth_error ivs j = Some (i, v) -> v = f i) ->
  ivs = map (fun i => (i, f i)) (zrange a (a + Z.of_nat (length ivs) - 1)).
Proof.
  intros H1 H2. rewrite <- H1. clear H1. induction ivs as [|[i v] ivs IH]; [reflexivity|]. cbn [map fst]. rewrite (H2 O i v eq_refl). f_equal. apply IH.
  intros j x y N. exact (H2 (S j) x y N).
Qed.

Lemma correlateP_all t k o min data size istride x m0 odata osize oback ostride fuel :
  0 <= o < Z.of_nat (length k) -> Z.of_nat (length k) <= size -> size < 2 ^ 61 -> Line min data size istride x ->
  ostride <> 0 -> (forall i, 0 <= i < size -> 0 <= odata + i * ostride < Z.of_nat (length m0)) -> (Z.to_nat size < fuel)%nat ->
  let din := mkDsamples data size (mkSampling 0 (size - 1) 1) istride in
  let dout := mkDsamples odata osize (mkSampling 0 oback 1) ostride in
  exists m, correlate fuel (mkLkernel k o) min din m0 dout = Some (Ok m) /\
    ((forall i, 0 <= i < size -> Printable t (correlation k o x i)) ->
     correlateP fuel t (mkLkernel k o) min din m0 dout =
       Some (Ok (m, mkCall "in = [%li:%li:%li:%li]" [0; size - 1; 1; istride] :: map (lineCall (Z.of_nat (length k)) o size (correlation k o x)) (zrange 0 (size - 1))))) /\
    (~ PassedAsInt t -> correlateP fuel t (mkLkernel k o) min din m0 dout = Some UB).
Proof.
  intros Ho Hk Hs HL Hos Hout Hfuel din dout. destruct (correlate_all k o min data size istride x m0 odata osize oback ostride fuel Ho Hk Hs HL Hos Hout Hfuel) as (m & E & _).
  exists m. split; [exact E|]. fold din dout in E.
  unfold correlate in E. unfold correlateP. unfold din, dout in *. cbn [lvalues lorigin dSampling dStride dSize dData sfront sback sstep] in *. unfold lsize in *. cbn [lvalues] in *.
  set (f := Z.of_nat (length k) - o - 1) in *. rewrite (u64_small f) in * by (unfold f; lia). rewrite (u64_small (size - f - 1)) in * by (unfold f; lia).
  set (s0 := mkCstate 0 _ _ m0) in *. unobind E. unobind E. unobind E.
  set (head := mkCall _ _ : call).
  assert (PF : forall fmt b i v, 0 <= b < 2 ^ 61 -> 0 <= i < 2 ^ 61 -> (b' <- asLong b ;; i' <- asLong i ;; v' <- asInt t v ;; Ok (mkCall fmt [b'; i'; v'])) = (v' <- asInt t v ;; Ok (mkCall fmt [b; i; v']))).
  { intros fmt b i v Hb Hi. rewrite !asLong_ok by lia. reflexivity. }
  destruct (loopP _ _ _ _ _ _ _ _ E0) as (l1 & I1 & C1 & N1 & F1 & X1 & V1 & R1).
  change (ci s0) with 0 in *.
  assert (L1 : Z.of_nat (length l1) = o).
  { rewrite C1 in X1. rewrite Forall_forall in F1. destruct (Z.lt_trichotomy (Z.of_nat (length l1)) o) as [L|[L|L]]; [lia|auto|]. exfalso.
    assert (In o (map fst l1)) as I by (rewrite (indices_range _ _ I1); apply In_zrange; lia). apply in_map_iff in I. destruct I as ([i v] & I2 & I3). cbn in I2. apply F1 in I3. cbn in I3. lia. }
  rewrite L1 in *. apply indices_range in I1. rewrite L1 in I1.
  destruct (loopP _ _ _ _ _ _ _ _ E1) as (l2 & I2 & C2 & N2 & F2 & X2 & V2 & R2).
  rewrite C1 in I2, C2. replace (0 + o * 1) with o in * by lia. apply indices_range in I2.
  assert (L2 : Z.of_nat (length l2) = size - f - o).
  { rewrite C2 in X2. rewrite Forall_forall in F2. destruct (Z.lt_trichotomy (Z.of_nat (length l2)) (size - f - o)) as [L|[L|L]]; [|auto|]; exfalso.
    - rewrite u64_small in X2 by (unfold f in *; lia). lia.
    - assert (In (size - f) (map fst l2)) as I by (rewrite I2; apply In_zrange; unfold f in *; lia). apply in_map_iff in I. destruct I as ([i v] & J2 & J3). cbn in J2. apply F2 in J3. cbn [fst] in J3.
      rewrite u64_small in J3 by (unfold f in *; lia). lia. }
  rewrite L2 in *. replace (o + (size - f - o)) with (size - f) in I2 by lia.
  destruct (loopP _ _ _ _ _ _ _ _ E2) as (l3 & I3 & C3 & N3 & F3 & X3 & V3 & R3).
  rewrite C2 in I3, C3. replace (o + (size - f - o) * 1) with (size - f) in * by lia. apply indices_range in I3.
  assert (L3 : Z.of_nat (length l3) = f).
  { rewrite C3 in X3. rewrite Forall_forall in F3. destruct (Z.lt_trichotomy (Z.of_nat (length l3)) f) as [L|[L|L]]; [|auto|]; exfalso; [lia|].
    assert (In size (map fst l3)) as I by (rewrite I3; apply In_zrange; unfold f in *; lia). apply in_map_iff in I. destruct I as ([i v] & J2 & J3). cbn in J2. apply F3 in J3. cbn [fst] in J3. lia. }
  rewrite L3 in *. replace (size - f + f - 1) with (size - 1) in I3 by lia.
  assert (IT : dsIter (dsMake data size (mkSampling 0 (size - 1) 1) istride) 0 = data) by (unfold dsIter; cbn [dsMake dData dSampling dStride sfront sstep]; lia).
  assert (CI : cin s0 = data - o * istride) by (unfold s0; cbn [cin]; rewrite IT; lia).
  assert (ND : forall (l : list (Z * Z)) a' b' j i v, map fst l = zrange a' b' -> nth_error l j = Some (i, v) -> i = a' + Z.of_nat j /\ a' <= i <= b').
  { intros l a' b' j i v Hl Hn. assert (J : nth_error (map fst l) j = Some i) by (rewrite nth_error_map, Hn; reflexivity). rewrite Hl in J.
    split; [|apply In_zrange; eapply nth_error_In, J]. rewrite nth_error_zrange in J. destruct (a' + Z.of_nat j <=? b'); [injection J as <-; reflexivity|discriminate]. }
  assert (P1 : l1 = map (fun i => (i, correlation k o x i)) (zrange 0 (o - 1))).
  { replace (o - 1) with (0 + Z.of_nat (length l1) - 1) by lia. apply pairs_map; [rewrite L1; exact I1|]. intros j i v Hn. destruct (ND _ _ _ _ _ _ I1 Hn) as [J1 J2].
    apply V1 in Hn. rewrite IT in Hn. rewrite Z.mul_0_l, Z.sub_0_r in Hn. rewrite (value_backward k o min data size istride x) in Hn by (auto; lia). now injection Hn. }
  assert (P2 : l2 = map (fun i => (i, correlation k o x i)) (zrange o (size - f - 1))).
  { replace (size - f - 1) with (o + Z.of_nat (length l2) - 1) by lia. apply pairs_map; [rewrite L2; replace (o + (size - f - o)) with (size - f) by lia; exact I2|]. intros j i v Hn. destruct (ND _ _ _ _ _ _ I2 Hn) as [J1 J2].
    apply V2 in Hn. rewrite N1, CI in Hn. replace (data - o * istride + o * (1 * istride) + Z.of_nat j * (1 * istride)) with (data + (i - o) * istride) in Hn by (rewrite J1; lia).
    rewrite (value_central k o min data size istride x) in Hn by (auto; unfold f in *; lia). now injection Hn. }
  assert (P3 : l3 = map (fun i => (i, correlation k o x i)) (zrange (size - f) (size - 1))).
  { replace (size - 1) with (size - f + Z.of_nat (length l3) - 1) by lia. apply pairs_map; [rewrite L3; replace (size - f + f - 1) with (size - 1) by lia; exact I3|]. intros j i v Hn. destruct (ND _ _ _ _ _ _ I3 Hn) as [J1 J2].
    apply V3 in Hn. rewrite N2, N1, CI in Hn. replace (data - o * istride + o * (1 * istride) + (size - f - o) * (1 * istride) + Z.of_nat j * (1 * istride)) with (data + (i - o) * istride) in Hn by (rewrite J1; lia).
    rewrite (value_forward k o min data size istride x) in Hn by (auto; unfold f in *; lia). now injection Hn. }
  split.
  - intros HP.
    assert (Q : forall fmt b lo hi, 0 <= b < 2 ^ 61 -> 0 <= lo -> hi < size -> mapRes (fun iv : Z * Z => b' <- asLong b ;; i' <- asLong (fst iv) ;; v' <- asInt t (snd iv) ;; Ok (mkCall fmt [b'; i'; v']))
        (map (fun i => (i, correlation k o x i)) (zrange lo hi)) = Ok (map (fun i => mkCall fmt [b; i; correlation k o x i]) (zrange lo hi))).
    { intros fmt b lo hi Hb Hlo Hhi. rewrite (mapRes_ok _ (fun iv => mkCall fmt [b; fst iv; snd iv])); [now rewrite map_map|]. intros iv I. apply in_map_iff in I. destruct I as (i & <- & I). apply In_zrange in I. cbn [fst snd].
      rewrite PF by lia. rewrite asInt_ok by (apply HP; lia). reflexivity. }
    rewrite R1, P1, Q by lia. cbn [obind fst snd]. rewrite R2, P2, Q by (unfold f in *; lia). cbn [obind fst snd]. rewrite R3, P3, Q by (unfold f in *; lia). cbn [obind fst snd].
    injection E as <-. f_equal. f_equal. f_equal. rewrite <- !app_assoc. cbn [app]. unfold head. f_equal.
    rewrite (zrange_app 0 (o - 1) (size - 1)) by lia. replace (o - 1 + 1) with o by lia. rewrite (zrange_app o (size - f - 1) (size - 1)) by (unfold f in *; lia). replace (size - f - 1 + 1) with (size - f) by lia.
    rewrite !map_app. f_equal; [|f_equal]; apply map_ext_in; intros i I; apply In_zrange in I; unfold lineCall; fold f.
    + replace (i <? o) with true by lia. reflexivity.
    + replace (i <? o) with false by lia. replace (i <? size - f) with true by lia. reflexivity.
    + replace (i <? o) with false by (unfold f in *; lia). replace (i <? size - f) with false by lia. reflexivity.
  - intros Nt.
    assert (Q : forall fmt b lo hi, lo <= hi -> 0 <= b < 2 ^ 61 -> 0 <= lo -> hi < size -> mapRes (fun iv : Z * Z => b' <- asLong b ;; i' <- asLong (fst iv) ;; v' <- asInt t (snd iv) ;; Ok (mkCall fmt [b'; i'; v']))
        (map (fun i => (i, correlation k o x i)) (zrange lo hi)) = UB).
    { intros fmt b lo hi Hn Hb Hlo Hhi. apply mapRes_ub; [|rewrite zrange_cons by lia; discriminate]. intros iv I. apply in_map_iff in I. destruct I as (i & <- & I). apply In_zrange in I. cbn [fst snd].
      rewrite PF by lia. rewrite asInt_ub; [reflexivity|]. intros [? _]. tauto. }
    rewrite R1, P1. destruct (Z.eq_dec o 0) as [->|No]; [|now rewrite Q by lia]. rewrite zrange_empty by lia. cbn [map mapRes obind fst snd]. rewrite R2, P2, Q by (unfold f in *; lia). reflexivity.
Qed.

(** ** Rasters *)

Lemma alongP_result fuel n t k axis r out cs : alongP fuel n t k axis r = Some (Ok (out, cs)) ->
  correlateAlong fuel n k axis r = Some (Ok out) /\ (~ PassedAsInt t -> rdata out = repeat 0 (Z.to_nat (shapeSize (rshape r)))).
Proof.
  unfold alongP, correlateAlong. intros H. unobind H. unobind H. unobind H. unobind H. destruct a2 as [d c]. cbn [fst snd] in H. injection H as <- <-.
  rewrite E. cbn [obind]. rewrite E0. cbn [obind]. rewrite E1. cbn [obind].
  assert (G : forall ps d0 c0 d1 c1, eachRow (fun oc p => obind (lift (rindex n (rshape r) p)) (fun a2 =>
       obind (correlateP fuel t k (rdata r) (dsMake a2 a sdefault (shapeStride (rshape r) (Z.to_nat axis))) (fst oc) (dsMake a2 a sdefault (shapeStride (rshape r) (Z.to_nat axis)))) (fun oc' =>
       Some (Ok (fst oc', snd oc ++ snd oc'))))) ps (d0, c0) = Some (Ok (d1, c1)) ->
     eachRow (fun out p => obind (lift (rindex n (rshape r) p)) (fun a2 =>
       correlate fuel k (rdata r) (dsMake a2 a sdefault (shapeStride (rshape r) (Z.to_nat axis))) out (dsMake a2 a sdefault (shapeStride (rshape r) (Z.to_nat axis))))) ps d0 = Some (Ok d1) /\
     (~ PassedAsInt t -> d1 = d0)).
  { clear. induction ps as [|p ps IH]; intros d0 c0 d1 c1 H; cbn [eachRow] in *; [injection H as <- <-; auto|]. unobind H. unobind E. unobind E. injection E as <-. cbn [fst snd] in *.
    destruct a2 as [m cm]. cbn [fst snd] in *. rewrite E0. cbn [obind]. apply correlateP_result in E1. destruct E1 as (E1 & _ & N). rewrite E1. cbn [obind].
    apply IH in H. destruct H as [H1 H2]. split; [exact H1|]. intros Nt. rewrite (H2 Nt). now apply N. }
  apply G in E2. destruct E2 as [E2 N]. rewrite E2. cbn [obind rdata]. auto.
Qed.

Lemma linesP_result format t convI convO di dO fuel n : forall k min din mout dout cs m cs', linesP format t convI convO di dO fuel n k min din mout dout cs = Some (Ok (m, cs')) ->
  lines convI convO di dO fuel n k min din mout dout = Some (Ok m) /\ (exists l, cs' = cs ++ l) /\ (~ PassedAsInt t -> m = mout).
Proof.
  induction n as [|n IH]; intros k min din mout dout cs m cs' H; cbn [linesP lines] in *.
  - injection H as <- <-. split; [auto|]. split; [exists []; now rewrite app_nil_r|auto].
  - unobind H. destruct a as [m1 c1]. cbn [fst snd] in H. apply correlateP_result in E. destruct E as (E & _ & N). rewrite E. cbn [obind].
    apply IH in H. destruct H as (H & (l & ->) & N'). split; [exact H|]. split; [rewrite <- app_assoc; eauto|]. intros Nt. rewrite (N' Nt). now apply N.
Qed.

Lemma sparse2dP_result t convI convO fuel k rin sx sy rout out cs : sparseCorrelate2dP t convI convO fuel k rin sx sy rout = Some (Ok (out, cs)) ->
  sparseCorrelate2d convI convO fuel k rin sx sy rout = Some (Ok out) /\ cs <> [] /\ (~ PassedAsInt t -> out = rdata rout).
Proof.
  unfold sparseCorrelate2dP, sparseCorrelate2d. destruct (rshape rin) as [|w [|h [|? ?]]]; try discriminate. destruct (rshape rout) as [|ow [|oh [|? ?]]]; try discriminate.
  destruct (sstep sx =? 0); [discriminate|]. destruct (_ <? 0); [discriminate|]. intros H. unobind H. rewrite E. cbn [obind].
  destruct (iterations _ _ 1) as [ny|]; [|discriminate]. destruct (iterations _ _ (sstep sx)) as [nx|]; [|discriminate].
  unobind H. unobind H. unobind H. unobind H. destruct a0 as [m1 c1]. destruct a2 as [m2 c2]. cbn [fst snd] in *. injection H as <- <-.
  apply linesP_result in E0. destruct E0 as (E0 & (l1 & ->) & _). rewrite E0. cbn [obind]. apply linesP_result in E2. destruct E2 as (E2 & (l2 & ->) & N). split; [exact E2|]. split; [discriminate|exact N].
Qed.

Lemma mapRes_inv {A B} (f : A -> res B) (g : A -> B) l bs : mapRes f l = Ok bs -> (forall a b, In a l -> f a = Ok b -> b = g a) -> bs = map g l.
Proof.
  revert bs. induction l as [|a l IH]; intros bs H G; cbn [mapRes map] in *; [congruence|].
  apply bind_ok in H. destruct H as (b & Eb & H). apply bind_ok in H. destruct H as (r & Er & H). injection H as <-. f_equal.
  - apply (G a b (or_introl eq_refl) Eb).
  - apply IH; [exact Er|]. intros a' b' Ha. apply G. right. exact Ha.
Qed.

Lemma rasterP_calls title t d w h cs : rasterP title t (mkRaster [w; h] d) w h = Ok cs -> cs = rasterCalls title w h d.
Proof.
  unfold rasterP, rasterCalls. intros H. apply bind_ok in H. destruct H as (rows & Er & H). injection H as <-. f_equal. f_equal.
  apply (mapRes_inv _ _ _ _ Er). intros y row Hy Hr. unfold rowP in Hr. apply bind_ok in Hr. destruct Hr as (vs & Ev & Hr). injection Hr as <-. f_equal.
  apply (mapRes_inv _ _ _ _ Ev). intros x c Hx Hc. apply bind_ok in Hc. destruct Hc as (v & Eg & Hc). apply bind_ok in Hc. destruct Hc as (v' & Ea & Hc). injection Hc as <-.
  apply asInt_inv in Ea. destruct Ea as [-> _]. unfold pixelFormat. f_equal. f_equal.
  apply In_zrange in Hx, Hy. unfold rget in Eg. rewrite rindex_rank in Eg by (discriminate || reflexivity). cbn [bind rshape rdata] in Eg.
  unfold pixel, padded. assert (inside [w; h] [x; y] = true) as -> by (cbn [inside]; lia). rewrite Eg. reflexivity.
Qed.

Lemma sparse2dP_rasters t convI convO fuel k rin sx sy rout out cs ow oh : rshape rout = [ow; oh] -> sparseCorrelate2dP t convI convO fuel k rin sx sy rout = Some (Ok (out, cs)) ->
  exists xw xh tmp first middle, cs = first ++ rasterCalls "xConvolved:" xw xh tmp ++ middle ++ rasterCalls "out:" ow oh out.
Proof.
  intros So. unfold sparseCorrelate2dP. destruct (rshape rin) as [|w [|h [|? ?]]]; try discriminate. rewrite So.
  destruct (sstep sx =? 0); [discriminate|]. destruct (_ <? 0); [discriminate|]. intros H. unobind H.
  destruct (iterations _ _ 1) as [ny|]; [|discriminate]. destruct (iterations _ _ (sstep sx)) as [nx|]; [|discriminate].
  unobind H. unobind H. unobind H. unobind H. destruct a0 as [m1 c1]. destruct a2 as [m2 c2]. cbn [fst snd] in *. injection H as <- <-.
  apply linesP_result in E2. destruct E2 as (_ & (l2 & ->) & _).
  assert (L : forall A (x y : res A), lift x = Some y -> x = y) by (unfold lift; intros; congruence).
  apply L, rasterP_calls in E1. apply L, rasterP_calls in E3. subst a1 a3.
  match goal with |- context [(c1 ++ rasterCalls _ ?xw ?xh _ ++ ?l) ++ l2] => exists xw, xh, m1, c1, (l ++ l2); generalize l; generalize (rasterCalls "xConvolved:" xw xh m1) end.
  intros x l. rewrite <- !app_assoc. reflexivity.
Qed.
