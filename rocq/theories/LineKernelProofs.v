From Verif Require Import Res VecModel SamplingModel LineKernelModel KernelSpec Lemmas ContainerProofs.

(** Sums *)
Lemma total_app a b : total (a ++ b) = total a + total b.
Proof. unfold total. induction a; cbn; lia. Qed.

Lemma total_zero {A} (f : A -> Z) l : (forall a, In a l -> f a = 0) -> total (map f l) = 0.
Proof. intros H. unfold total. induction l as [|a l IH]; auto. cbn. rewrite (H a), IH; [lia|intros; apply H; now right|now left]. Qed.

Lemma total_ext {A} (f g : A -> Z) l : (forall a, In a l -> f a = g a) -> total (map f l) = total (map g l).
Proof. intros H. f_equal. apply map_ext_in, H. Qed.

Lemma zrange_app a b c : a <= b + 1 -> b <= c -> zrange a c = zrange a b ++ zrange (b + 1) c.
Proof.
  intros H1 H2. revert H1. remember (Z.to_nat (b - a + 1)) as n eqn:E. revert a E.
  induction n as [|n IH]; intros a E H1.
  - replace a with (b + 1) by lia. rewrite (zrange_empty (b + 1) b) by lia. reflexivity.
  - rewrite (zrange_cons a c), (zrange_cons a b) by lia. cbn [app]. f_equal. apply IH; lia.
Qed.

Lemma total_restrict f n a b : 0 <= a -> b <= n -> a <= b -> (forall j, 0 <= j < a -> f j = 0) -> (forall j, b <= j < n -> f j = 0) ->
  total (map f (zrange 0 (n - 1))) = total (map f (zrange a (b - 1))).
Proof.
  intros Ha Hb Hab H1 H2. rewrite (zrange_app 0 (a - 1) (n - 1)) by lia. replace (a - 1 + 1) with a by lia.
  destruct (Z.eq_dec a b) as [->|N].
  - rewrite map_app, total_app. rewrite (zrange_empty b (b - 1)) by lia.
    rewrite (total_zero f (zrange 0 (b - 1))) by (intros j Hj; apply In_zrange in Hj; apply H1; lia).
    rewrite (total_zero f (zrange b (n - 1))) by (intros j Hj; apply In_zrange in Hj; apply H2; lia). reflexivity.
  - rewrite (zrange_app a (b - 1) (n - 1)) by lia. replace (b - 1 + 1) with b by lia. rewrite !map_app, !total_app.
    rewrite (total_zero f (zrange 0 (a - 1))) by (intros j Hj; apply In_zrange in Hj; apply H1; lia).
    rewrite (total_zero f (zrange b (n - 1))) by (intros j Hj; apply In_zrange in Hj; apply H2; lia). lia.
Qed.

Lemma padded_ok l i v : zget l i = Ok v -> padded l i = v.
Proof. unfold padded. now intros ->. Qed.

Lemma padded_in l i : 0 <= i < Z.of_nat (length l) -> zget l i = Ok (padded l i).
Proof. intros H. destruct (zget_in_range l i H) as [v Hv]. unfold padded. now rewrite Hv. Qed.

Lemma padded_out l i : ~ 0 <= i < Z.of_nat (length l) -> padded l i = 0.
Proof. intros H. unfold padded. now rewrite zget_out by lia. Qed.

(** Inner products *)
Lemma innerLoop_spec n : forall k mem a b stride acc y, 0 <= a -> a + Z.of_nat n <= Z.of_nat (length k) ->
  (forall j, 0 <= j < Z.of_nat n -> zget mem (b + j * stride) = Ok (y (a + j))) ->
  innerLoop n k mem a b stride acc = Ok (acc + total (map (fun j => padded k j * y j) (zrange a (a + Z.of_nat n - 1)))).
Proof.
  induction n as [|n IH]; intros k mem a b stride acc y Ha Hn Hy; cbn [innerLoop].
  - rewrite zrange_empty by lia. cbn. f_equal. lia.
  - rewrite (padded_in k a) by lia. cbn [bind].
    assert (H0 := Hy 0 ltac:(lia)). replace (b + 0 * stride) with b in H0 by lia. rewrite H0. cbn [bind].
    rewrite (IH k mem (a + 1) (b + stride) stride _ y); [|lia|lia|].
    + rewrite (zrange_cons a) by lia. replace (a + 1 + Z.of_nat n - 1) with (a + Z.of_nat (S n) - 1) by lia.
      cbn [map total fold_right]. unfold total. replace (a + 0) with a by lia. f_equal. cbn [fold_right]. lia.
    + intros j Hj. replace (b + stride + j * stride) with (b + (j + 1) * stride) by lia. rewrite Hy by lia. do 2 f_equal. lia.
Qed.

Lemma innerLoop_total n : forall k mem a b stride acc, (exists v, innerLoop n k mem a b stride acc = Ok v) \/ innerLoop n k mem a b stride acc = UB.
Proof.
  induction n as [|n IH]; intros; cbn [innerLoop]; eauto.
  unfold zget. destruct (a <? 0); auto. destruct (nth_error k (Z.to_nat a)); auto. cbn [bind].
  destruct (b <? 0); auto. destruct (nth_error mem (Z.to_nat b)); auto. cbn [bind]. apply IH.
Qed.

Lemma innerLoop_over n : forall k mem a b stride acc, Z.of_nat (length k) < a + Z.of_nat n -> 0 <= a <= Z.of_nat (length k) ->
  innerLoop n k mem a b stride acc = UB.
Proof.
  induction n as [|n IH]; intros k mem a b stride acc H Ha; cbn [innerLoop]; [lia|].
  destruct (Z.eq_dec a (Z.of_nat (length k))) as [->|N].
  - now rewrite zget_out by lia.
  - destruct (zget_in_range k a ltac:(lia)) as [v ->]. cbn [bind].
    unfold zget at 1. destruct (b <? 0); auto. destruct (nth_error mem (Z.to_nat b)); auto. cbn [bind]. apply IH; lia.
Qed.

(** The loops *)
Section Loop.
Variables (front step o istride data out0 ostride : Z) (m0 : list Z) (V : Z -> Z).
Hypothesis Hstep : 1 <= step.
Hypothesis Hos : ostride <> 0.

Definition Written (n : Z) (m : list Z) : Prop :=
  length m = length m0 /\ (forall j, 0 <= j < n -> zget m (out0 + j * ostride) = Ok (V j)) /\
  (forall a, (forall j, 0 <= j < n -> a <> out0 + j * ostride) -> zget m a = zget m0 a).

Definition St (n : Z) (m : list Z) : cstate :=
  mkCstate (front + n * step) (data + (front + n * step - o) * istride) (out0 + n * ostride) m.

Lemma Written_0 : Written 0 m0.
Proof. split; [auto|]. split; [intros; lia|auto]. Qed.

Lemma Written_S n m : 0 <= n -> Written n m -> 0 <= out0 + n * ostride < Z.of_nat (length m0) ->
  exists m', zset m (out0 + n * ostride) (V n) = Ok m' /\ Written (n + 1) m'.
Proof.
  intros Hn (W1 & W2 & W3) Hr. eexists. split; [apply zset_ok; lia|].
  set (m' := replace m _ _). assert (Hz : zset m (out0 + n * ostride) (V n) = Ok m') by (apply zset_ok; lia).
  split; [|split].
  - rewrite <- W1. eapply zset_length, Hz.
  - intros j Hj. destruct (Z.eq_dec j n) as [->|N]; [eapply zset_get_eq, Hz|].
    rewrite (zset_get_neq _ _ _ _ _ Hz) by nia. apply W2. lia.
  - intros a Ha. rewrite (zset_get_neq _ _ _ _ _ Hz); [apply W3; intros; apply Ha; lia|]. intros E. apply (Ha n); lia.
Qed.

Lemma corrLoop_S n cond value s :
  corrLoop (S n) cond value step istride ostride s =
      if cond (ci s) then
        match value (ci s) (cin s) with
        | Ok v =>
            match zset (cmem s) (cout s) v with
            | Ok m => corrLoop n cond value step istride ostride
                        (mkCstate (ci s + step) (cin s + step * istride) (cout s + ostride) m)
            | Throw e => Some (Throw e)
            | UB => Some UB
            end
        | Throw e => Some (Throw e)
        | UB => Some UB
        end
      else Some (Ok s).
Proof. reflexivity. Qed.

Lemma corr_loop cond value bound : bound + step < 2 ^ 63 ->
  (forall i, 0 <= i < 2 ^ 63 -> cond i = (i <? bound)) ->
  forall fuel n m, 0 <= n -> 0 <= front -> front + n * step < 2 ^ 63 -> Written n m -> (Z.to_nat (bound - (front + n * step)) < fuel)%nat ->
  (forall j, n <= j -> front + j * step < bound ->
     value (front + j * step) (data + (front + j * step - o) * istride) = Ok (V j) /\ 0 <= out0 + j * ostride < Z.of_nat (length m0)) ->
  exists n' m', n <= n' /\ corrLoop fuel cond value step istride ostride (St n m) = Some (Ok (St n' m')) /\ Written n' m' /\
    bound <= front + n' * step < 2 ^ 63 /\ (n' = n \/ front + (n' - 1) * step < bound).
Proof.
  intros Hb Hc. induction fuel as [|fuel IH]; intros n m Hn Hfr Hi HW Hf HV; [lia|]. rewrite corrLoop_S. cbn [St ci cin cout cmem].
  rewrite Hc by nia. destruct (Z.ltb_spec (front + n * step) bound) as [L|L].
  - destruct (HV n ltac:(lia) L) as [E R]. rewrite E.
    destruct (Written_S n m Hn HW R) as (m' & -> & HW').
    assert (X : mkCstate (front + n * step + step) (data + (front + n * step - o) * istride + step * istride) (out0 + n * ostride + ostride) m' = St (n + 1) m').
    { unfold St. f_equal; lia. }
    rewrite X. destruct (IH (n + 1) m' ltac:(lia) Hfr ltac:(lia) HW' ltac:(lia)) as (n' & m'' & A1 & A2 & A3 & A4 & A5).
    { intros j Hj. apply HV. lia. }
    exists n', m''. split; [lia|]. split; [exact A2|]. split; [exact A3|]. split; [exact A4|]. right. destruct A5 as [->|A5]; [|exact A5].
    replace (n + 1 - 1) with n by lia. exact L.
  - exists n, m. split; [lia|]. split; [reflexivity|]. auto.
Qed.
End Loop.

(** Sampled correlation *)
Section Correlate.
Variables (k : list Z) (o : Z) (min : list Z) (data size istride : Z) (x : Z -> Z).
Hypothesis Ho : 0 <= o < Z.of_nat (length k).
Hypothesis Hk : Z.of_nat (length k) <= size.
Hypothesis HL : Line min data size istride x.

Lemma inner_value i a b : 0 <= a <= b -> b <= Z.of_nat (length k) -> 0 <= i - o + a -> i - o + b <= size ->
  (forall j, 0 <= j < a -> i - o + j < 0) -> (forall j, b <= j < Z.of_nat (length k) -> size <= i - o + j) ->
  innerProduct k min a b (data + (i - o + a) * istride) istride 0 = Ok (correlation k o x i).
Proof.
  intros Ha Hb H1 H2 H3 H4. destruct HL as [L1 L2]. unfold innerProduct. replace (b <? a) with false by lia.
  rewrite (innerLoop_spec _ _ _ _ _ _ _ (fun j => x (i - o + j))); [|lia|lia|].
  - f_equal. unfold correlation. rewrite (total_restrict _ (Z.of_nat (length k)) a b); try lia.
    + replace (a + Z.of_nat (Z.to_nat (b - a)) - 1) with (b - 1) by lia. lia.
    + intros j Hj. rewrite L2, Z.mul_0_r; auto. specialize (H3 j Hj). lia.
    + intros j Hj. rewrite L2, Z.mul_0_r; auto. specialize (H4 j Hj). lia.
  - intros j Hj. rewrite <- L1 by lia. f_equal. lia.
Qed.

Lemma value_backward i : 0 <= i < o ->
  innerProduct k min (o - i) (Z.of_nat (length k)) data istride 0 = Ok (correlation k o x i).
Proof.
  intros Hi. replace data with (data + (i - o + (o - i)) * istride) by lia. apply inner_value; try lia.
Qed.

Lemma value_central i : o <= i -> i + (Z.of_nat (length k) - o) <= size ->
  innerProduct k min 0 (Z.of_nat (length k)) (data + (i - o) * istride) istride 0 = Ok (correlation k o x i).
Proof. intros H1 H2. replace (i - o) with (i - o + 0) at 1 by lia. apply inner_value; lia. Qed.

Lemma value_forward i : o <= i < size -> size <= i + (Z.of_nat (length k) - o) ->
  innerProduct k min 0 (o + (size - i)) (data + (i - o) * istride) istride 0 = Ok (correlation k o x i).
Proof. intros H1 H2. replace (i - o) with (i - o + 0) at 1 by lia. apply inner_value; lia. Qed.

Variables (front back step : Z) (m0 : list Z) (dout : dsamples).
Hypothesis Hf : 0 <= front.
Hypothesis Hs : 1 <= step.
Hypothesis Hz : size < 2 ^ 61.
Hypothesis Hfz : front < 2 ^ 61.
Let f := Z.of_nat (length k) - o - 1.
Hypothesis Hsf : step <= size - f.
Hypothesis Hback : back < size.
(* The first sample which no loop reaches is at or after this index. *)
Let last := Z.max (Z.max o (size - f - step + 1)) (back + 1).
Let ostride := sstep (dSampling dout) * dStride dout.
Let out0 := dsIter dout 0.
Hypothesis Hos : ostride <> 0.
Hypothesis Hout : forall n, 0 <= n -> front + n * step < last -> 0 <= out0 + n * ostride < Z.of_nat (length m0).
Let V n := correlation k o x (front + n * step).
Let din := mkDsamples data size (mkSampling front back step) istride.
Let state := St front step o istride data out0 ostride.
Let W := Written out0 ostride m0 V.

Lemma u64_small z : 0 <= z < 2 ^ 64 -> u64 z = z.
Proof. intros H. unfold u64. now apply Z.mod_small. Qed.

Lemma bound_u64 : u64 (size - u64 f - step) = size - f - step.
Proof. rewrite (u64_small f) by (unfold f; lia). apply u64_small. unfold f in *. lia. Qed.

Lemma central_cond i : 0 <= i < 2 ^ 63 -> (u64 i <=? u64 (size - u64 f - step)) = (i <? size - f - step + 1).
Proof. intros Hi. rewrite bound_u64, u64_small by lia. lia. Qed.

Lemma back_cond i : (i <=? back) = (i <? back + 1).
Proof. lia. Qed.

Lemma mono a b : a <= b -> front + a * step <= front + b * step.
Proof. intros H. assert (a * step <= b * step) by (apply Z.mul_le_mono_nonneg_r; lia). lia. Qed.

(** Both first loops. *)
Lemma first_loops fuel : (Z.to_nat size < fuel)%nat ->
  exists n2 m2, 0 <= n2 /\ W n2 m2 /\ front + n2 * step < 2 ^ 63 /\
    o <= front + n2 * step /\ size - f - step < front + n2 * step /\
    (n2 = 0 \/ front + (n2 - 1) * step < o \/ front + (n2 - 1) * step <= size - f - step) /\
    correlate fuel (mkLkernel k o) min din m0 dout =
    obind (corrLoop fuel (fun i => i <=? back)
             (fun i it => innerProduct k min 0 (o + (size - i)) it istride 0) step istride ostride (state n2 m2))
      (fun s3 => Some (Ok (cmem s3))).
Proof.
  intros Hfuel.
  destruct (corr_loop front step o istride data out0 ostride m0 V Hs Hos (fun i => i <? o)
              (fun i it => innerProduct k min (o - i) (Z.of_nat (length k)) data istride 0) o ltac:(lia) ltac:(auto)
              fuel 0 m0 ltac:(lia) Hf ltac:(lia) (Written_0 _ _ _ _) ltac:(lia))
    as (n1 & m1 & A1 & A2 & A3 & A4 & A5).
  { intros j Hj Hl. assert (M := mono 0 j Hj). split; [apply value_backward; lia|apply Hout; unfold last; lia]. }
  destruct (corr_loop front step o istride data out0 ostride m0 V Hs Hos
              (fun i => u64 i <=? u64 (size - u64 f - step))
              (fun i it => innerProduct k min 0 (Z.of_nat (length k)) it istride 0) (size - f - step + 1) ltac:(unfold f; lia) central_cond
              fuel n1 m1 ltac:(lia) Hf ltac:(lia) A3 ltac:(assert (M := mono 0 n1 ltac:(lia)); unfold f in *; lia))
    as (n2 & m2 & B1 & B2 & B3 & B4 & B5).
  { intros j Hj Hl. assert (M := mono n1 j Hj). split; [apply value_central; unfold f in *; lia|apply Hout; unfold last; lia]. }
  exists n2, m2. split; [lia|]. split; [exact B3|]. split; [lia|]. split; [assert (M := mono n1 n2 B1); lia|]. split; [lia|]. split.
  { destruct B5 as [->|B5]; [|right; right; lia]. destruct A5 as [->|A5]; [now left|]. auto. }
  unfold correlate. cbn [lvalues lorigin din dSampling dStride dSize dData sfront sback sstep].
  unfold lsize. cbn [lvalues].
  assert (E0 : dsIter (dsMake data size (mkSampling front back 1) istride) 0 = data + front * istride).
  { unfold dsIter, dsMake. cbn. lia. }
  rewrite E0. fold out0 ostride.
  replace (data + front * istride - front * istride) with data by lia.
  assert (E1 : mkCstate front (data + front * istride - o * istride) out0 m0 = St front step o istride data out0 ostride 0 m0).
  { unfold St. f_equal; lia. }
  rewrite E1, A2. cbn [obind]. fold f. rewrite B2. cbn [obind]. reflexivity.
Qed.

Theorem correlate_spec fuel : (Z.to_nat size < fuel)%nat ->
  (forall n, 0 <= n -> o <= front + n * step <= back -> ~ size - f - step < front + n * step < size - f - 1) ->
  exists m, correlate fuel (mkLkernel k o) min din m0 dout = Some (Ok m) /\ length m = length m0 /\
    (forall n, 0 <= n -> front + n * step < last -> zget m (out0 + n * ostride) = Ok (correlation k o x (front + n * step))) /\
    (forall a, (forall n, 0 <= n -> front + n * step < last -> a <> out0 + n * ostride) -> zget m a = zget m0 a).
Proof.
  intros Hfuel Hgap. destruct (first_loops fuel Hfuel) as (n2 & m2 & A1 & A2 & A3 & A4 & A5 & A6 & ->).
  destruct (corr_loop front step o istride data out0 ostride m0 V Hs Hos (fun i => i <=? back)
              (fun i it => innerProduct k min 0 (o + (size - i)) it istride 0) (back + 1) ltac:(unfold f in *; lia) ltac:(intros; apply back_cond)
              fuel n2 m2 A1 Hf A3 A2 ltac:(assert (M := mono 0 n2 ltac:(lia)); lia))
    as (n3 & m3 & B1 & B2 & B3 & B4 & B5).
  { intros j Hj Hl. split; [|apply Hout; unfold last; lia]. specialize (Hgap j ltac:(lia)). assert (M := mono n2 j Hj).
    unfold f in *. apply value_forward; lia. }
  unfold state. rewrite B2. cbn [obind cmem St]. exists m3. split; [reflexivity|].
  destruct B3 as (C1 & C2 & C3). split; [exact C1|].
  assert (E : forall n, 0 <= n -> (n < n3 <-> front + n * step < last)).
  { intros n Hn. unfold last. split; intros H.
    - destruct B5 as [->|B5]; [|assert (M := mono n (n3 - 1) ltac:(lia)); lia].
      destruct A6 as [->|[A6|A6]]; [lia| |]; assert (M := mono n (n2 - 1) ltac:(lia)); lia.
    - destruct (Z_lt_le_dec n n3) as [L|L]; auto. assert (M := mono n3 n L). assert (M' := mono n2 n3 B1). lia. }
  split.
  - intros n Hn Hl. apply C2. apply E in Hl; lia.
  - intros a Ha. apply C3. intros j Hj. apply Ha; [lia|]. apply E; lia.
Qed.

(** A sample in the gap makes the loop read past the end of the kernel. *)
Theorem correlate_gap fuel n : (Z.to_nat size < fuel)%nat -> 0 <= n -> o <= front + n * step <= back ->
  size - f - step < front + n * step < size - f - 1 ->
  correlate fuel (mkLkernel k o) min din m0 dout = Some UB.
Proof.
  intros Hfuel Hn Hno Hg. destruct (first_loops fuel Hfuel) as (n2 & m2 & A1 & A2 & A3 & A4 & A5 & A6 & ->).
  assert (E : n2 = n).
  { destruct (Z.lt_trichotomy n2 n) as [L|[L|L]]; auto; exfalso.
    - assert (M := mono (n2 + 1) n ltac:(lia)). unfold f in *. lia.
    - destruct A6 as [->|[A6|A6]]; [lia| |]; assert (M := mono n (n2 - 1) ltac:(lia)); lia. }
  subst n2. destruct fuel as [|fuel]; [lia|]. rewrite corrLoop_S. unfold state. cbn [St ci cin cout cmem].
  rewrite back_cond. assert (Hg' := Hg). unfold f in Hg'. replace (front + n * step <? back + 1) with true by lia.
  unfold innerProduct. replace (o + (size - (front + n * step)) <? 0) with false by lia.
  rewrite innerLoop_over by lia. reflexivity.
Qed.
End Correlate.

(** Kernels longer than the line *)
Lemma corr_ub cond value step istride ostride : (forall i it, (exists v, value i it = Ok v) \/ value i it = UB) ->
  forall d fuel s, (d < fuel)%nat -> (forall t, 0 <= t <= Z.of_nat d -> cond (ci s + t * step) = true) ->
  value (ci s + Z.of_nat d * step) (cin s + Z.of_nat d * (step * istride)) = UB ->
  corrLoop fuel cond value step istride ostride s = Some UB.
Proof.
  intros Hv. induction d as [|d IH]; intros fuel s Hf Hc HU; (destruct fuel as [|fuel]; [lia|]); cbn [corrLoop];
    assert (C := Hc 0 ltac:(lia)); replace (ci s + 0 * step) with (ci s) in C by lia; rewrite C.
  - replace (ci s + Z.of_nat 0 * step) with (ci s) in HU by lia. replace (cin s + Z.of_nat 0 * (step * istride)) with (cin s) in HU by lia.
    now rewrite HU.
  - destruct (Hv (ci s) (cin s)) as [[v ->]| ->]; auto.
    assert (Z1 : (exists m, zset (cmem s) (cout s) v = Ok m) \/ zset (cmem s) (cout s) v = UB).
    { unfold zset. destruct ((cout s <? 0) || (Z.of_nat (length (cmem s)) <=? cout s)); eauto. }
    destruct Z1 as [[m ->]| ->]; auto. apply IH; [lia| |]; cbn [ci cin].
    + intros t Ht. rewrite <- (Hc (t + 1)) by lia. f_equal. lia.
    + rewrite <- HU. f_equal; lia.
Qed.

Lemma innerLoop_mem n : forall k mem a b acc, 0 <= b <= Z.of_nat (length mem) -> Z.of_nat (length mem) < b + Z.of_nat n ->
  innerLoop n k mem a b 1 acc = UB.
Proof.
  induction n as [|n IH]; intros k mem a b acc Hb H; cbn [innerLoop]; [lia|].
  unfold zget at 1. destruct (a <? 0); auto. destruct (nth_error k (Z.to_nat a)); auto. cbn [bind].
  destruct (Z.eq_dec b (Z.of_nat (length mem))) as [->|N]; [now rewrite zget_out by lia|].
  destruct (zget_in_range mem b ltac:(lia)) as [v ->]. cbn [bind]. apply IH; lia.
Qed.

Lemma innerProduct_total k mem a b it st acc : (exists v, innerProduct k mem a b it st acc = Ok v) \/ innerProduct k mem a b it st acc = UB.
Proof. unfold innerProduct. destruct (b <? a); auto. apply innerLoop_total. Qed.

Theorem correlate_long k o min m0 dout fuel : 0 <= o < Z.of_nat (length k) -> Z.of_nat (length k) < 2 ^ 61 -> 1 <= Z.of_nat (length min) ->
  Z.of_nat (length min) + 2 <= Z.of_nat (length k) \/ (o = 0 /\ Z.of_nat (length min) < Z.of_nat (length k)) -> (length k < fuel)%nat ->
  correlate fuel (mkLkernel k o) min (mkDsamples 0 (Z.of_nat (length min)) (mkSampling 0 (Z.of_nat (length min) - 1) 1) 1) m0 dout = Some UB.
Proof.
  intros Ho Hk Hm Hl Hf. unfold correlate. cbn [lvalues lorigin dSampling dStride dSize dData sfront sback sstep]. unfold lsize. cbn [lvalues].
  assert (E0 : dsIter (dsMake 0 (Z.of_nat (length min)) (mkSampling 0 (Z.of_nat (length min) - 1) 1) 1) 0 = 0) by reflexivity. rewrite E0.
  destruct (Z.eq_dec o 0) as [->|No].
  - destruct fuel as [|fuel]; [lia|]. rewrite corrLoop_S. cbn [ci Z.ltb obind].
    change (0 <? 0) with false. cbn [obind].
    assert (E1 : u64 (Z.of_nat (length min) - u64 (Z.of_nat (length k) - 0 - 1) - 1) = Z.of_nat (length min) - Z.of_nat (length k) + 2 ^ 64).
    { rewrite (u64_small (Z.of_nat (length k) - 0 - 1)) by lia. unfold u64.
      replace (Z.of_nat (length min) - (Z.of_nat (length k) - 0 - 1) - 1) with (Z.of_nat (length min) - Z.of_nat (length k) + 2 ^ 64 + (-1) * 2 ^ 64) by lia.
      rewrite Z.mod_add by lia. apply Z.mod_small. lia. }
    rewrite E1. rewrite (corr_ub _ _ _ _ _ ltac:(intros; apply innerProduct_total) 0); [reflexivity|lia| |]; cbn [ci cin].
    + intros t Ht. rewrite u64_small by lia. lia.
    + unfold innerProduct. replace (Z.of_nat (length k) <? 0) with false by lia. apply innerLoop_mem; lia.
  - rewrite (corr_ub _ _ _ _ _ ltac:(intros; apply innerProduct_total) (Z.to_nat (o - 1))); [reflexivity|lia| |]; cbn [ci cin].
    + intros t Ht. lia.
    + unfold innerProduct. replace (_ <? _) with false by lia. apply innerLoop_mem; lia.
Qed.

(** Statements with explicit addresses *)
Lemma correlate_all k o min data size istride x m0 odata osize oback ostride fuel :
  0 <= o < Z.of_nat (length k) -> Z.of_nat (length k) <= size -> size < 2 ^ 61 -> Line min data size istride x ->
  ostride <> 0 -> (forall i, 0 <= i < size -> 0 <= odata + i * ostride < Z.of_nat (length m0)) -> (Z.to_nat size < fuel)%nat ->
  exists m, correlate fuel (mkLkernel k o) min (mkDsamples data size (mkSampling 0 (size - 1) 1) istride) m0
                (mkDsamples odata osize (mkSampling 0 oback 1) ostride) = Some (Ok m) /\
    length m = length m0 /\
    (forall i, 0 <= i < size -> zget m (odata + i * ostride) = Ok (correlation k o x i)) /\
    (forall a, (forall i, 0 <= i < size -> a <> odata + i * ostride) -> zget m a = zget m0 a).
Proof.
  intros Ho Hk Hz HL Hos Hout Hf.
  assert (E0 : dsIter (mkDsamples odata osize (mkSampling 0 oback 1) ostride) 0 = odata) by (unfold dsIter; cbn [dData dSampling sfront sstep dStride]; lia).
  destruct (correlate_spec k o min data size istride x Ho Hk HL 0 (size - 1) 1 m0 (mkDsamples odata osize (mkSampling 0 oback 1) ostride)
    ltac:(lia) ltac:(lia) Hz ltac:(lia) ltac:(lia) ltac:(lia)) with (fuel := fuel) as (m & A & B & C & D).
  - cbn [dSampling sstep dStride]. lia.
  - intros n H1 H2. rewrite E0. cbn [dSampling sstep dStride]. rewrite Z.mul_1_l. apply Hout. lia.
  - exact Hf.
  - lia.
  - exists m. split; [exact A|]. split; [exact B|]. rewrite E0 in C, D. cbn [dSampling sstep dStride] in C, D. rewrite Z.mul_1_l in C, D. split.
    + intros i Hi. rewrite C by lia. do 2 f_equal. lia.
    + intros a Ha. apply D. intros n H1 H2. apply Ha. lia.
Qed.

Lemma correlate_back k o min data size istride x front back step m0 odata osize ofront oback ostep ostride fuel :
  0 <= o < Z.of_nat (length k) -> Z.of_nat (length k) <= size -> size < 2 ^ 61 -> Line min data size istride x ->
  0 <= front < 2 ^ 61 -> back < size -> 1 <= step <= size - (Z.of_nat (length k) - o - 1) -> 1 <= ostep -> ostride <> 0 ->
  let f := Z.of_nat (length k) - o - 1 in
  let reached i := i < o \/ i <= size - f - step \/ i <= back in
  let gap i := o <= i <= back /\ size - f - step < i < size - f - 1 in
  (forall n, 0 <= n -> reached (front + n * step) -> 0 <= odata + (ofront + n * ostep) * ostride < Z.of_nat (length m0)) -> (Z.to_nat size < fuel)%nat ->
  let run := correlate fuel (mkLkernel k o) min (mkDsamples data size (mkSampling front back step) istride) m0
                (mkDsamples odata osize (mkSampling ofront oback ostep) ostride) in
  ((forall n, 0 <= n -> ~ gap (front + n * step)) ->
   exists m, run = Some (Ok m) /\ length m = length m0 /\
    (forall n, 0 <= n -> reached (front + n * step) -> zget m (odata + (ofront + n * ostep) * ostride) = Ok (correlation k o x (front + n * step))) /\
    (forall a, (forall n, 0 <= n -> reached (front + n * step) -> a <> odata + (ofront + n * ostep) * ostride) -> zget m a = zget m0 a)) /\
  ((exists n, 0 <= n /\ gap (front + n * step)) -> run = Some UB).
Proof.
  intros Ho Hk Hz HL Hfr Hb Hst Hos1 Hos f reached gap Hout Hf run.
  set (dout := mkDsamples odata osize (mkSampling ofront oback ostep) ostride) in *.
  assert (E0 : forall n, dsIter dout 0 + n * (sstep (dSampling dout) * dStride dout) = odata + (ofront + n * ostep) * ostride)
    by (intros n; unfold dsIter, dout; cbn [dData dSampling sfront sstep dStride]; lia).
  assert (Hos' : sstep (dSampling dout) * dStride dout <> 0) by (unfold dout; cbn [dSampling sstep dStride]; nia).
  assert (R : forall i, i < Z.max (Z.max o (size - (Z.of_nat (length k) - o - 1) - step + 1)) (back + 1) <-> reached i) by (intros i; unfold reached, f; lia).
  split.
  - intros Hg.
    destruct (correlate_spec k o min data size istride x Ho Hk HL front back step m0 dout ltac:(lia) ltac:(lia) Hz ltac:(lia) ltac:(lia) Hb Hos') with (fuel := fuel) as (m & A & B & C & D).
    + intros n H1 H2. rewrite E0. apply Hout; [lia|]. now apply R.
    + exact Hf.
    + intros n H1 H2 H3. apply (Hg n H1). unfold gap. unfold f. lia.
    + exists m. split; [exact A|]. split; [exact B|]. split.
      * intros n H1 H2. rewrite <- E0. apply C; [lia|]. now apply R.
      * intros a Ha. apply D. intros n H1 H2. rewrite E0. apply Ha; [lia|]. now apply R.
  - intros (n & H1 & H2 & H3). unfold run.
    apply (correlate_gap k o min data size istride x Ho Hk HL front back step m0 dout ltac:(lia) ltac:(lia) Hz ltac:(lia) ltac:(lia) Hb Hos') with (n := n); auto.
    intros i G1 G2. rewrite E0. apply Hout; [lia|]. now apply R.
Qed.

Lemma correlate_samples k o min data size istride x front step m0 odata osize ofront oback ostep ostride fuel :
  0 <= o < Z.of_nat (length k) -> Z.of_nat (length k) <= size -> size < 2 ^ 61 -> Line min data size istride x ->
  0 <= front < 2 ^ 61 -> 1 <= step <= size - (Z.of_nat (length k) - o - 1) -> 1 <= ostep -> ostride <> 0 ->
  (forall n, 0 <= n -> front + n * step < size -> 0 <= odata + (ofront + n * ostep) * ostride < Z.of_nat (length m0)) -> (Z.to_nat size < fuel)%nat ->
  let f := Z.of_nat (length k) - o - 1 in
  let gap i := o <= i /\ size - f - step < i < size - f - 1 in
  let run := correlate fuel (mkLkernel k o) min (mkDsamples data size (mkSampling front (size - 1) step) istride) m0
                (mkDsamples odata osize (mkSampling ofront oback ostep) ostride) in
  ((forall n, 0 <= n -> ~ gap (front + n * step)) ->
   exists m, run = Some (Ok m) /\ length m = length m0 /\
    (forall n, 0 <= n -> front + n * step < size -> zget m (odata + (ofront + n * ostep) * ostride) = Ok (correlation k o x (front + n * step))) /\
    (forall a, (forall n, 0 <= n -> front + n * step < size -> a <> odata + (ofront + n * ostep) * ostride) -> zget m a = zget m0 a)) /\
  ((exists n, 0 <= n /\ gap (front + n * step)) -> run = Some UB).
Proof.
  intros Ho Hk Hz HL Hfr Hst Hos1 Hos Hout Hf f gap run.
  destruct (correlate_back k o min data size istride x front (size - 1) step m0 odata osize ofront oback ostep ostride fuel Ho Hk Hz HL Hfr ltac:(lia) Hst Hos1 Hos) as [A B].
  - intros n H1 H2. apply Hout; lia.
  - exact Hf.
  - split.
    + intros Hg. destruct A as (m & A1 & A2 & A3 & A4); [intros n Hn G; apply (Hg n Hn); unfold gap, f; lia|].
      exists m. split; [exact A1|]. split; [exact A2|]. split.
      * intros n H1 H2. apply A3; lia.
      * intros a Ha. apply A4. intros n H1 H2. apply Ha; lia.
    + intros (n & H1 & H2). apply B. exists n. unfold gap, f in H2. lia.
Qed.

(** A sampling which stops before the end of the line: the second loop writes past the last sample. *)
Lemma correlate_back_witness : exists k min din mout dout m,
  sback (dSampling din) = 1 /\ dSize din = 4 /\
  correlate 10 k min din mout dout = Some (Ok m) /\ zget m 3 <> zget mout 3 /\ zget mout 3 = Ok (-1).
Proof.
  exists (mkLkernel [1] 0), [1; 2; 3; 4], (mkDsamples 0 4 (mkSampling 0 1 1) 1), [-1; -1; -1; -1], (mkDsamples 0 4 (mkSampling 0 3 1) 1), [1; 2; 3; 4].
  vm_compute. repeat split; congruence.
Qed.

(** A step greater than the number of samples before the forward border. *)
Lemma correlate_step_witness : exists k min din mout dout,
  lsize k <= dSize din /\ dSize din = Z.of_nat (length min) /\ sstep (dSampling din) = 3 /\
  correlate 10 k min din mout dout = Some UB.
Proof.
  exists (mkLkernel [1; 1; 1] 0), [1; 2; 3; 4], (mkDsamples 0 4 (mkSampling 0 3 3) 1), [-1; -1; -1; -1], (mkDsamples 0 4 (mkSampling 0 3 1) 1).
  vm_compute. repeat split; congruence.
Qed.

Lemma lmake_origin values : lmake values (mkLkernel values (Z.of_nat (length values) / 2)) /\ lmake values (mkLkernel values 0) /\
  (forall k, lmake values k -> lvalues k = values /\ (lorigin k = Z.of_nat (length values) / 2 \/ lorigin k = 0)).
Proof.
  split; [constructor|]. split; [change 0 with (0 / 2) at 1; constructor|]. intros k H. destruct H; cbn; auto.
Qed.
