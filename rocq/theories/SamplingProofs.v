From Coq Require Import Sorted.
From Verif Require Import Res VecModel BoxModel LoopModel SamplingModel Spec Lemmas LoopProofs BoxIterProofs ContainerProofs.

Lemma chk64_ok z : - 2 ^ 63 <= z < 2 ^ 63 -> chk64 z = Ok z.
Proof. intros H. unfold chk64. now replace ((- 2 ^ 63 <=? z) && (z <? 2 ^ 63)) with true by lia. Qed.

Lemma chk64_ub z : z < - 2 ^ 63 \/ 2 ^ 63 <= z -> chk64 z = UB.
Proof. intros H. unfold chk64. now replace ((- 2 ^ 63 <=? z) && (z <? 2 ^ 63)) with false by lia. Qed.

Lemma s64_id z : - 2 ^ 63 <= z < 2 ^ 63 -> s64 z = z.
Proof.
  intros H. unfold s64. destruct (Z_lt_dec z 0).
  - replace (z mod 2 ^ 64) with (z + 2 ^ 64).
    + replace (z + 2 ^ 64 <? 2 ^ 63) with false by lia. lia.
    + apply Z.mod_unique with (-1); lia.
  - rewrite Z.mod_small by lia. now replace (z <? 2 ^ 63) with true by lia.
Qed.

(** Axis samplings *)

(** The number of sampled indices. *)
Definition scount (s : sampling) : Z := Z.max 0 ((sback s - sfront s) / sstep s + 1).

Lemma quot_count a st : 0 < st -> Z.max 0 (Z.quot (a + st) st) = Z.max 0 (a / st + 1).
Proof.
  intros H. destruct (Z_le_dec 0 (a + st)).
  - rewrite Z.quot_div_nonneg by lia. f_equal. replace (a + st) with (a + 1 * st) by lia. rewrite Z.div_add by lia. reflexivity.
  - assert (Z.quot (a + st) st <= 0).
    { replace (a + st) with (- (- (a + st))) by lia. rewrite Z.quot_opp_l by lia.
      assert (0 <= Z.quot (- (a + st)) st) by (apply Z.quot_pos; lia). lia. }
    assert (a / st < -1). { apply Z.div_lt_upper_bound; lia. } lia.
Qed.

Lemma ssize_spec s : 0 < sstep s -> - 2 ^ 63 <= sback s - sfront s -> sback s - sfront s + sstep s < 2 ^ 63 ->
  ssize s = Ok (scount s).
Proof.
  intros H1 H2 H3. unfold ssize, scount. rewrite chk64_ok by lia. cbn [bind]. rewrite chk64_ok by lia. cbn [bind].
  replace (sstep s =? 0) with false by lia. rewrite chk64_ok; [cbn [bind]; now rewrite quot_count|].
  destruct (Z_le_dec 0 (sback s - sfront s + sstep s)).
  - rewrite Z.quot_div_nonneg by lia. split; [assert (0 <= (sback s - sfront s + sstep s) / sstep s) by (apply Z.div_pos; lia); lia|].
    apply Z.div_lt_upper_bound; nia.
  - replace (sback s - sfront s + sstep s) with (- (- (sback s - sfront s + sstep s))) by lia. rewrite Z.quot_opp_l by lia.
    rewrite Z.quot_div_nonneg by lia. set (m := - (sback s - sfront s + sstep s)) in *.
    assert (0 <= m / sstep s) by (apply Z.div_pos; lia). assert (m / sstep s <= m) by (apply Z.div_le_upper_bound; nia). lia.
Qed.

Definition sampled (s : sampling) (k n : nat) : list (Z * Z) :=
  map (fun j => (sfront s + sstep s * Z.of_nat j, Z.of_nat j)) (seq k n).

Lemma sampled_trace s n : 0 < sstep s -> - 2 ^ 63 <= sfront s -> sback s + sstep s < 2 ^ 63 ->
  forall k, Z.of_nat (k + n) = scount s ->
  Trace (fun it => snd it =? scount s) (snext s) (sfront s + sstep s * Z.of_nat k, Z.of_nat k) (sampled s k n).
Proof.
  intros H1 H2 H3. induction n as [|n IH]; intros k Hk.
  - constructor. cbn [snd]. lia.
  - unfold sampled. cbn [seq map]. econstructor.
    + cbn [snd]. lia.
    + unfold snext. cbn [fst snd]. rewrite chk64_ok; [reflexivity|].
      unfold scount in Hk. assert (Z.of_nat k <= (sback s - sfront s) / sstep s) by lia.
      assert (M := Z.mul_div_le (sback s - sfront s) (sstep s) H1). nia.
    + replace (sfront s + sstep s * Z.of_nat k + sstep s) with (sfront s + sstep s * Z.of_nat (S k)) by lia.
      replace (Z.of_nat k + 1) with (Z.of_nat (S k)) by lia. apply IH. lia.
Qed.

Lemma axis_sampling s : 0 < sstep s -> - 2 ^ 63 <= sfront s < 2 ^ 63 -> - 2 ^ 63 <= sback s - sfront s ->
  sback s + sstep s < 2 ^ 63 -> sback s - sfront s + sstep s < 2 ^ 63 ->
  exists L, ssize s = Ok (Z.of_nat (length L)) /\
    (exists enough, forall fuel, (enough <= fuel)%nat -> sforeach fuel s = Some (Ok L)) /\
    StronglySorted Z.lt L /\
    (forall i, In i L <-> exists k, 0 <= k /\ i = sfront s + k * sstep s /\ i <= sback s).
Proof.
  intros H1 H2 H3 H4 H5. assert (HS := ssize_spec s H1 H3 H5). assert (Hc : 0 <= scount s) by (unfold scount; lia).
  set (n := Z.to_nat (scount s)). exists (map fst (sampled s 0 n)).
  assert (HL : length (map fst (sampled s 0 n)) = n) by (unfold sampled; now rewrite !map_length, seq_length).
  split; [rewrite HL, HS; f_equal; unfold n; lia|]. split; [|split].
  - exists (S n). intros fuel Hf. unfold sforeach. rewrite HS.
    assert (HT := sampled_trace s n H1 ltac:(lia) H4 O ltac:(unfold n; lia)).
    unfold siter. rewrite s64_id by lia. replace (sfront s + sstep s * 0, 0) with (sfront s + sstep s * Z.of_nat 0, Z.of_nat 0) by reflexivity.
    rewrite (Trace_forLoop _ _ _ _ HT); [reflexivity|]. rewrite map_length in HL. lia.
  - unfold sampled. rewrite map_map. cbn [fst]. generalize O at 1 as k. clear - H1. induction n as [|n IH]; intros k; cbn [seq map]; constructor; auto.
    apply Forall_map, Forall_forall. intros j Hj. apply in_seq in Hj. nia.
  - intros i. unfold sampled. rewrite map_map. cbn [fst]. rewrite in_map_iff. split.
    + intros (j & <- & Hj). apply in_seq in Hj. exists (Z.of_nat j). split; [lia|]. split; [lia|].
      assert (Z.of_nat j <= (sback s - sfront s) / sstep s) by (unfold n, scount in *; lia).
      assert (M := Z.mul_div_le (sback s - sfront s) (sstep s) H1). nia.
    + intros (k & Hk & -> & Hle). exists (Z.to_nat k). split; [rewrite Z2Nat.id by lia; lia|].
      apply in_seq. split; [lia|]. assert (k <= (sback s - sfront s) / sstep s) by (apply Z.div_le_lower_bound; nia).
      unfold n, scount. lia.
Qed.

Lemma default_size : ssize sdefault = UB.
Proof. reflexivity. Qed.

(** Position samplings *)

Lemma mapRes_Forall2 {A B} (f : A -> res B) l r : mapRes f l = Ok r <-> Forall2 (fun a b => f a = Ok b) l r.
Proof.
  revert r; induction l as [|a l IH]; intros r; cbn [mapRes].
  - split; [intros [= <-]; constructor|inversion 1; auto].
  - split.
    + destruct (f a) eqn:E; cbn [bind]; try discriminate. destruct (mapRes f l) eqn:El; cbn [bind]; try discriminate.
      intros [= <-]. constructor; auto. now apply IH.
    + inversion 1; subst. rewrite H2. cbn [bind]. apply IH in H4. now rewrite H4.
Qed.

Lemma mapRes_ext {A B} (f g : A -> res B) l : (forall a, In a l -> f a = g a) -> mapRes f l = mapRes g l.
Proof. induction l as [|a l IH]; intros H; cbn [mapRes]; auto. rewrite H by now left. rewrite IH; auto. intros; apply H; now right. Qed.

Lemma mapRes_app {A B} (f : A -> res B) l r : mapRes f (l ++ r) = (x <- mapRes f l ;; y <- mapRes f r ;; Ok (x ++ y)).
Proof.
  induction l as [|a l IH]; cbn [mapRes app bind].
  - destruct (mapRes f r); reflexivity.
  - destruct (f a); cbn [bind]; auto. rewrite IH. destruct (mapRes f l); cbn [bind]; auto. destruct (mapRes f r); reflexivity.
Qed.

Lemma mapRes_map {A B C} (g : A -> B) (f : B -> res C) l : mapRes f (map g l) = mapRes (fun a => f (g a)) l.
Proof. induction l as [|a l IH]; cbn [mapRes map]; auto. now rewrite IH. Qed.

Lemma Forall2_length' {A B} (R : A -> B -> Prop) l r : Forall2 R l r -> length l = length r.
Proof. apply Forall2_len. Qed.

Lemma mapRes_total {A B} (f : A -> res B) l : (forall a, In a l -> exists b, f a = Ok b) -> exists r, mapRes f l = Ok r.
Proof.
  induction l as [|a l IH]; intros H; cbn [mapRes]; eauto. destruct (H a (or_introl eq_refl)) as [b ->].
  destruct IH as [r ->]; [intros; apply H; now right|]. cbn [bind]. eauto.
Qed.

Lemma Forall2_zget {A B} (R : A -> B -> Prop) l r i b : Forall2 R l r -> zget r i = Ok b -> exists a, zget l i = Ok a /\ R a b.
Proof.
  intros H Hz. apply zget_ok in Hz as [Hi Hz]. setoid_rewrite zget_ok. revert Hz. generalize (Z.to_nat i) as j.
  induction H as [|x y l r Hxy H IH]; intros [|j]; cbn; try discriminate.
  - intros [= <-]. eauto.
  - apply IH.
Qed.

Lemma zget_zrange0 n i : 0 <= i < n -> zget (zrange 0 (n - 1)) i = Ok i.
Proof.
  intros H. apply zget_ok. split; [lia|]. rewrite nth_error_zrange. replace (0 + Z.of_nat (Z.to_nat i)) with i by lia.
  now replace (i <=? n - 1) with true by lia.
Qed.

Lemma zrange0_length n : 0 <= n -> length (zrange 0 (n - 1)) = Z.to_nat n.
Proof. intros H. unfold zrange. rewrite map_length, seq_length. lia. Qed.

(** One sampling per axis. *)
Lemma psampling_spec f b st : length f = length st -> length b = length st ->
  exists L, psampling (mkBox f b) st = Ok L /\ length L = length st /\
    forall i s, zget L i = Ok s -> zget f i = Ok (sfront s) /\ zget b i = Ok (sback s) /\ zget st i = Ok (sstep s).
Proof.
  intros Hf Hb. unfold psampling. cbn [bfront bback].
  destruct (mapRes_total (fun i => f0 <- zget f i ;; k <- zget b i ;; s <- zget st i ;; Ok (mkSampling f0 k s))
              (zrange 0 (Z.of_nat (length st) - 1))) as [L HL].
  { intros i Hi. apply In_zrange in Hi.
    destruct (zget_in_range f i ltac:(lia)) as [x ->]. destruct (zget_in_range b i ltac:(lia)) as [y ->].
    destruct (zget_in_range st i ltac:(lia)) as [z ->]. cbn [bind]. eauto. }
  exists L. split; [exact HL|]. apply mapRes_Forall2 in HL. split.
  - rewrite <- (Forall2_len _ _ _ HL), zrange0_length by lia. lia.
  - intros i s Hs. destruct (Forall2_zget _ _ _ _ _ HL Hs) as (j & Hj & HR).
    assert (Hr := zget_range _ _ _ Hj). rewrite zrange0_length in Hr by lia.
    rewrite zget_zrange0 in Hj by lia. injection Hj as <-.
    destruct (zget f i); try discriminate. destruct (zget b i); try discriminate. destruct (zget st i); try discriminate.
    injection HR as <-. auto.
Qed.

Lemma pshape_spec n L : n = Z.of_nat (length L) ->
  (forall s, In s L -> 0 < sstep s /\ - 2 ^ 63 <= sback s - sfront s /\ sback s - sfront s + sstep s < 2 ^ 63) ->
  pshape n L = Ok (map scount L).
Proof.
  intros Hn H. unfold pshape. replace (n =? -1) with false by lia.
  assert (E : mapRes ssize L = Ok (map scount L)).
  { apply mapRes_Forall2. clear Hn. induction L as [|s L IH]; cbn [map]; constructor.
    - apply ssize_spec; apply H; now left.
    - apply IH. intros; apply H; now right. }
  rewrite E. cbn [bind]. rewrite copy_n_spec.
  - rewrite firstn_all, skipn_all2, app_nil_r; auto. rewrite map_length, repeat_length. lia.
  - lia.
  - rewrite map_length, repeat_length. lia.
Qed.

Lemma position_sampling f b st : length f = length st -> length b = length st ->
  Forall (fun x => - 2 ^ 61 <= x < 2 ^ 61) f -> Forall (fun x => - 2 ^ 61 <= x < 2 ^ 61) b ->
  Forall (fun x => 0 < x < 2 ^ 62) st ->
  exists L, psampling (mkBox f b) st = Ok L /\
    (forall i s, zget L i = Ok s -> zget f i = Ok (sfront s) /\ zget b i = Ok (sback s) /\ zget st i = Ok (sstep s)) /\
    exists shape, pshape (Z.of_nat (length st)) L = Ok shape /\ length shape = length st /\
      forall i x y z n, zget f i = Ok x -> zget b i = Ok y -> zget st i = Ok z -> zget shape i = Ok n ->
        n = Z.max 0 ((y - x) / z + 1).
Proof.
  intros Hf Hb Hbf Hbb Hst. destruct (psampling_spec f b st Hf Hb) as (L & HL & Hl & Hg). exists L.
  split; [exact HL|]. split; [exact Hg|]. exists (map scount L). split.
  - apply pshape_spec; [lia|]. intros s Hs. apply In_nth_error in Hs as [j Hj].
    assert (Hz : zget L (Z.of_nat j) = Ok s) by (rewrite zget_nat, Hj; reflexivity).
    destruct (Hg _ _ Hz) as (H1 & H2 & H3). apply zget_ok in H1 as [_ H1]. apply zget_ok in H2 as [_ H2]. apply zget_ok in H3 as [_ H3].
    apply nth_error_In in H1. apply nth_error_In in H2. apply nth_error_In in H3.
    rewrite Forall_forall in *. specialize (Hbf _ H1). specialize (Hbb _ H2). specialize (Hst _ H3). cbn beta in *. lia.
  - split; [now rewrite map_length|]. intros i x y z n H1 H2 H3 H4. rewrite zget_map in H4.
    destruct (zget L i) as [s| |] eqn:E; try discriminate. injection H4 as <-. destruct (Hg _ _ E) as (G1 & G2 & G3).
    unfold scount. congruence.
Qed.

Lemma pshape_variable L : L <> [] -> (exists r, mapRes ssize L = Ok r) -> pshape (-1) L = UB.
Proof.
  intros HL [r Hr]. unfold pshape. rewrite Hr. cbn [bind]. cbn [Z.eqb]. destruct r; [|reflexivity].
  apply mapRes_Forall2, Forall2_len in Hr. destruct L; [congruence|discriminate].
Qed.

(** Data samples *)

Lemma dsLoop_spec {A} (mem : list A) d n : sstep (dSampling d) * dStride d <> 0 ->
  forall k fuel, k + Z.of_nat n = dSize d -> (n < fuel)%nat ->
  forLoop fuel (fun p => p =? dsIter d (dSize d)) (dsNext mem d) (dsIter d k) =
  Some (_ <- mapRes (zget mem) (map (dsIter d) (zrange k (dSize d - 1))) ;; Ok (map (dsIter d) (zrange k (dSize d - 1)))).
Proof.
  intros H. induction n as [|n IH]; intros k [|fuel] Hk Hf; try lia; rewrite forLoop_S.
  - replace k with (dSize d) by lia. rewrite Z.eqb_refl. rewrite zrange_empty by lia. reflexivity.
  - replace (dsIter d k =? dsIter d (dSize d)) with false by (unfold dsIter; nia).
    rewrite (zrange_cons k) by lia. cbn [map mapRes]. unfold dsNext at 1. destruct (zget mem (dsIter d k)); cbn [bind]; auto.
    replace (dsIter d k + sstep (dSampling d) * dStride d) with (dsIter d (k + 1)) by (unfold dsIter; lia).
    rewrite (IH (k + 1) fuel) by lia. destruct (mapRes (zget mem) _); reflexivity.
Qed.

Lemma dsForeach_eq {A} (mem : list A) d fuel : sstep (dSampling d) * dStride d <> 0 -> 0 <= dSize d ->
  (Z.to_nat (dSize d) < fuel)%nat ->
  dsForeach fuel mem d = Some (mapRes (zget mem) (map (dsIter d) (zrange 0 (dSize d - 1)))).
Proof.
  intros H Hs Hf. unfold dsForeach. rewrite (dsLoop_spec mem d (Z.to_nat (dSize d)) H 0) by lia.
  destruct (mapRes (zget mem) _) eqn:E; cbn [bind]; auto. now rewrite E.
Qed.

Lemma mapRes_ub {A B} (f : A -> res B) l a : (forall x e, f x <> Throw e) -> In a l -> f a = UB -> mapRes f l = UB.
Proof.
  intros HT Ha Hu. induction l as [|x l IH]; [destruct Ha|]. cbn [mapRes]. destruct Ha as [->|Ha].
  - now rewrite Hu.
  - destruct (f x) eqn:E; cbn [bind]; auto; [|destruct (HT x e E)]. now rewrite IH.
Qed.

Lemma zget_no_throw {A} (l : list A) i e : zget l i <> Throw e.
Proof. unfold zget. destruct (i <? 0); [discriminate|]. destruct (nth_error l (Z.to_nat i)); discriminate. Qed.

(** What iteration does: it reads as many elements as the size, whatever the back index. *)
Lemma dsForeach_spec {A} (mem : list A) d fuel : sstep (dSampling d) * dStride d <> 0 -> 0 <= dSize d ->
  (Z.to_nat (dSize d) < fuel)%nat ->
  let address j := dData d + (sfront (dSampling d) + j * sstep (dSampling d)) * dStride d in
  (forall L, dsForeach fuel mem d = Some (Ok L) <->
     Forall2 (fun j v => zget mem (address j) = Ok v) (zrange 0 (dSize d - 1)) L) /\
  (forall j, 0 <= j < dSize d -> ~ 0 <= address j < Z.of_nat (length mem) -> dsForeach fuel mem d = Some UB).
Proof.
  intros H Hs Hf address. rewrite dsForeach_eq by auto.
  assert (HA : forall j, dsIter d j = address j) by (intros j; unfold dsIter, address; lia).
  rewrite (map_ext _ _ HA). rewrite mapRes_map. split.
  - intros L. rewrite <- mapRes_Forall2. split; [intros [= E]; exact E|intros ->; reflexivity].
  - intros j Hj Hn. f_equal. apply mapRes_ub with j.
    + intros x e. apply zget_no_throw.
    + apply In_zrange. lia.
    + apply zget_out. lia.
Qed.

Lemma dsamples_full {A} (mem : list A) data n s stride fuel : 0 <= data -> 0 <= n < 2 ^ 63 -> 1 <= stride ->
  sfront s = 0 -> sstep s = 1 -> sback s = indexInf \/ sback s = n - 1 ->
  data + (n - 1) * stride < Z.of_nat (length mem) -> (Z.to_nat n < fuel)%nat ->
  let d := dsMake data n s stride in
  exists L, dsForeach fuel mem d = Some (Ok L) /\ dsCount d = Ok (Z.of_nat (length L)) /\ Z.of_nat (length L) = n /\
    forall j, 0 <= j < n -> zget L j = zget mem (data + j * stride).
Proof.
  intros Hd Hn Hk Hf Hst Hb Hm Hfu d.
  assert (EB : sback (dSampling d) = n - 1).
  { unfold d, dsMake. cbn [dSampling sback]. destruct (sback s =? indexInf) eqn:E.
    - rewrite s64_wrap; lia.
    - unfold indexInf in *. lia. }
  assert (ED : dSampling d = mkSampling 0 (n - 1) 1).
  { destruct (dSampling d) as [f0 b0 s0] eqn:E. cbn [sback] in EB. unfold d, dsMake in E. cbn [dSampling] in E. injection E as <- _ <-. now rewrite Hf, Hst, EB. }
  destruct (mapRes_total (fun j => zget mem (data + j * stride)) (zrange 0 (n - 1))) as [L HL].
  { intros j Hj. apply In_zrange in Hj. apply zget_in_range. nia. }
  exists L. apply mapRes_Forall2 in HL.
  assert (HLl : Z.of_nat (length L) = n) by (rewrite <- (Forall2_len _ _ _ HL), zrange0_length by lia; lia).
  split; [|split; [|split; [exact HLl|]]].
  - apply dsForeach_spec; rewrite ?ED; cbn [sstep sfront d dsMake dStride dSize dData]; try lia.
    clear - HL. induction HL; constructor; auto. rewrite <- H. f_equal. lia.
  - unfold dsCount. rewrite ED, ssize_spec; cbn [sstep sfront sback]; try lia. unfold scount. cbn [sstep sfront sback].
    rewrite Z.div_1_r. f_equal. lia.
  - intros j Hj. destruct (zget_in_range L j ltac:(lia)) as [v Hv]. rewrite Hv.
    destruct (Forall2_zget _ _ _ _ _ HL Hv) as (i & Hi & HR). rewrite zget_zrange0 in Hi by lia. injection Hi as <-. auto.
Qed.

(** Any other sampling makes the iteration read out of the n elements. *)
Lemma dsamples_overread {A} (mem : list A) n s stride fuel : 0 < n < 2 ^ 63 -> 1 <= stride ->
  0 <= sfront s -> 1 <= sstep s -> 0 < sfront s \/ 1 < sstep s /\ 1 < n -> Z.of_nat (length mem) = (n - 1) * stride + 1 ->
  (Z.to_nat n < fuel)%nat -> dsForeach fuel mem (dsMake 0 n s stride) = Some UB.
Proof.
  intros Hn Hk Hf Hst HX Hm Hfu. eapply (proj2 (dsForeach_spec mem (dsMake 0 n s stride) fuel ltac:(cbn; nia) ltac:(cbn; lia) ltac:(cbn; lia)) (n - 1));
    cbn [dsMake dSize dData dStride dSampling sfront sstep]; nia.
Qed.

(** With front 0 and step 1, the back index is ignored. *)
Lemma dsamples_back {A} (mem : list A) n b stride fuel : 0 <= n < 2 ^ 63 -> 1 <= stride -> 0 <= b < n - 1 ->
  (n - 1) * stride < Z.of_nat (length mem) -> (Z.to_nat n < fuel)%nat ->
  dsCount (dsMake 0 n (mkSampling 0 b 1) stride) = Ok (b + 1) /\
  exists L, dsForeach fuel mem (dsMake 0 n (mkSampling 0 b 1) stride) = Some (Ok L) /\ Z.of_nat (length L) = n.
Proof.
  intros Hn Hk Hb Hm Hf. assert (NB : b =? indexInf = false) by (unfold indexInf; lia). split.
  - unfold dsCount, dsMake. cbn [dSampling sfront sback sstep]. rewrite NB, ssize_spec; cbn [sfront sback sstep]; try lia.
    unfold scount. cbn [sfront sback sstep]. rewrite Z.div_1_r. f_equal. lia.
  - destruct (mapRes_total (fun j => zget mem (0 + (0 + j * 1) * stride)) (zrange 0 (n - 1))) as [L HL].
    { intros j Hj. apply In_zrange in Hj. apply zget_in_range. nia. }
    exists L. apply mapRes_Forall2 in HL. split.
    + apply dsForeach_spec; cbn [dsMake dSize dData dStride dSampling sfront sstep]; try lia. exact HL.
    + rewrite <- (Forall2_len _ _ _ HL), zrange0_length by lia. lia.
Qed.

(** Moves *)

Lemma dsMove_spec conv d n : conv n = n -> conv (- n) = - n ->
  dData (dsMove conv d n) = dData d + n /\ dData (dsMoveBack conv d n) = dData d - n /\
  dsMoveBack conv (dsMove conv d n) n = d.
Proof.
  intros H1 H2. unfold dsMoveBack, dsMove. cbn. rewrite H1, H2. split; [auto|]. split; [lia|].
  destruct d. cbn. f_equal. lia.
Qed.

Lemma dsMove_byte d :
  dData (dsMove (fun x => x mod 256) d 300) = dData d + 44 /\
  dData (dsMoveBack (fun x => x mod 256) d 1) = dData d + 255.
Proof. split; reflexivity. Qed.

Lemma dsPostIncr_spec conv d : conv 1 = 1 ->
  dData (snd (dsIncr conv d)) = dData d + 1 /\ dData (snd (dsPostIncr conv d)) = dData d /\ dData (fst (dsPostIncr conv d)) = dData d + 1.
Proof. intros H. cbn. rewrite H. auto. Qed.

(** A null step *)
Lemma null_step s : sstep s = 0 -> ssize s = UB /\ forall fuel, sforeach fuel s = Some UB.
Proof.
  intros H. assert (E : ssize s = UB).
  { unfold ssize. rewrite H. cbn [Z.eqb]. unfold chk64. destruct (_ && _); [|reflexivity]. cbn [bind]. destruct (_ && _); reflexivity. }
  split; [exact E|]. intros fuel. unfold sforeach. now rewrite E.
Qed.
