(** Two-dimensional correlation with Kernel1d. *)
From Verif Require Import Res VecModel BoxModel RasterModel SamplingModel LineKernelModel SeparableModel Conv2dModel Spec KernelSpec ConvSpec
  Lemmas IndexProofs ContainerProofs LineKernelProofs SeparableProofs.

Section Lines.
Variables (k : list Z) (o size istride ostride di dO : Z) (s : sampling) (convI convO : Z -> Z) (min : list Z).
Hypothesis HS : Suits (Z.of_nat (length k)) o size s.
Hypothesis Hos : ostride <> 0.
Hypothesis HconvI : convI di = di.
Hypothesis HconvO : convO dO = dO.

Lemma suits_count n : 0 <= n -> (sfront s + n * sstep s <= sback s <-> n < count s).
Proof.
  destruct HS as (_ & _ & Hf & _ & Hs & _). intros Hn. unfold count. assert (D := Z.div_mod (sback s - sfront s) (sstep s) ltac:(lia)).
  assert (M := Z.mod_pos_bound (sback s - sfront s) (sstep s) ltac:(lia)). set (q := (sback s - sfront s) / sstep s) in *. nia.
Qed.

Lemma lines_ok fuel osize oback : (Z.to_nat size < fuel)%nat -> forall n d od x m0,
  (forall j, 0 <= j < Z.of_nat n -> Line min (d + j * di) size istride (x j)) ->
  (forall j i, 0 <= j < Z.of_nat n -> 0 <= i < count s -> 0 <= od + j * dO + i * ostride < Z.of_nat (length m0)) ->
  (forall j i j' i', 0 <= j < Z.of_nat n -> 0 <= i < count s -> 0 <= j' < Z.of_nat n -> 0 <= i' < count s ->
    od + j * dO + i * ostride = od + j' * dO + i' * ostride -> j = j' /\ i = i') ->
  exists m, lines convI convO di dO fuel n (mkLkernel k o) min (mkDsamples d size s istride) m0
              (mkDsamples od osize (mkSampling 0 oback 1) ostride) = Some (Ok m) /\
    length m = length m0 /\
    (forall j i, 0 <= j < Z.of_nat n -> 0 <= i < count s -> zget m (od + j * dO + i * ostride) = Ok (correlation k o (x j) (sfront s + i * sstep s))) /\
    (forall a, (forall j i, 0 <= j < Z.of_nat n -> 0 <= i < count s -> a <> od + j * dO + i * ostride) -> zget m a = zget m0 a).
Proof.
  intros Hf. induction n as [|n IH]; intros d od x m0 HL HR HI; cbn [lines].
  - exists m0. split; [reflexivity|]. split; [reflexivity|]. split; [intros; lia|reflexivity].
  - assert (L0 : Line min d size istride (x 0)) by (specialize (HL 0 ltac:(lia)); now replace (d + 0 * di) with d in HL by lia).
    assert (RC : forall i, 0 <= i -> (sfront s + i * sstep s < o \/ sfront s + i * sstep s <= size - (Z.of_nat (length k) - o - 1) - sstep s \/ sfront s + i * sstep s <= sback s) <-> i < count s).
    { intros i Hi. rewrite <- suits_count by exact Hi. destruct HS as (_ & _ & _ & _ & _ & Q). specialize (Q i Hi). cbv zeta in Q. lia. }
    destruct (HS) as (S1 & S2 & S3 & S4 & S5 & S6).
    destruct s as [front back step]. cbn [sfront sback sstep] in *.
    destruct (correlate_back k o min d size istride (x 0) front back step m0 od osize 0 oback 1 ostride fuel S1 ltac:(lia) ltac:(lia) L0 ltac:(lia) S4 S5 ltac:(lia) Hos) as [A _].
    { intros i Hi G. apply RC in G; [|exact Hi]. specialize (HR 0 i ltac:(lia) ltac:(lia)). lia. }
    { exact Hf. }
    destruct A as (m1 & E1 & Len1 & V1 & F1).
    { intros i Hi [G1 G2]. destruct (S6 i Hi) as [_ Q]. apply Q; assumption. }
    rewrite E1. cbn [obind]. unfold dsMove. cbn [dData dSize dSampling dStride]. rewrite HconvI, HconvO.
    destruct (IH (d + di) (od + dO) (fun j => x (j + 1)) m1) as (m & E & Len & V & F).
    + intros j Hj. specialize (HL (j + 1) ltac:(lia)). now replace (d + (j + 1) * di) with (d + di + j * di) in HL by lia.
    + intros j i Hj Hi. specialize (HR (j + 1) i ltac:(lia) Hi). rewrite Len1. lia.
    + intros j i j' i' Hj Hi Hj' Hi' E. destruct (HI (j + 1) i (j' + 1) i') as [A B]; try lia.
    + exists m. split; [exact E|]. split; [congruence|]. split.
      * intros j i Hj Hi. destruct (Z.eq_dec j 0) as [->|N].
        -- replace (od + 0 * dO + i * ostride) with (od + (0 + i * 1) * ostride) by lia. rewrite F; [apply V1; [lia|apply RC; lia]|].
           intros j' i' Hj' Hi' C. destruct (HI 0 i (j' + 1) i') as [A B]; lia.
        -- specialize (V (j - 1) i ltac:(lia) Hi). replace (od + dO + (j - 1) * dO + i * ostride) with (od + j * dO + i * ostride) in V by lia.
           rewrite V. now replace (j - 1 + 1) with j by lia.
      * intros a Ha. rewrite F, F1; [reflexivity| |].
        -- intros i Hi G C. apply RC in G; [|exact Hi]. apply (Ha 0 i ltac:(lia) ltac:(lia)). lia.
        -- intros j i Hj Hi C. apply (Ha (j + 1) i ltac:(lia) Hi). lia.
Qed.
End Lines.

Lemma rank2 w h x y : rank [w; h] [x; y] = x + y * w.
Proof. unfold rank. cbn [rankFrom]. ring. Qed.

Lemma inside2 w h p : inside [w; h] p = true -> exists x y, p = [x; y] /\ 0 <= x < w /\ 0 <= y < h.
Proof. intros H. apply inside_spec in H. inversion H as [|? ? ? ? A H1]; subst. inversion H1 as [|? ? ? ? B H2]; subst. inversion H2; subst. eauto. Qed.

Lemma addr_inj w x y x' y' : 0 <= x < w -> 0 <= x' < w -> x + y * w = x' + y' * w -> x = x' /\ y = y'.
Proof. intros A B E. assert (y = y') by nia. nia. Qed.

Lemma pixel2 w h data x y : Z.of_nat (length data) = w * h -> 0 <= x < w -> 0 <= y < h -> zget data (x + y * w) = Ok (pixel [w; h] data [x; y]).
Proof.
  intros L X Y. rewrite <- (rank2 w h). apply pixel_in; [|cbn; lia]. repeat (constructor; [lia|]). constructor.
Qed.

Lemma pixel2_out w h data x y : ~ (0 <= x < w /\ 0 <= y < h) -> pixel [w; h] data [x; y] = 0.
Proof. intros N. apply pixel_out. intros H. apply N. inversion H as [|? ? ? ? A H1]; subst. inversion H1; subst. auto. Qed.

Lemma row_line2 w h data y : Z.of_nat (length data) = w * h -> 0 <= y < h -> Line data (y * w) w 1 (fun t => pixel [w; h] data [t; y]).
Proof.
  intros L Y. split; [intros t T; rewrite <- (pixel2 w h data t y L T Y); f_equal; lia|]. intros t T. apply pixel2_out. tauto.
Qed.

Lemma column_line2 w h data x : Z.of_nat (length data) = w * h -> 0 <= x < w -> Line data x h w (fun t => pixel [w; h] data [x; t]).
Proof. intros L X. split; [intros t T; apply pixel2; auto|]. intros t T. apply pixel2_out. tauto. Qed.

Lemma addr_bounds w h x y : 0 <= x < w -> 0 <= y < h -> 0 <= x + y * w < w * h.
Proof. intros X Y. nia. Qed.

Lemma correlation_ext k o x y i i' : (forall j, 0 <= j < Z.of_nat (length k) -> x (i - o + j) = y (i' - o + j)) -> correlation k o x i = correlation k o y i'.
Proof. intros H. unfold correlation. apply total_ext. intros j Hj. apply In_zrange in Hj. rewrite H by lia. reflexivity. Qed.

Lemma dsMake_suits l o size s a st : Suits l o size s -> dsMake a size s st = mkDsamples a size s st.
Proof.
  intros (_ & S2 & _ & S4 & _). destruct s as [front back step]. cbn [sfront sback sstep] in *. unfold dsMake. cbn [sfront sback sstep]. unfold indexInf.
  replace (back =? 2 ^ 63 - 1) with false by lia. reflexivity.
Qed.

Lemma dsMake_default a s st : 0 < s < 2 ^ 61 -> dsMake a s sdefault st = mkDsamples a s (mkSampling 0 (s - 1) 1) st.
Proof. intros B. unfold dsMake, sdefault. cbn [sfront sback sstep]. rewrite Z.eqb_refl, s64_wrap by lia. reflexivity. Qed.

Lemma suits_pos l o size s : Suits l o size s -> 0 < count s <= size.
Proof.
  intros (S1 & S2 & S3 & S4 & S5 & _). unfold count. assert (0 <= (sback s - sfront s) / sstep s) by (apply Z.div_pos; lia).
  assert ((sback s - sfront s) / sstep s <= sback s - sfront s) by (apply Z.div_le_upper_bound; nia). lia.
Qed.

Lemma sparse2d_ok convI convO k o w h ow oh data old sx sy fuel : let l := Z.of_nat (length k) in
  let from := Z.max 0 (sfront sy - o) in let to := Z.min (h - 1) (sback sy + (l - 1 - o)) in
  0 < h < 2 ^ 61 -> Z.of_nat (length data) = w * h -> count sx <= ow -> count sy <= oh < 2 ^ 61 -> Z.of_nat (length old) = ow * oh ->
  Suits l o w sx -> 0 <= sfront sy <= sback sy -> sback sy < h -> Suits l o (to - from + 1) (mkSampling (sfront sy - from) (sback sy - from) (sstep sy)) ->
  convI w = w -> convO (count sx) = count sx -> convO 1 = 1 -> (Z.to_nat (Z.max w h) < fuel)%nat ->
  exists out, sparseCorrelate2d convI convO fuel (mkLkernel k o) (mkRaster [w; h] data) sx sy (mkRaster [ow; oh] old) = Some (Ok out) /\
    Z.of_nat (length out) = ow * oh /\
    forall n m, 0 <= n < ow -> 0 <= m < oh ->
      pixel [ow; oh] out [n; m] =
      if (n <? count sx) && (m <? count sy)
      then axesCorrelation [w; h] [(k, o, 0%nat); (k, o, 1%nat)] (pixel [w; h] data) [sfront sx + n * sstep sx; sfront sy + m * sstep sy]
      else pixel [ow; oh] old [n; m].
Proof.
  intros l from to Hh L Bow Boh Lo SX HY HY2 SY CI CO C1 Hf.
  assert (CX := suits_pos _ _ _ _ SX). assert (CY := suits_pos _ _ _ _ SY).
  assert (ECY : count (mkSampling (sfront sy - from) (sback sy - from) (sstep sy)) = count sy) by (unfold count; cbn [sfront sback sstep]; do 2 f_equal; lia).
  rewrite ECY in CY.
  set (cx := count sx) in *. set (cy := count sy) in *. set (xh := to - from + 1) in *.
  assert (SX' := SX). assert (SY' := SY). destruct SX' as (X1 & X2 & X3 & X4 & X5 & _). destruct SY' as (Y1 & Y2 & Y3 & Y4 & Y5 & _). cbn [sfront sback sstep] in Y3, Y4, Y5.
  assert (Hfrom : 0 <= from <= to /\ to <= h - 1) by (unfold from, to, xh in *; lia).
  unfold sparseCorrelate2d. cbn [rshape rdata lorigin]. unfold lsize. cbn [lvalues]. fold l. fold from to. fold xh.
  replace (sstep sx =? 0) with false by lia.
  assert (EQ : Z.quot (sback sx - sfront sx + sstep sx) (sstep sx) = cx).
  { rewrite Z.quot_div_nonneg by lia. unfold cx, count. replace (sback sx - sfront sx + sstep sx) with (sback sx - sfront sx + 1 * sstep sx) by lia. rewrite Z.div_add by lia. reflexivity. }
  rewrite EQ. assert (PX : 0 <= cx * xh) by (apply Z.mul_nonneg_nonneg; lia). replace (cx * xh <? 0) with false by lia.
  assert (EI : rindex 2 [w; h] [0; from] = Ok (from * w)) by (rewrite rindex_rank by (discriminate || reflexivity); rewrite rank2; f_equal; lia). rewrite EI. cbn [lift obind].
  unfold iterations. replace (to <? from) with false by lia. replace (sback sx <? sfront sx) with false by lia. replace (sstep sx <=? 0) with false by lia. cbn [Z.leb Z.compare]. rewrite Z.div_1_r.
  change ((sback sx - sfront sx) / sstep sx + 1) with cx. replace (to - from + 1) with xh by reflexivity.
  rewrite (dsMake_suits l o w sx _ _ SX), (dsMake_suits l o xh _ _ _ SY), !dsMake_default by lia.
  destruct (lines_ok k o w 1 1 w cx sx convI convO data SX ltac:(lia) CI CO fuel cx (cx - 1) ltac:(lia) (Z.to_nat xh) (from * w) 0 (fun y t => pixel [w; h] data [t; from + y]) (repeat 0 (Z.to_nat (cx * xh)))) as (tmp & E1 & Lt & V1 & _).
  { intros j Hj. replace (from * w + j * w) with ((from + j) * w) by lia. apply row_line2; [exact L|]. unfold xh in *. lia. }
  { fold cx. intros j i Hj Hi. rewrite repeat_length. assert (Q := addr_bounds cx xh i j Hi ltac:(lia)). lia. }
  { fold cx. intros j i j' i' Hj Hi Hj' Hi' E. destruct (addr_inj cx i j i' j' Hi Hi') as [A B]; [lia|]. auto. }
  rewrite E1. cbn [obind]. rewrite repeat_length in Lt. fold cx in V1.
  assert (Ltz : Z.of_nat (length tmp) = cx * xh) by lia.
  destruct (lines_ok k o xh cx ow 1 1 _ convO convO tmp SY ltac:(lia) C1 C1 fuel oh (oh - 1) ltac:(unfold xh in *; lia) (Z.to_nat cx) 0 0 (fun x t => pixel [cx; xh] tmp [x; t]) old) as (out & E2 & Lout & V2 & F2).
  { intros j Hj. replace (0 + j * 1) with j by lia. assert (Hj' : 0 <= j < cx) by lia. exact (column_line2 cx xh tmp j Ltz Hj'). }
  { rewrite ECY. intros j i Hj Hi. assert (Q := addr_bounds ow oh j i ltac:(lia) ltac:(lia)). lia. }
  { rewrite ECY. intros j i j' i' Hj Hi Hj' Hi' E. apply (addr_inj ow j i j' i'); lia. }
  rewrite ECY in V2, F2. cbn [sfront sstep] in V2.
  exists out. split; [exact E2|]. assert (Loz : Z.of_nat (length out) = ow * oh) by lia. split; [exact Loz|].
  intros n m Hno Hmo. destruct ((n <? cx) && (m <? cy)) eqn:EB.
  2:{ assert (G := F2 (n + m * ow)). rewrite (pixel2 ow oh out n m Loz Hno Hmo), (pixel2 ow oh old n m Lo Hno Hmo) in G.
      assert (G' : Ok (pixel [ow; oh] out [n; m]) = Ok (pixel [ow; oh] old [n; m])); [|now injection G'].
      apply G. intros j i Hj Hi E. destruct (addr_inj ow n m j i) as [-> ->]; lia. }
  assert (Hn : 0 <= n < cx) by lia. assert (Hm : 0 <= m < cy) by lia. clear EB.
  specialize (V2 n m ltac:(lia) Hm). replace (0 + n * 1 + m * ow) with (n + m * ow) in V2 by lia.
  rewrite (pixel2 ow oh out n m Loz Hno Hmo) in V2. injection V2 as V2. rewrite V2. clear V2 F2 Hno Hmo Bow Boh Lo Loz Lout E2.
  assert (Bn : sfront sx + n * sstep sx <= sback sx) by (apply (suits_count k o w sx SX); [lia|fold cx; lia]).
  assert (Bm : sfront sy - from + m * sstep sy <= sback sy - from) by (apply (suits_count k o xh _ SY); [lia|rewrite ECY; lia]).
  assert (Pn : 0 <= n * sstep sx) by (apply Z.mul_nonneg_nonneg; lia). assert (Pm : 0 <= m * sstep sy) by (apply Z.mul_nonneg_nonneg; lia).
  cbn [axesCorrelation]. unfold axisCorrelation at 1.
  set (X := sfront sx + n * sstep sx) in *. set (Y := sfront sy + m * sstep sy).
  assert (IN : inside [w; h] [X; Y] = true) by (apply inside_spec; unfold Y; repeat (constructor; [lia|]); constructor).
  rewrite IN. cbn [nth replace]. apply correlation_ext. intros j Hj. unfold axisCorrelation.
  replace (sfront sy - from + m * sstep sy - o + j) with (Y - o + j - from) by (unfold Y; lia). set (y := Y - o + j) in *.
  assert (By : sfront sy - o <= y <= sback sy + (l - 1 - o)) by (clear - Bm Pm Hj; fold l in Hj; unfold y, Y; lia).
  assert (Efrom : from = Z.max 0 (sfront sy - o)) by reflexivity. assert (Eto : to = Z.min (h - 1) (sback sy + (l - 1 - o))) by reflexivity. assert (Exh : xh = to - from + 1) by reflexivity.
  assert (BX : 0 <= X < w) by (unfold X; clear - Bn Pn X3 X4; lia).
  assert (EX : sfront sx + n * sstep sx = X) by reflexivity.
  clearbody from to xh y X Y cx cy l.
  destruct (Z_lt_le_dec (y - from) 0) as [N|N]; [|destruct (Z_lt_le_dec (y - from) xh) as [N'|N']].
  - rewrite pixel2_out by lia. destruct (inside [w; h] [X; y]) eqn:I; [|reflexivity]. exfalso. apply inside_spec in I. inversion I as [|? ? ? ? I1 I2]; subst. inversion I2 as [|? ? ? ? I3 I4]; subst. clear - I3 N By. lia.
  - specialize (V1 (y - from) n ltac:(lia) Hn). replace (0 + (y - from) * cx + n * 1) with (n + (y - from) * cx) in V1 by lia.
    rewrite (pixel2 cx xh tmp n (y - from) Ltz Hn ltac:(lia)) in V1. injection V1 as V1. rewrite V1.
    replace (inside [w; h] [X; y]) with true by (symmetry; apply inside_spec; constructor; [exact BX|constructor; [lia|constructor]]).
    cbn [nth replace]. apply correlation_ext. intros i Hi. replace (from + (y - from)) with y by lia. rewrite EX. reflexivity.
  - rewrite pixel2_out by lia. destruct (inside [w; h] [X; y]) eqn:I; [|reflexivity]. exfalso. apply inside_spec in I. inversion I as [|? ? ? ? I1 I2]; subst. inversion I2 as [|? ? ? ? I3 I4]; subst. clear - I3 N' By. lia.
Qed.

Lemma suits_all l o size : 0 <= o < l -> l <= size < 2 ^ 61 -> Suits l o size (mkSampling 0 (size - 1) 1).
Proof. intros H1 H2. unfold Suits. cbn [sfront sback sstep]. split; [lia|]. split; [lia|]. split; [lia|]. split; [lia|]. split; [lia|]. intros n Hn. lia. Qed.

Lemma count_all size : 0 < size -> count (mkSampling 0 (size - 1) 1) = size.
Proof. intros H. unfold count. cbn [sfront sback sstep]. rewrite Z.div_1_r. lia. Qed.

Lemma axes_out shape ks X p : ks <> [] -> inside shape p = false -> axesCorrelation shape ks X p = 0.
Proof.
  revert X. induction ks as [|[[k o] a] ks IH]; intros X N I; [congruence|]. cbn [axesCorrelation]. destruct ks; [cbn [axesCorrelation]; unfold axisCorrelation; now rewrite I|].
  apply IH; [congruence|exact I].
Qed.

Lemma correlate2d_ok convI convO k o w h data old fuel : 0 < w < 2 ^ 61 -> 0 < h < 2 ^ 61 -> Z.of_nat (length data) = w * h -> Z.of_nat (length old) = w * h ->
  0 <= o < Z.of_nat (length k) -> Z.of_nat (length k) <= w -> Z.of_nat (length k) <= h -> convI w = w -> convO w = w -> convO 1 = 1 -> (Z.to_nat (Z.max w h) < fuel)%nat ->
  exists out, correlate2d convI convO fuel (mkLkernel k o) (mkRaster [w; h] data) (mkRaster [w; h] old) = Some (Ok out) /\ Z.of_nat (length out) = w * h /\
    forall p, pixel [w; h] out p = axesCorrelation [w; h] [(k, o, 0%nat); (k, o, 1%nat)] (pixel [w; h] data) p.
Proof.
  intros W H L Lo O Kw Kh CI CO C1 Hf.
  assert (ES : obind (lift (d <- rdomain 2 [w; h] ;; psampling d (vone 2))) (fun l =>
      obind (lift (zget l 0)) (fun sx => obind (lift (zget l 1)) (fun sy => sparseCorrelate2d convI convO fuel (mkLkernel k o) (mkRaster [w; h] data) sx sy (mkRaster [w; h] old)))) =
    sparseCorrelate2d convI convO fuel (mkLkernel k o) (mkRaster [w; h] data) (mkSampling 0 (w - 1) 1) (mkSampling 0 (h - 1) 1) (mkRaster [w; h] old)).
  { cbn [rdomain vzero vone tplDim Z.abs Z.to_nat Pos.to_nat Pos.iter_op Nat.add repeat length Nat.leb bind]. unfold fromShape, psampling.
    cbn [bfront bback length vone repeat vadd vsubs map2 map Z.of_nat Pos.of_succ_nat Pos.succ]. reflexivity. }
  unfold correlate2d. cbn [rshape]. rewrite ES. clear ES.
  assert (Q := sparse2d_ok convI convO k o w h w h data old (mkSampling 0 (w - 1) 1) (mkSampling 0 (h - 1) 1) fuel). cbv zeta in Q. cbn [sfront sback sstep] in Q.
  replace (Z.max 0 (0 - o)) with 0 in Q by lia. replace (Z.min (h - 1) (h - 1 + (Z.of_nat (length k) - 1 - o))) with (h - 1) in Q by lia.
  replace (h - 1 - 0 + 1) with h in Q by lia. replace (0 - 0) with 0 in Q by lia. replace (h - 1 - 0) with (h - 1) in Q by lia. rewrite !count_all in Q by lia.
  destruct Q as (out & E & Lout & V); try (assumption || lia); try (apply suits_all; lia).
  exists out. split; [exact E|]. split; [exact Lout|]. intros p. destruct (inside [w; h] p) eqn:I.
  - apply inside2 in I as (x & y & -> & X & Y). rewrite V by lia. replace ((x <? w) && (y <? h)) with true by lia. do 2 f_equal; [lia|f_equal; lia].
  - rewrite axes_out by (congruence || exact I). apply pixel_out. now apply inside_false.
Qed.

(** Rows of 256 bytes: the offset from a row to the next is 0 once converted to an unsigned char. *)
Lemma bytes_witness : let byte := fun z => z mod 256 in let data := repeat 0 256 ++ repeat 1 256 in exists out,
  correlate2d byte byte 300 (mkLkernel [1] 0) (mkRaster [256; 2] data) (mkRaster [256; 2] (repeat 0 512)) = Some (Ok out) /\
  zget data 256 = Ok 1 /\ zget out 256 = Ok 0.
Proof. eexists. split; [vm_compute; reflexivity|]. split; vm_compute; reflexivity. Qed.

(** A region which does not reach the right border of the raster. *)
Lemma region_witness : sparseCorrelate2d (fun z => z) (fun z => z) 20 (mkLkernel [1] 0) (mkRaster [6; 1] (zrange 1 6)) (mkSampling 0 1 1) (mkSampling 0 0 1) (mkRaster [2; 1] [0; 0]) = Some UB.
Proof. vm_compute. reflexivity. Qed.
