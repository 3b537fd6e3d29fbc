From Coq Require Import Reals QArith Lra.
From Verif Require Import Res Lemmas VecModel DftModel FlatDftModel Spec DftSpec FourierSpec FlatDftSpec IndexProofs DftProofs FourierProofs.
Open Scope Z_scope.

(** Arrays *)
Section Arrays.
Variable real : bool.
Variable off : Z -> Z.
Notation w := (elementWidth real).

Lemma width_cases : (real = true /\ w = 1) \/ (real = false /\ w = 2).
Proof. destruct real; [left|right]; split; reflexivity. Qed.

Lemma put_out (c : Z -> R) a v x : x < a \/ a + w <= x -> putElement real c a v x = c x.
Proof.
  intros H. unfold putElement. destruct (Z.eqb_spec x a) as [->|N]; [destruct width_cases as [[_ E]|[_ E]]; rewrite E in H; lia|].
  destruct width_cases as [[-> _]|[-> E]]; [reflexivity|]. cbn [negb andb elementWidth] in *. destruct (Z.eqb_spec x (a + 1)); [lia|reflexivity].
Qed.

Lemma put_get (c : Z -> R) a v : (real = true -> IsReal v) -> getElement 0%R real (putElement real c a v) a = v.
Proof.
  intros H. unfold getElement, putElement. rewrite Z.eqb_refl. destruct real.
  - specialize (H eq_refl). destruct v as [x y]. unfold IsReal in H. cbn [fst snd] in *. subst. reflexivity.
  - cbn [negb andb]. rewrite Z.eqb_refl. destruct (Z.eqb_spec (a + 1) a); [lia|]. destruct v; reflexivity.
Qed.

Lemma get_ext (c c' : Z -> R) a : (forall x, a <= x < a + w -> c x = c' x) -> getElement 0%R real c a = getElement 0%R real c' a.
Proof. intros H. unfold getElement. destruct real; cbn [elementWidth] in H; rewrite ?(H a), ?(H (a + 1)) by lia; reflexivity. Qed.

Lemma read_length (c : Z -> R) n : forall j, length (readFrom 0%R real off c n j) = n.
Proof. induction n as [|n IH]; intros j; cbn [readFrom length]; [reflexivity|]. rewrite IH. reflexivity. Qed.

Lemma read_ext (c c' : Z -> R) n : forall j, (forall k x, j <= k < j + Z.of_nat n -> off k <= x < off k + w -> c x = c' x) ->
  readFrom 0%R real off c n j = readFrom 0%R real off c' n j.
Proof.
  induction n as [|n IH]; intros j H; cbn [readFrom]; [reflexivity|]. f_equal.
  - apply get_ext. intros x Hx. apply (H j); [lia|exact Hx].
  - apply IH. intros k x Hk Hx. apply (H k); [lia|exact Hx].
Qed.

Lemma write_out (l : list C) : forall j (c : Z -> R) x, (forall k, j <= k < j + Z.of_nat (length l) -> x < off k \/ off k + w <= x) -> writeFrom real off l j c x = c x.
Proof.
  induction l as [|v l IH]; intros j c x H; cbn [writeFrom length] in *; [reflexivity|]. rewrite IH.
  - apply put_out. apply H. lia.
  - intros k Hk. apply H. lia.
Qed.

Lemma write_read (l : list C) : forall j (c : Z -> R), (forall k k', j <= k < k' -> k' < j + Z.of_nat (length l) -> off k + w <= off k') ->
  (real = true -> Forall IsReal l) -> readFrom 0%R real off (writeFrom real off l j c) (length l) j = l.
Proof.
  induction l as [|v l IH]; intros j c H Re; cbn [writeFrom readFrom length] in *; [reflexivity|]. f_equal.
  - transitivity (getElement 0%R real (putElement real c (off j) v) (off j)).
    + apply get_ext. intros x Hx. apply write_out. intros k Hk. left. assert (Q : off j + w <= off k) by (apply H; unfold C in *; lia). lia.
    + apply put_get. intros E. specialize (Re E). inversion Re; assumption.
  - apply IH; [intros; apply H; lia|]. intros E. specialize (Re E). inversion Re; assumption.
Qed.

Lemma read_at (c : Z -> R) n : forall j i, (i < n)%nat -> nth i (readFrom 0%R real off c n j) czero = getElement 0%R real c (off (j + Z.of_nat i)).
Proof.
  induction n as [|n IH]; intros j i Hi; [lia|]. destruct i; cbn [readFrom nth]; [rewrite Z.add_0_r; reflexivity|]. rewrite IH by lia. f_equal. f_equal. lia.
Qed.

Lemma read_value (c : Z -> R) n i : 0 <= i < Z.of_nat n -> valueAt (readFrom 0%R real off c n 0) i = getElement 0%R real c (off i).
Proof. intros H. unfold valueAt. rewrite read_at by lia. f_equal. f_equal. lia. Qed.

Lemma read_real (c : Z -> R) n : real = true -> forall j, Forall IsReal (readFrom 0%R real off c n j).
Proof. intros E. induction n as [|n IH]; intros j; cbn [readFrom]; constructor; [|apply IH]. rewrite E. reflexivity. Qed.
End Arrays.

Lemma read_off real (off off' : Z -> Z) (c : Z -> R) n : forall j, (forall k, j <= k < j + Z.of_nat n -> off k = off' k) ->
  readFrom 0%R real off c n j = readFrom 0%R real off' c n j.
Proof. induction n as [|n IH]; intros j H; cbn [readFrom]; [reflexivity|]. rewrite (H j) by lia. f_equal. apply IH. intros. apply H. lia. Qed.

Lemma write_off real (off off' : Z -> Z) (l : list C) : forall j (c : Z -> R), (forall k, j <= k < j + Z.of_nat (length l) -> off k = off' k) ->
  writeFrom real off l j c = writeFrom real off' l j c.
Proof. induction l as [|v l IH]; intros j c H; cbn [writeFrom length] in *; [reflexivity|]. rewrite (H j) by lia. apply IH. intros. apply H. lia. Qed.

Lemma contiguous_spaced real a k k' : k < k' -> contiguous real a k + elementWidth real <= contiguous real a k'.
Proof. intros H. unfold contiguous. destruct (width_cases real) as [[_ E]|[_ E]]; rewrite E; lia. Qed.

Lemma width_pos real : 1 <= elementWidth real.
Proof. destruct (width_cases real) as [[_ E]|[_ E]]; rewrite E; lia. Qed.

Lemma scribble_out a n g (c : Z -> R) x : ~ (a <= x < a + n) -> scribble a n g c x = c x.
Proof. intros H. unfold scribble. destruct (Z.leb_spec a x), (Z.ltb_spec x (a + n)); cbn [andb]; try reflexivity. lia. Qed.

Lemma scribble_in a n g (c : Z -> R) x : a <= x < a + n -> scribble a n g c x = g x.
Proof. intros H. unfold scribble. destruct (Z.leb_spec a x), (Z.ltb_spec x (a + n)); cbn [andb]; try reflexivity; lia. Qed.

Lemma within_fits (h : heap R) a n : within h a n = true <-> Fits (hsize h) a n.
Proof. unfold within, Fits. rewrite andb_true_iff, Z.leb_le, Z.leb_le. reflexivity. Qed.

(** Extents, for dims = rev (n :: rest) *)
Section Shape.
Variables (n : Z) (rest : list Z).
Hypothesis I : IntShape (n :: rest).

Lemma shape_positive : Positive (n :: rest).
Proof. apply intShape_positive. exact I. Qed.
Lemma n_pos : 0 < n.
Proof. assert (P := shape_positive). inversion P; assumption. Qed.
Lemma rest_pos : Positive rest.
Proof. assert (P := shape_positive). inversion P; assumption. Qed.

Lemma last_dims : last (rev (n :: rest)) 1 = n.
Proof. rewrite last_rev. reflexivity. Qed.

Lemma complex_prod : fftwComplex (rev (n :: rest)) = prod (n / 2 + 1 :: rest).
Proof. exact (proj1 (fftw_in_rev InverseRealDft n rest n_pos)). Qed.

Lemma extents t : extentIn t false (rev (n :: rest)) = doublesIn t n rest /\ extentOut t false (rev (n :: rest)) = doublesOut t n rest /\
  extentIn t true (rev (n :: rest)) = doublesInPlace t n rest /\ extentOut t true (rev (n :: rest)) = doublesInPlace t n rest.
Proof.
  unfold extentIn, extentOut, fftwExtent. destruct (fftw_in_rev t n rest n_pos) as [-> ->]. rewrite complex_prod.
  destruct t; cbn [realIn realOut andb elementWidth doublesIn doublesOut doublesInPlace]; repeat split; lia.
Qed.

Lemma plan_dims t : planDims t (n :: rest) = Ok (rev (n :: rest)).
Proof. destruct (fftw_extents t (n :: rest) I) as (si & so & dims & _ & _ & E & _ & _ & _ & ->). exact E. Qed.

Lemma dims_good : forallb (fun d => 0 <? d) (rev (n :: rest)) = true.
Proof. apply forallb_forall. intros d Hd. apply in_rev in Hd. assert (P := shape_positive). unfold Positive in P. rewrite Forall_forall in P. apply Z.ltb_lt. apply P. exact Hd. Qed.

Lemma flat_new t i o g h : (GoodBuffers t n rest i o (hsize h) ->
    exists h', flatNew t (n :: rest) i o g h = Ok (mkFplan t (n :: rest) i o (rev (n :: rest)), h') /\ hsize h' = hsize h /\
      forall x, Elsewhere t n rest i o x -> hcell h' x = hcell h x) /\
  (~ GoodBuffers t n rest i o (hsize h) -> flatNew (A := R) t (n :: rest) i o g h = UB).
Proof.
  unfold flatNew. rewrite plan_dims. cbn [bind]. rewrite dims_good. cbn [andb]. destruct (extents t) as (E1 & E2 & E3 & E4). unfold GoodBuffers, Elsewhere.
  destruct (Z.eqb_spec i o) as [->|N].
  - rewrite E3, E4. destruct (within h o (doublesInPlace t n rest)) eqn:W; cbn [andb orb].
    + apply within_fits in W. split; [|intros H; exfalso; apply H; left; split; [reflexivity|exact W]]. intros _. eexists. split; [reflexivity|]. split; [reflexivity|].
      intros x Hx. cbn [hcell]. rewrite !scribble_out by exact Hx. reflexivity.
    + split; [|reflexivity]. intros [[_ F]|[Ne _]]; [|contradiction]. apply within_fits in F. congruence.
  - rewrite E1, E2. destruct (within h i (doublesIn t n rest)) eqn:W1; cbn [andb].
    + destruct (within h o (doublesOut t n rest)) eqn:W2; cbn [andb].
      * destruct ((false || (i + doublesIn t n rest <=? o)) || (o + doublesOut t n rest <=? i)) eqn:D.
        -- split.
           ++ intros _. eexists. split; [reflexivity|]. split; [reflexivity|]. intros x [Hx Hy]. cbn [hcell]. rewrite !scribble_out by assumption. reflexivity.
           ++ intros H. exfalso. apply H. right. split; [exact N|]. split; [apply within_fits; exact W1|]. split; [apply within_fits; exact W2|]. cbn [orb] in D. unfold Disjoint. lia.
        -- split; [|reflexivity]. intros [[F _]|(_ & _ & _ & Dj)]; [contradiction|]. cbn [orb] in D. unfold Disjoint in Dj. lia.
      * split; [|reflexivity]. intros [[F _]|(_ & _ & F & _)]; [contradiction|]. apply within_fits in F. congruence.
    + split; [|reflexivity]. intros [[F _]|(_ & F & _)]; [contradiction|]. apply within_fits in F. congruence.
Qed.

Lemma built t i o size p : Built t (n :: rest) i o size p -> p = mkFplan t (n :: rest) i o (rev (n :: rest)) /\ GoodBuffers t n rest i o size.
Proof.
  intros (g & c & h & H). destruct (flat_new t i o g (mkHeap size c)) as [Y N]. cbn [hsize] in *.
  destruct (Z.eq_dec i o) as [->|Ne].
  - destruct (Z_le_dec 0 o), (Z_le_dec (o + doublesInPlace t n rest) size); try (rewrite N in H; [discriminate|]; intros [[_ [? ?]]|[? _]]; [lia|contradiction]).
    assert (G : GoodBuffers t n rest o o size) by (left; split; [reflexivity|split; assumption]). split; [|exact G]. destruct (Y G) as (h' & E & _). rewrite E in H. congruence.
  - assert (Dec : {GoodBuffers t n rest i o size} + {~ GoodBuffers t n rest i o size}).
    { destruct (Z_le_dec 0 i); [|right; intros [[? _]|(_ & [? ?] & _)]; [contradiction|lia]].
      destruct (Z_le_dec (i + doublesIn t n rest) size); [|right; intros [[? _]|(_ & [? ?] & _)]; [contradiction|lia]].
      destruct (Z_le_dec 0 o); [|right; intros [[? _]|(_ & _ & [? ?] & _)]; [contradiction|lia]].
      destruct (Z_le_dec (o + doublesOut t n rest) size); [|right; intros [[? _]|(_ & _ & [? ?] & _)]; [contradiction|lia]].
      destruct (Z_le_dec (i + doublesIn t n rest) o); [left; right; repeat split; try assumption; left; assumption|].
      destruct (Z_le_dec (o + doublesOut t n rest) i); [left; right; repeat split; try assumption; right; assumption|].
      right. intros [[? _]|(_ & _ & _ & [?|?])]; [contradiction|lia|lia]. }
    destruct Dec as [G|G]; [|rewrite (N G) in H; discriminate]. split; [|exact G]. destruct (Y G) as (h' & E & _). rewrite E in H. congruence.
Qed.

(** Sizes *)
Lemma padded_bound : n < padded n <= n + 2.
Proof. unfold padded. assert (P := n_pos). assert (Q := Z.div_mod n 2 ltac:(lia)). assert (M := Z.mod_pos_bound n 2 ltac:(lia)). lia. Qed.

Lemma prod_rest : 1 <= prod rest.
Proof. assert (P := prod_pos _ rest_pos). lia. Qed.

Lemma doubles_padded : 2 * prod (n / 2 + 1 :: rest) = padded n * prod rest.
Proof. rewrite prod_cons. unfold padded. lia. Qed.

Lemma real_in_place : prod (n :: rest) < 2 * prod (n / 2 + 1 :: rest).
Proof. rewrite doubles_padded, prod_cons. assert (P := padded_bound). assert (Q := prod_rest). assert (R := n_pos). nia. Qed.

Lemma in_out_fits t i o size : GoodBuffers t n rest i o size -> Fits size i (doublesIn t n rest) /\ Fits size o (doublesOut t n rest).
Proof.
  intros [[-> [F1 F2]]|(_ & F1 & F2 & _)]; [|split; assumption]. assert (Q := real_in_place).
  destruct t; cbn [doublesIn doublesOut doublesInPlace] in *; unfold Fits; lia.
Qed.

Definition countIn (t : transform) : Z := match t with InverseRealDft => prod (n / 2 + 1 :: rest) | _ => prod (n :: rest) end.
Definition countOut (t : transform) : Z := match t with RealDft => prod (n / 2 + 1 :: rest) | _ => prod (n :: rest) end.

Lemma count_pos t : 0 < countIn t /\ 0 < countOut t.
Proof.
  assert (P := prod_pos _ shape_positive). assert (Q := prod_pos _ rest_pos). assert (R := n_pos). assert (D : 0 <= n / 2) by (apply Z.div_pos; lia).
  assert (0 < prod (n / 2 + 1 :: rest)) by (rewrite prod_cons; nia). destruct t; cbn [countIn countOut]; lia.
Qed.

Lemma doubles_count t : doublesIn t n rest = elementWidth (realIn t) * countIn t /\ doublesOut t n rest = elementWidth (realOut t) * countOut t.
Proof. destruct t; cbn [doublesIn doublesOut countIn countOut realIn realOut elementWidth]; split; lia. Qed.

Lemma shapes t : exists si so, dftInShape t (n :: rest) = Ok si /\ dftOutShape t (n :: rest) = Ok so /\ shapeSize si = countIn t /\ shapeSize so = countOut t.
Proof.
  assert (H := halved_cons n rest ltac:(assert (Q := n_pos); lia)).
  assert (S1 : shapeSize (n :: rest) = prod (n :: rest)) by (apply shapeSize_prod; discriminate).
  assert (S2 : shapeSize (n / 2 + 1 :: rest) = prod (n / 2 + 1 :: rest)) by (apply shapeSize_prod; discriminate).
  destruct t; cbn [dftInShape dftOutShape countIn countOut]; rewrite ?H; do 2 eexists; repeat split; assumption.
Qed.

(** Reading and filling the rasters *)
Notation plan t i o := (mkFplan t (n :: rest) i o (rev (n :: rest))).

Lemma read_in t i o size (h : heap R) : GoodBuffers t n rest i o size -> HeapOf size h ->
  readIn 0%R (plan t i o) h = Ok (readFrom 0%R (realIn t) (contiguous (realIn t) i) (hcell h) (Z.to_nat (countIn t)) 0).
Proof.
  intros G S. destruct (shapes t) as (si & so & Ei & Eo & Si & So). unfold readIn. cbn [ftransform fshape fin]. rewrite Ei. cbn [bind].
  unfold readRaster. rewrite Si. rewrite (proj2 (within_fits h i (elementWidth (realIn t) * countIn t))); [reflexivity|].
  rewrite S, <- (proj1 (doubles_count t)). apply (in_out_fits t i o size G).
Qed.

Lemma read_out t i o size (h : heap R) : GoodBuffers t n rest i o size -> HeapOf size h ->
  readOut 0%R (plan t i o) h = Ok (readFrom 0%R (realOut t) (contiguous (realOut t) o) (hcell h) (Z.to_nat (countOut t)) 0).
Proof.
  intros G S. destruct (shapes t) as (si & so & Ei & Eo & Si & So). unfold readOut. cbn [ftransform fshape fout]. rewrite Eo. cbn [bind].
  unfold readRaster. rewrite So. rewrite (proj2 (within_fits h o (elementWidth (realOut t) * countOut t))); [reflexivity|].
  rewrite S, <- (proj2 (doubles_count t)). apply (in_out_fits t i o size G).
Qed.

Lemma accepted_elements t l : Elements t n rest l -> Z.of_nat (length l) = countIn t /\ (realIn t = true -> Forall IsReal l).
Proof. intros [L F]. split; [exact L|]. intros E. destruct t; try discriminate. exact F. Qed.

Lemma fill_raster real a l (h : heap R) size : HeapOf size h -> Fits size a (elementWidth real * Z.of_nat (length l)) -> (real = true -> Forall IsReal l) ->
  exists h', fillRaster real a l h = Ok h' /\ HeapOf size h' /\ readFrom 0%R real (contiguous real a) (hcell h') (length l) 0 = l /\
    forall x, ~ (a <= x < a + elementWidth real * Z.of_nat (length l)) -> hcell h' x = hcell h x.
Proof.
  intros S F Re. unfold fillRaster. rewrite (proj2 (within_fits h a _)) by (rewrite S; exact F). eexists. split; [reflexivity|]. split; [exact S|]. cbn [hcell]. split.
  - apply write_read; [|exact Re]. intros. apply contiguous_spaced. lia.
  - intros x Hx. apply write_out. intros k Hk. unfold contiguous. assert (W := width_pos real). nia.
Qed.

Lemma fill_in t i o size l h : GoodBuffers t n rest i o size -> HeapOf size h -> Elements t n rest l ->
  exists h', fillIn (plan t i o) l h = Ok h' /\ HeapOf size h' /\ readIn 0%R (plan t i o) h' = Ok l /\
    forall x, ~ (i <= x < i + doublesIn t n rest) -> hcell h' x = hcell h x.
Proof.
  intros G S El. destruct (accepted_elements t l El) as [L Re]. unfold fillIn. cbn [ftransform fin].
  destruct (fill_raster (realIn t) i l h size S) as (h' & E & S' & Rd & Un); [|exact Re|].
  - rewrite L, <- (proj1 (doubles_count t)). apply (in_out_fits t i o size G).
  - exists h'. split; [exact E|]. split; [exact S'|]. split.
    + rewrite (read_in t i o size h' G S'). f_equal. rewrite <- L, Nat2Z.id. exact Rd.
    + intros x Hx. apply Un. rewrite L, <- (proj1 (doubles_count t)). exact Hx.
Qed.

(** Offsets of FFTW's arrays *)
Lemma offset_contiguous real ip a j : real && ip = false -> fftwOffset real ip (rev (n :: rest)) a j = contiguous real a j.
Proof. intros E. unfold fftwOffset. rewrite E. reflexivity. Qed.

Lemma offset_row a j : prod rest = 1 -> 0 <= j < prod (n :: rest) -> fftwOffset true true (rev (n :: rest)) a j = contiguous true a j.
Proof.
  intros P H. unfold fftwOffset, contiguous. cbn [andb elementWidth]. rewrite last_dims. rewrite prod_cons, P in H.
  rewrite Z.div_small, Z.mod_small by lia. lia.
Qed.

Lemma offset_padded a p : InDomain (n :: rest) p -> fftwOffset true true (rev (n :: rest)) a (rank (n :: rest) p) = a + rank (padded n :: rest) p.
Proof.
  intros H. inversion H as [|? x ? q Hx Hq]; subst. unfold fftwOffset. cbn [andb]. rewrite last_dims, !rank_cons.
  rewrite (Z.mul_comm n), Z.div_add, Z.mod_add by lia. rewrite Z.div_small, Z.mod_small by lia. lia.
Qed.

Lemma offset_spaced real ip a k k' : 0 <= k < k' -> fftwOffset real ip (rev (n :: rest)) a k + elementWidth real <= fftwOffset real ip (rev (n :: rest)) a k'.
Proof.
  intros H. destruct (real && ip) eqn:E; [|rewrite !offset_contiguous by exact E; apply contiguous_spaced; lia].
  apply andb_prop in E. destruct E as [-> ->]. unfold fftwOffset. cbn [andb elementWidth]. rewrite last_dims. assert (P := padded_bound). assert (N := n_pos).
  assert (D1 := Z.div_mod k n ltac:(lia)). assert (D2 := Z.div_mod k' n ltac:(lia)). assert (M1 := Z.mod_pos_bound k n N). assert (M2 := Z.mod_pos_bound k' n N).
  assert (L : k / n <= k' / n) by (apply Z.div_le_mono; lia). destruct (Z.eq_dec (k / n) (k' / n)) as [Q|Q]; [rewrite Q in *; lia|]. nia.
Qed.

Lemma offset_range real ip a k count : 0 <= k < count -> (real && ip = true -> count = prod (n :: rest)) ->
  a <= fftwOffset real ip (rev (n :: rest)) a k /\
  fftwOffset real ip (rev (n :: rest)) a k + elementWidth real <= a + fftwExtent real ip (rev (n :: rest)) count.
Proof.
  intros H C. unfold fftwExtent, fftwOffset. destruct (real && ip) eqn:E.
  - rewrite (C eq_refl) in H. apply andb_prop in E. destruct E as [-> ->]. rewrite last_dims, complex_prod, doubles_padded. cbn [elementWidth].
    assert (P := padded_bound). assert (N := n_pos). assert (D := Z.div_mod k n ltac:(lia)). assert (M := Z.mod_pos_bound k n N). rewrite prod_cons in H.
    assert (0 <= k / n) by (apply Z.div_pos; lia). assert (k / n < prod rest) by (apply Z.div_lt_upper_bound; lia). nia.
  - unfold contiguous. assert (W := width_pos real). nia.
Qed.

Section Fftw.
Variable fft : transform -> list Z -> list C -> list C.
Hypothesis Fft : IsFftw fft.

Lemma eqb_neq a b : a <> b -> (a =? b) = false.
Proof. apply Z.eqb_neq. Qed.

Lemma same_in t i o k : SameLayout t rest i o -> 0 <= k < countIn t -> fftwOffset (realIn t) (i =? o) (rev (n :: rest)) i k = contiguous (realIn t) i k.
Proof.
  intros [[-> | ->]|[N|P]] H; try (apply offset_contiguous; reflexivity).
  - apply offset_contiguous. rewrite (eqb_neq _ _ N). apply andb_false_r.
  - destruct t; try (apply offset_contiguous; reflexivity). destruct (i =? o); [|apply offset_contiguous; reflexivity]. apply offset_row; assumption.
Qed.

Lemma same_out t i o k : SameLayout t rest i o -> 0 <= k < countOut t -> fftwOffset (realOut t) (i =? o) (rev (n :: rest)) o k = contiguous (realOut t) o k.
Proof.
  intros [[-> | ->]|[N|P]] H; try (apply offset_contiguous; reflexivity).
  - apply offset_contiguous. rewrite (eqb_neq _ _ N). apply andb_false_r.
  - destruct t; try (apply offset_contiguous; reflexivity). destruct (i =? o); [|apply offset_contiguous; reflexivity]. apply offset_row; assumption.
Qed.

Lemma count_fftw t : fftwIn t (rev (n :: rest)) = countIn t /\ fftwOut t (rev (n :: rest)) = countOut t.
Proof. destruct (fftw_in_rev t n rest n_pos) as [-> ->]. split; reflexivity. Qed.

(** What FFTW reads *)
Definition fftwInput (t : transform) (i o : Z) (h : heap R) : list C :=
  readFrom 0%R (realIn t) (fftwOffset (realIn t) (i =? o) (rev (n :: rest)) i) (hcell h) (Z.to_nat (countIn t)) 0.

Lemma input_length t i o h : Z.of_nat (length (fftwInput t i o h)) = countIn t.
Proof. unfold fftwInput. rewrite read_length. destruct (count_pos t). lia. Qed.

Lemma input_real t i o h : realIn t = true -> Forall IsReal (fftwInput t i o h).
Proof. intros E. apply read_real. exact E. Qed.

Lemma input_same t i o size h l : SameLayout t rest i o -> GoodBuffers t n rest i o size -> HeapOf size h -> readIn 0%R (plan t i o) h = Ok l -> fftwInput t i o h = l.
Proof.
  intros L G S E. rewrite (read_in t i o size h G S) in E. injection E as <-. apply read_off. intros k Hk. apply same_in; [exact L|]. destruct (count_pos t). lia.
Qed.

Lemma output t i o h : let y := fft t (rev (n :: rest)) (fftwInput t i o h) in
  Z.of_nat (length y) = countOut t /\ TransformOf t n rest (fftwInput t i o h) y /\ (realOut t = true -> Forall IsReal y).
Proof.
  intros y. assert (N := n_pos). destruct (fftw_transform fft Fft t n rest (fftwInput t i o h) N rest_pos) as [Ly T].
  - rewrite input_length. symmetry. apply count_fftw.
  - split; [unfold y; rewrite Ly; apply count_fftw|]. split; [exact T|]. intros E. destruct t; try discriminate. exact (proj1 T).
Qed.

Lemma transform_cells t i o g h : flatTransform 0%R fft (plan t i o) g h =
  mkHeap (hsize h) (writeFrom (realOut t) (fftwOffset (realOut t) (i =? o) (rev (n :: rest)) o) (fft t (rev (n :: rest)) (fftwInput t i o h)) 0
    (scribble i (if i =? o then doublesInPlace t n rest else doublesIn t n rest) g (hcell h))).
Proof.
  unfold flatTransform, fftwInput, inPlace. cbn [ftransform fin fout fdims]. rewrite (proj1 (count_fftw t)). destruct (extents t) as (E1 & E2 & E3 & E4).
  destruct (i =? o); rewrite ?E1, ?E3; reflexivity.
Qed.

(** Nothing else is written *)
Lemma out_range t i o k : 0 <= k < countOut t -> o <= fftwOffset (realOut t) (i =? o) (rev (n :: rest)) o k /\
  fftwOffset (realOut t) (i =? o) (rev (n :: rest)) o k + elementWidth (realOut t) <= o + (if i =? o then doublesInPlace t n rest else doublesOut t n rest).
Proof.
  intros H. destruct (offset_range (realOut t) (i =? o) o k (countOut t) H) as [A B].
  - intros E. destruct t; try discriminate. reflexivity.
  - split; [exact A|]. destruct (extents t) as (E1 & E2 & E3 & E4). unfold extentOut in E2, E4. rewrite (proj2 (count_fftw t)) in E2, E4. destruct (i =? o); lia.
Qed.

Lemma transform_elsewhere t i o g h x : Elsewhere t n rest i o x -> hcell (flatTransform 0%R fft (plan t i o) g h) x = hcell h x.
Proof.
  intros H. rewrite transform_cells. cbn [hcell]. destruct (output t i o h) as (Ly & _ & _). rewrite write_out.
  - apply scribble_out. unfold Elsewhere in H. destruct (i =? o); tauto.
  - intros k Hk. rewrite Ly in Hk. destruct (out_range t i o k ltac:(lia)) as [A B]. unfold Elsewhere in H. destruct (Z.eqb_spec i o); lia.
Qed.

Lemma transform_raster t i o size g h : GoodBuffers t n rest i o size -> HeapOf size h ->
  (forall k, 0 <= k < countOut t -> fftwOffset (realOut t) (i =? o) (rev (n :: rest)) o k = contiguous (realOut t) o k) ->
  readOut 0%R (plan t i o) (flatTransform 0%R fft (plan t i o) g h) = Ok (fft t (rev (n :: rest)) (fftwInput t i o h)).
Proof.
  intros G S H. rewrite (read_out t i o size) by (try exact G; exact S). f_equal. rewrite transform_cells. cbn [hcell]. destruct (output t i o h) as (Ly & _ & Re).
  rewrite (write_off _ _ (contiguous (realOut t) o)) by (intros k Hk; rewrite Ly in Hk; apply H; lia).
  rewrite <- Ly, Nat2Z.id. apply write_read; [|exact Re]. intros. apply contiguous_spaced. lia.
Qed.

Lemma flat_transform t i o size p l h : Built t (n :: rest) i o size p -> SameLayout t rest i o -> HeapOf size h -> Elements t n rest l ->
  exists h', fillIn p l h = Ok h' /\ forall g, exists y, readOut 0%R p (flatTransform 0%R fft p g h') = Ok y /\ TransformOf t n rest l y /\
    forall x, Elsewhere t n rest i o x -> hcell (flatTransform 0%R fft p g h') x = hcell h x.
Proof.
  intros B L S El. destruct (built t i o size p B) as [-> G]. destruct (fill_in t i o size l h G S El) as (h' & E & S' & Rd & Un). exists h'. split; [exact E|].
  intros g. exists (fft t (rev (n :: rest)) l). rewrite <- (input_same t i o size h' l L G S' Rd). split.
  - apply (transform_raster t i o size); [exact G|exact S'|]. intros k Hk. apply same_out; assumption.
  - destruct (output t i o h') as (_ & T & _). split; [exact T|]. intros x Hx. rewrite transform_elsewhere by exact Hx. apply Un.
    unfold Elsewhere in Hx. assert (Q := real_in_place). destruct (Z.eqb_spec i o); [|tauto]. destruct t; cbn [doublesIn doublesInPlace] in *; lia.
Qed.

Lemma good_inverse t i o size : GoodBuffers t n rest i o size -> GoodBuffers (inverseTransform t) n rest o i size.
Proof.
  intros [[-> F]|(N & F1 & F2 & D)]; [left; split; [reflexivity|]; destruct t; exact F|]. right. split; [congruence|].
  assert (E1 : doublesIn (inverseTransform t) n rest = doublesOut t n rest) by (destruct t; reflexivity).
  assert (E2 : doublesOut (inverseTransform t) n rest = doublesIn t n rest) by (destruct t; reflexivity). rewrite E1, E2. split; [exact F2|]. split; [exact F1|]. destruct D; [right|left]; assumption.
Qed.

Lemma inverse_in_out t i o size h : GoodBuffers t n rest i o size -> HeapOf size h -> readIn 0%R (plan (inverseTransform t) o i) h = readOut 0%R (plan t i o) h.
Proof.
  intros G S. rewrite (read_in _ o i size) by (try exact S; apply good_inverse; exact G). rewrite (read_out t i o size) by assumption.
  destruct t; reflexivity.
Qed.

Lemma inverse_out_in t i o size h : GoodBuffers t n rest i o size -> HeapOf size h -> readOut 0%R (plan (inverseTransform t) o i) h = readIn 0%R (plan t i o) h.
Proof.
  intros G S. rewrite (read_out _ o i size) by (try exact S; apply good_inverse; exact G). rewrite (read_in t i o size) by assumption.
  destruct t; reflexivity.
Qed.

Lemma elsewhere_inverse t i o x : Elsewhere t n rest i o x -> Elsewhere (inverseTransform t) n rest o i x.
Proof.
  unfold Elsewhere. rewrite (Z.eqb_sym o i). destruct (Z.eqb_spec i o) as [->|N]; [destruct t; intros H; exact H|]. intros [A B].
  destruct t; cbn [inverseTransform doublesIn doublesOut] in *; split; assumption.
Qed.

Lemma same_inverse t i o : SameLayout t rest i o -> SameLayout (inverseTransform t) rest o i.
Proof. intros [[-> | ->]|[N|P]]; [left; right; reflexivity|left; left; reflexivity|right; left; congruence|right; right; exact P]. Qed.

Lemma normalize_raster t i o size h l : GoodBuffers t n rest i o size -> HeapOf size h -> readOut 0%R (plan t i o) h = Ok l ->
  (realOut t = true -> Forall IsReal l) ->
  exists h', flatNormalize 0%R scaleC (plan t i o) h = Ok h' /\ HeapOf size h' /\ readOut 0%R (plan t i o) h' = Ok (map (scaleC (1 / inject_Z (prod (n :: rest)))) l) /\
    forall x, ~ (o <= x < o + doublesOut t n rest) -> hcell h' x = hcell h x.
Proof.
  intros G S E Re. unfold flatNormalize. cbn [fshape ftransform fout]. rewrite shapeSize_prod by discriminate. assert (P := prod_pos _ shape_positive).
  rewrite (proj2 (Z.eqb_neq (prod (n :: rest)) 0)) by lia. rewrite E. cbn [bind].
  assert (Ll : Z.of_nat (length l) = countOut t) by (rewrite (read_out t i o size h G S) in E; injection E as <-; rewrite read_length; destruct (count_pos t); lia).
  set (f := scaleC (1 / inject_Z (prod (n :: rest)))). assert (Lm : Z.of_nat (length (map f l)) = countOut t) by (rewrite map_length; exact Ll).
  destruct (fill_raster (realOut t) o (map f l) h size S) as (h' & Eh & S' & Rd & Un).
  - rewrite Lm, <- (proj2 (doubles_count t)). apply (in_out_fits t i o size G).
  - intros Er. specialize (Re Er). apply Forall_forall. intros v Hv. apply in_map_iff in Hv. destruct Hv as (u & <- & Hu). rewrite Forall_forall in Re. specialize (Re u Hu).
    unfold IsReal, f, scaleC, cscale in *. cbn [snd]. rewrite Re. ring.
  - exists h'. split; [exact Eh|]. split; [exact S'|]. split.
    + rewrite (read_out t i o size h' G S'). f_equal. rewrite <- Lm, Nat2Z.id. exact Rd.
    + intros x Hx. apply Un. rewrite Lm, <- (proj2 (doubles_count t)). exact Hx.
Qed.

Lemma flat_round_trip t i o size p g h : Built t (n :: rest) i o size p -> Direct t -> SameLayout t rest i o -> HeapOf size h ->
  exists q h0, flatInverse p g h = Ok (q, h0) /\ HeapOf size h0 /\
    forall h1 l g1 g2, HeapOf size h1 -> Elements t n rest l ->
      exists h2 h3, fillIn p l h1 = Ok h2 /\ flatNormalize 0%R scaleC q (flatTransform 0%R fft q g2 (flatTransform 0%R fft p g1 h2)) = Ok h3 /\
        readOut 0%R q h3 = Ok l /\ readIn 0%R p h3 = Ok l /\ forall x, Elsewhere t n rest i o x -> hcell h3 x = hcell h1 x.
Proof.
  intros B D L S. destruct (built t i o size p B) as [-> G]. assert (G' := good_inverse t i o size G).
  destruct (flat_new (inverseTransform t) o i g h) as [Y _]. rewrite S in Y. destruct (Y G') as (h0 & E0 & S0 & _). exists (plan (inverseTransform t) o i), h0.
  split; [exact E0|]. split; [unfold HeapOf; rewrite S0; exact S|]. intros h1 l g1 g2 S1 El.
  destruct (fill_in t i o size l h1 G S1 El) as (h2 & E2 & S2 & Rd & Un). exists h2.
  set (h' := flatTransform 0%R fft (plan t i o) g1 h2). set (y := fft t (rev (n :: rest)) l).
  assert (Ih : fftwInput t i o h2 = l) by (apply (input_same t i o size); assumption).
  assert (Ry : readOut 0%R (plan t i o) h' = Ok y).
  { unfold h', y. rewrite <- Ih. apply (transform_raster t i o size); [exact G|exact S2|]. intros k Hk. apply same_out; assumption. }
  assert (S' : HeapOf size h') by exact S2.
  assert (Ry' : readIn 0%R (plan (inverseTransform t) o i) h' = Ok y) by (rewrite (inverse_in_out t i o size) by assumption; exact Ry).
  assert (L' := same_inverse t i o L). set (h'' := flatTransform 0%R fft (plan (inverseTransform t) o i) g2 h').
  assert (Ih' : fftwInput (inverseTransform t) o i h' = y) by (apply (input_same _ o i size); assumption).
  assert (S'' : HeapOf size h'') by exact S'.
  assert (Rz : readOut 0%R (plan (inverseTransform t) o i) h'' = Ok (fft (inverseTransform t) (rev (n :: rest)) y)).
  { unfold h''. rewrite <- Ih'. apply (transform_raster _ o i size); [exact G'|exact S'|]. intros k Hk. apply same_out; assumption. }
  destruct (output (inverseTransform t) o i h') as (_ & _ & Re). rewrite Ih' in Re.
  destruct (normalize_raster (inverseTransform t) o i size h'' _ G' S'' Rz Re) as (h3 & E3 & S3 & R3 & Un3). exists h3. split; [exact E2|]. split; [exact E3|].
  assert (Q : map (scaleC (1 / inject_Z (prod (n :: rest)))) (fft (inverseTransform t) (rev (n :: rest)) y) = l).
  { destruct (accepted_elements t l El) as [Ll _]. destruct (fftw_unnormalized_rev fft Fft t n rest D n_pos rest_pos l) as [_ U].
    - rewrite Ll. symmetry. apply count_fftw.
    - exact (proj2 El).
    - unfold y. rewrite U, prod_rev, map_map. rewrite <- (map_id l) at 2. apply map_ext. intros v. apply scaleC_inverse. assert (P := prod_pos _ shape_positive). lia. }
  rewrite Q in R3. split; [exact R3|]. split; [rewrite (inverse_out_in t i o size h3 G S3) in R3; exact R3|].
  intros x Hx. assert (Hx' := elsewhere_inverse t i o x Hx). assert (Q' := real_in_place). rewrite Un3.
  - unfold h''. rewrite transform_elsewhere by exact Hx'. unfold h'. rewrite transform_elsewhere by exact Hx. apply Un.
    unfold Elsewhere in Hx. destruct (Z.eqb_spec i o); [|tauto]. destruct t; cbn [doublesIn doublesInPlace] in *; lia.
  - unfold Elsewhere in Hx'. destruct (Z.eqb_spec o i); [|tauto]. destruct t; cbn [inverseTransform doublesOut doublesInPlace] in *; lia.
Qed.

(** Real transforms in place *)
Lemma padded_size : shapeSize (padded n :: rest) = 2 * prod (n / 2 + 1 :: rest).
Proof. rewrite shapeSize_prod by discriminate. rewrite prod_cons. symmetry. apply doubles_padded. Qed.

Lemma padded_rank q : InDomain (n :: rest) q -> 0 <= rank (padded n :: rest) q < prod (padded n :: rest).
Proof. intros H. apply rank_bounds. inversion H as [|? x ? r Hx Hr]; subst. constructor; [|exact Hr]. assert (P := padded_bound). lia. Qed.

Lemma flat_real_padded i size p h g : Built RealDft (n :: rest) i i size p -> HeapOf size h ->
  exists xs y, readRaster 0%R true (padded n :: rest) i h = Ok xs /\ readOut 0%R p (flatTransform 0%R fft p g h) = Ok y /\
    forall k, InDomain (n / 2 + 1 :: rest) k -> rasterAt (n / 2 + 1 :: rest) y k = dft (n :: rest) (rasterAt (padded n :: rest) xs) k.
Proof.
  intros B S. destruct (built _ _ _ _ _ B) as [-> G]. assert (F : Fits size i (2 * prod (n / 2 + 1 :: rest))) by (destruct G as [[_ F]|[N _]]; [exact F|contradiction]).
  unfold readRaster. cbn [elementWidth]. rewrite padded_size, Z.mul_1_l. rewrite (proj2 (within_fits h i _)) by (rewrite S; exact F).
  eexists. exists (fft RealDft (rev (n :: rest)) (fftwInput RealDft i i h)). split; [reflexivity|]. split.
  - apply (transform_raster RealDft i i size); [exact G|exact S|]. intros k _. apply offset_contiguous. reflexivity.
  - intros k Hk. destruct (output RealDft i i h) as (_ & T & _). cbn [TransformOf] in T. rewrite T; [|apply input_real; reflexivity|exact Hk].
    apply dft_ext. intros q Hq. unfold rasterAt. assert (Rq := rank_bounds _ _ Hq). assert (Rp := padded_rank q Hq). assert (Zp : prod (padded n :: rest) = 2 * prod (n / 2 + 1 :: rest)) by (rewrite prod_cons; symmetry; apply doubles_padded).
    unfold fftwInput. rewrite !read_value by (cbn [countIn]; lia). cbn [realIn]. rewrite Z.eqb_refl, offset_padded by exact Hq. unfold contiguous. cbn [elementWidth]. rewrite Z.mul_1_l. reflexivity.
Qed.

Lemma flat_inverse_padded i size p h l g : Built InverseRealDft (n :: rest) i i size p -> HeapOf size h -> readIn 0%R p h = Ok l ->
  exists ys, readRaster 0%R true (padded n :: rest) i (flatTransform 0%R fft p g h) = Ok ys /\
    forall f, Hermitian (n :: rest) f -> (forall k, InDomain (n / 2 + 1 :: rest) k -> rasterAt (n / 2 + 1 :: rest) l k = f k) ->
      forall q, InDomain (n :: rest) q -> rasterAt (padded n :: rest) ys q = inverseDft (n :: rest) f q.
Proof.
  intros B S El. destruct (built _ _ _ _ _ B) as [-> G]. assert (F : Fits size i (2 * prod (n / 2 + 1 :: rest))) by (destruct G as [[_ F]|[N _]]; [exact F|contradiction]).
  unfold readRaster. cbn [elementWidth]. rewrite padded_size, Z.mul_1_l. rewrite (proj2 (within_fits _ i _)) by (cbn [flatTransform hsize]; rewrite S; exact F).
  eexists. split; [reflexivity|]. intros f Hf Hl q Hq.
  assert (I' : fftwInput InverseRealDft i i h = l).
  { rewrite (read_in InverseRealDft i i size h G S) in El. injection El as <-. apply read_off. intros k _. apply offset_contiguous. reflexivity. }
  destruct (output InverseRealDft i i h) as (Ly & T & Re). rewrite I' in *. destruct T as [_ T]. rewrite <- (T f Hf Hl q Hq).
  assert (Rq := rank_bounds _ _ Hq). assert (Rp := padded_rank q Hq). assert (Zp : prod (padded n :: rest) = 2 * prod (n / 2 + 1 :: rest)) by (rewrite prod_cons; symmetry; apply doubles_padded).
  unfold rasterAt at 1. rewrite read_value by lia. rewrite transform_cells, I'. cbn [hcell realOut]. rewrite Z.eqb_refl.
  set (y := fft InverseRealDft (rev (n :: rest)) l) in *. set (c := scribble _ _ _ _). cbn [countOut realOut] in *.
  assert (W := write_read true (fftwOffset true true (rev (n :: rest)) i) y 0 c ltac:(intros; apply offset_spaced; lia) Re).
  unfold rasterAt. rewrite <- W at 2. rewrite read_value by lia. f_equal. rewrite offset_padded by exact Hq. unfold contiguous. cbn [elementWidth]. lia.
Qed.

Lemma offset_skips a k : 0 <= k -> fftwOffset true true (rev (n :: rest)) a k <> a + n.
Proof.
  intros H. unfold fftwOffset. cbn [andb]. rewrite last_dims. assert (P := padded_bound). assert (N := n_pos). assert (M := Z.mod_pos_bound k n N). assert (0 <= k / n) by (apply Z.div_pos; lia).
  destruct (Z.eq_dec (k / n) 0) as [E|E]; [rewrite E; lia|]. nia.
Qed.

Lemma flat_inverse_garbage i size p h x : Built InverseRealDft (n :: rest) i i size p -> HeapOf size h -> 2 <= prod rest ->
  exists y, readOut 0%R p (flatTransform 0%R fft p (fun _ => x) h) = Ok y /\ valueAt y n = (x, 0%R).
Proof.
  intros B S P. destruct (built _ _ _ _ _ B) as [-> G]. eexists. split; [apply (read_out _ _ _ size); [exact G|exact S]|]. cbn [countOut realOut].
  assert (Np := n_pos). assert (prod (n :: rest) = n * prod rest) by apply prod_cons. rewrite read_value by nia. unfold getElement, contiguous. cbn [elementWidth]. rewrite Z.mul_1_l. f_equal. rewrite transform_cells. cbn [hcell realOut].
  rewrite Z.eqb_refl. rewrite write_out.
  - apply scribble_in. cbn [doublesInPlace]. assert (Q := real_in_place). nia.
  - intros k Hk. cbn [elementWidth]. assert (Q := offset_skips i k ltac:(lia)). lia.
Qed.

Lemma spike_length c k : (k < c)%nat -> length (spike c k) = c.
Proof. intros H. unfold spike. rewrite app_length. cbn [length]. rewrite !repeat_length. lia. Qed.

Lemma spike_at c k j : (k < c)%nat -> valueAt (spike c k) j = if (Z.to_nat j =? k)%nat then (1%R, 0%R) else czero.
Proof.
  intros H. unfold valueAt, spike. destruct (Nat.eqb_spec (Z.to_nat j) k) as [E|E].
  - rewrite app_nth2; rewrite repeat_length; [|lia]. rewrite E, Nat.sub_diag. reflexivity.
  - destruct (Nat.lt_ge_cases (Z.to_nat j) k) as [L|L].
    + rewrite app_nth1 by (rewrite repeat_length; exact L). apply nth_repeat.
    + rewrite app_nth2; rewrite repeat_length; [|lia]. destruct (Z.to_nat j - k)%nat as [|m] eqn:Em; [lia|]. cbn [nth]. apply nth_repeat.
Qed.

Lemma phase_zero s q : phase s q (map (fun _ => 0) q) = 0%R.
Proof. revert q. induction s as [|m s IH]; intros [|x q]; cbn [phase map]; try reflexivity. rewrite IH, Z.mul_0_r. unfold Rdiv. ring. Qed.

Lemma flat_real_wrong i size p : Built RealDft (n :: rest) i i size p -> 2 <= prod rest ->
  exists l h h', Elements RealDft n rest l /\ HeapOf size h /\ fillIn p l h = Ok h' /\
    forall g y, readOut 0%R p (flatTransform 0%R fft p g h') = Ok y -> ~ TransformOf RealDft n rest l y.
Proof.
  intros B P. destruct (built _ _ _ _ _ B) as [-> G]. assert (Np := n_pos). assert (Ep : prod (n :: rest) = n * prod rest) by apply prod_cons.
  assert (Kn : (Z.to_nat n < Z.to_nat (prod (n :: rest)))%nat) by nia.
  set (l := spike (Z.to_nat (prod (n :: rest))) (Z.to_nat n)). set (h := mkHeap size (fun _ => 0%R)).
  assert (Ll : Z.of_nat (length l) = prod (n :: rest)) by (unfold l; rewrite spike_length by exact Kn; nia).
  assert (Re : Forall IsReal l).
  { apply Forall_forall. intros v Hv. apply in_app_iff in Hv. destruct Hv as [Hv|[<-|Hv]]; [|reflexivity|]; apply repeat_spec in Hv; subst; reflexivity. }
  assert (El : Elements RealDft n rest l) by (split; [exact Ll|exact Re]).
  destruct (fill_in RealDft i i size l h G eq_refl El) as (h' & E & S' & Rd & Un). exists l, h, h'. split; [exact El|]. split; [reflexivity|]. split; [exact E|].
  intros g y Hy T.
  assert (Ey : y = fft RealDft (rev (n :: rest)) (fftwInput RealDft i i h')).
  { rewrite (transform_raster RealDft i i size) in Hy; [congruence|exact G|exact S'|]. intros k _. apply offset_contiguous. reflexivity. }
  destruct (output RealDft i i h') as (_ & T' & _). rewrite <- Ey in T'. cbn [TransformOf] in T, T'. set (z := map (fun _ => 0) (n :: rest)).
  assert (Zd : InDomain (n / 2 + 1 :: rest) (map (fun _ => 0) (n :: rest))).
  { assert (D : 0 <= n / 2) by (apply Z.div_pos; lia). constructor; [lia|]. assert (Q := rest_pos). clear - Q. unfold Positive in Q. induction Q as [|m s Hm Hs IH]; cbn [map]; constructor; [lia|exact IH]. }
  specialize (T Re _ Zd). specialize (T' (input_real RealDft i i h' eq_refl) _ Zd). rewrite T in T'.
  (* the cells *)
  assert (Cells : forall k, 0 <= k < prod (n :: rest) -> hcell h' (i + k) = if k =? n then 1%R else 0%R).
  { intros k Hk. rewrite (read_in RealDft i i size h' G S') in Rd. injection Rd as Rd. assert (V := spike_at (Z.to_nat (prod (n :: rest))) (Z.to_nat n) k Kn). fold l in V. rewrite <- Rd in V.
    cbn [countIn realIn] in V. rewrite read_value in V by lia. unfold getElement, contiguous in V. cbn [elementWidth] in V. rewrite Z.mul_1_l in V.
    destruct (Nat.eqb_spec (Z.to_nat k) (Z.to_nat n)), (Z.eqb_spec k n); try lia; injection V as V; exact V. }
  assert (Null : forall q, InDomain (n :: rest) q -> rasterAt (n :: rest) (fftwInput RealDft i i h') q = czero).
  { intros q Hq. unfold rasterAt, fftwInput. assert (Rq := rank_bounds _ _ Hq). rewrite read_value by (cbn [countIn]; lia). cbn [realIn]. unfold getElement, czero. f_equal.
    rewrite Z.eqb_refl. assert (Sk := offset_skips i (rank (n :: rest) q) ltac:(lia)). rewrite offset_padded in Sk |- * by exact Hq. assert (Rp := padded_rank q Hq).
    destruct (Z_lt_dec (rank (padded n :: rest) q) (prod (n :: rest))) as [Lt|Ge].
    - rewrite Cells by lia. destruct (Z.eqb_spec (rank (padded n :: rest) q) n); [lia|reflexivity].
    - rewrite Un by (cbn [doublesIn]; lia). reflexivity. }
  rewrite (dft_ext (n :: rest) (rasterAt (n :: rest) (fftwInput RealDft i i h')) (fun _ => czero)) in T' by exact Null.
  unfold dft in T'. rewrite (csum_zero (fun q => cmul czero _)) in T' by (intros; cring).
  set (a := unrank (n :: rest) n). assert (Ra : rank (n :: rest) a = n) by (apply rank_unrank; [apply shape_positive|nia]).
  assert (Da : InDomain (n :: rest) a) by (apply unrank_domain; apply shape_positive).
  rewrite (csum_single _ a) in T'; [|apply domain_NoDup|apply In_domain; exact Da|].
  - unfold rasterAt at 1 in T'. rewrite Ra in T'. unfold l in T'. rewrite spike_at, Nat.eqb_refl in T' by exact Kn.
    assert (Za : map (fun _ => 0) (n :: rest) = map (fun _ => 0) a).
    { apply InDomain_length in Da. clear - Da. revert Da. generalize (n :: rest). induction a as [|x a IH]; intros [|m s] Da; try discriminate; [reflexivity|]. cbn [map]. f_equal. apply IH. cbn in Da. lia. }
    rewrite Za, phase_zero, Rmult_0_r, Ropp_0, cis_0 in T'. unfold cmul, czero, cone in T'. cbn [fst snd] in T'. injection T' as T1 T2. lra.
  - intros q Hq Nq. apply In_domain in Hq. unfold rasterAt, l. rewrite spike_at by exact Kn. assert (Rq := rank_bounds _ _ Hq).
    destruct (Nat.eqb_spec (Z.to_nat (rank (n :: rest) q)) (Z.to_nat n)) as [Eq|_]; [|cring]. exfalso. apply Nq. apply (rank_inj (n :: rest)); try assumption. lia.
Qed.

Lemma flat_real_small i g h : hsize h = i + prod (n :: rest) -> flatNew (A := R) RealDft (n :: rest) i i g h = UB /\ flatNew (A := R) InverseRealDft (n :: rest) i i g h = UB.
Proof.
  intros S. assert (Q := real_in_place). split; apply flat_new; rewrite S; intros [[_ [_ F]]|[N _]]; try contradiction; cbn [doublesInPlace] in F; lia.
Qed.

Lemma last_padded : 2 <= prod rest -> prod (n :: rest) <= rank (padded n :: rest) (vsubs (n :: rest) 1).
Proof.
  intros P. assert (E := rank_last (n :: rest) ltac:(discriminate)). cbn [vsubs map] in *. rewrite !rank_cons in *. rewrite prod_cons in *. assert (B := padded_bound). assert (N := n_pos). nia.
Qed.

Lemma flat_normalize_short i size p : Built InverseRealDft (n :: rest) i i size p -> 2 <= prod rest ->
  exists q, InDomain (n :: rest) q /\ forall h h', HeapOf size h -> flatNormalize 0%R scaleC p h = Ok h' ->
    hcell h' (i + rank (padded n :: rest) q) = hcell h (i + rank (padded n :: rest) q).
Proof.
  intros B P. destruct (built _ _ _ _ _ B) as [-> G]. exists (vsubs (n :: rest) 1). split.
  - assert (Q := shape_positive). clear - Q. revert Q. generalize (n :: rest). intros s Q. unfold Positive in Q. unfold vsubs. induction Q as [|m s Hm Hs IH]; cbn [map]; constructor; [lia|exact IH].
  - intros h h' S E. assert (Rd := read_out InverseRealDft i i size h G S).
    destruct (normalize_raster InverseRealDft i i size h _ G S Rd) as (h1 & E1 & _ & _ & Un); [intros _; apply read_real; reflexivity|].
    assert (h1 = h') as -> by congruence. apply Un. cbn [doublesOut]. assert (L := last_padded P). lia.
Qed.
End Fftw.
End Shape.

(** For the examples *)
Lemma good_built t n rest i o size : IntShape (n :: rest) -> GoodBuffers t n rest i o size -> exists p, Built t (n :: rest) i o size p.
Proof.
  intros I G. destruct (flat_new n rest I t i o (fun _ => 0%R) (mkHeap size (fun _ => 0%R))) as [Y _]. destruct (Y G) as (h' & E & _). eexists. exists (fun _ => 0%R), (fun _ => 0%R), h'. exact E.
Qed.
