(** Proofs about integers of bounded width. *)
From Coq Require Import QArith.
From Verif Require Import Res Lemmas ArithModel TypesModel WidthModel WidthSpec ArithSpec ArithProofs.
Open Scope Z_scope.

Lemma half t : Wf t -> 2 ^ ibits t = 2 * 2 ^ (ibits t - 1) /\ 0 < 2 ^ (ibits t - 1).
Proof.
  unfold Wf. intros W. replace (ibits t) with (Z.succ (ibits t - 1)) at 1 by lia. rewrite Z.pow_succ_r by lia.
  split; [reflexivity | apply Z.pow_pos_nonneg; lia].
Qed.

Lemma convert_wrapped t z : Wf t -> Wrapped t z (convert t z).
Proof.
  intros W. destruct (half t W) as [E P]. unfold Wrapped, InType, itmin, itmax, convert. destruct (isigned t).
  - set (m := 2 ^ ibits t) in *. set (h := 2 ^ (ibits t - 1)) in *. pose proof (Z.mod_pos_bound (z + h) m ltac:(lia)).
    split; [lia|]. exists (- ((z + h) / m)). pose proof (Z.div_mod (z + h) m ltac:(lia)). lia.
  - set (m := 2 ^ ibits t) in *. pose proof (Z.mod_pos_bound z m ltac:(lia)).
    split; [lia|]. exists (- (z / m)). pose proof (Z.div_mod z m ltac:(lia)). lia.
Qed.

Lemma convert_id t z : Wf t -> InType t z -> convert t z = z.
Proof.
  intros W. destruct (half t W) as [E P]. unfold InType, itmin, itmax, convert. destruct (isigned t); intros H.
  - rewrite Z.mod_small by lia. lia.
  - apply Z.mod_small. lia.
Qed.

Lemma wrapped_unique t z w1 w2 : Wf t -> Wrapped t z w1 -> Wrapped t z w2 -> w1 = w2.
Proof.
  intros W [I1 [k1 E1]] [I2 [k2 E2]]. destruct (half t W) as [E P]. unfold InType, itmin, itmax in *.
  assert (- 2 ^ ibits t < w1 - w2 < 2 ^ ibits t) by (destruct (isigned t); lia).
  assert (w1 - w2 = (k1 - k2) * 2 ^ ibits t) by lia.
  assert (k1 - k2 = 0) by nia. lia.
Qed.

Lemma wrapped_convert t z w : Wf t -> Wrapped t z w -> convert t z = w.
Proof. intros W H. exact (wrapped_unique t z _ _ W (convert_wrapped t z W) H). Qed.

Lemma convert_congr t z z' k : Wf t -> z' = z + k * 2 ^ ibits t -> convert t z' = convert t z.
Proof.
  intros W E. apply wrapped_convert; [exact W|]. destruct (convert_wrapped t z W) as [I [j J]]. split; [exact I|].
  exists (j - k). lia.
Qed.

Lemma promoted_wf t : Wf t -> Wf (promoted t).
Proof. unfold promoted, Wf. destruct (Z.ltb_spec (ibits t) 32); cbn [ibits int32]; lia. Qed.

Lemma pow_le a b : 0 <= a <= b -> 2 ^ a <= 2 ^ b.
Proof. intros. apply Z.pow_le_mono_r; lia. Qed.

(** The promoted type includes the type, and converting to it first makes no difference. *)
Lemma promoted_incl t z : Wf t -> InType t z -> InType (promoted t) z.
Proof.
  intros W. unfold promoted. destruct (Z.ltb_spec (ibits t) 32) as [L|L]; [|auto]. unfold InType, itmin, itmax. cbn [isigned ibits int32].
  assert (2 ^ (ibits t - 1) <= 2 ^ 31) by (apply pow_le; unfold Wf in W; lia).
  assert (2 ^ ibits t <= 2 ^ 31) by (apply pow_le; unfold Wf in W; lia).
  change (2 ^ (32 - 1)) with (2 ^ 31). assert (0 < 2 ^ 31) by reflexivity. destruct (isigned t); lia.
Qed.

Lemma fits_spec t z : fits t z = true <-> InType t z.
Proof. unfold fits, InType. rewrite andb_true_iff, !Z.leb_le. tauto. Qed.

Lemma signed_arithmetic t : SignedArithmetic t <-> Narrow t \/ isigned t = true.
Proof.
  unfold SignedArithmetic, promoted, Narrow. destruct (Z.ltb_spec (ibits t) 32); cbn [isigned int32]; intuition lia.
Qed.

Lemma computed_cases t z :
  (SignedArithmetic t /\ ~ InType (promoted t) z /\ computed t z = UB) \/
  (SignedArithmetic t /\ InType (promoted t) z /\ computed t z = Ok z) \/
  (~ SignedArithmetic t /\ computed t z = Ok (convert (promoted t) z)).
Proof.
  unfold computed, SignedArithmetic. destruct (isigned (promoted t)) eqn:S.
  - destruct (fits (promoted t) z) eqn:F; [right; left | left].
    + apply fits_spec in F. auto.
    + split; [reflexivity|]. split; [|reflexivity]. rewrite <- fits_spec, F. discriminate.
  - right. right. split; [discriminate|reflexivity].
Qed.

Lemma not_signed_bits t : ~ SignedArithmetic t -> promoted t = t.
Proof. unfold SignedArithmetic, promoted. destruct (ibits t <? 32); cbn; [congruence|reflexivity]. Qed.

Lemma stored t z : Wf t -> computed t z <> UB -> exists w, computed t z = Ok w /\ convert t w = convert t z.
Proof.
  intros W H. destruct (computed_cases t z) as [[_ [_ E]]|[[_ [_ E]]|[N E]]]; [congruence| |].
  - exists z. auto.
  - exists (convert (promoted t) z). split; [exact E|]. rewrite (not_signed_bits t N).
    destruct (convert_wrapped t z W) as [I _]. rewrite convert_id; auto.
Qed.

Lemma computed_in t z : Wf t -> InType t z -> computed t z = Ok z.
Proof.
  intros W I. destruct (computed_cases t z) as [[_ [N _]]|[[_ [_ E]]|[N E]]]; [|exact E|].
  - exfalso. apply N, promoted_incl; auto.
  - rewrite E, convert_id; auto. apply promoted_wf; auto. apply promoted_incl; auto.
Qed.

Lemma rem_in_type t x y : Wf t -> InType t x -> InType t y -> y <> 0 -> InType t (Z.rem x y).
Proof.
  intros W X Y N. pose proof (Z.rem_bound_abs x y N). unfold InType, itmin, itmax in *. destruct (half t W). destruct (isigned t).
  - destruct (Z.eq_dec (Z.rem x y) 0) as [E|E]; [lia|]. pose proof (Z.rem_sign_nz x y N E).
    pose proof (Z.rem_le x y). lia.
  - pose proof (Z.rem_nonneg x y N ltac:(lia)). lia.
Qed.

Lemma operator_spec t o x y : Wf t -> InType t x -> InType t y ->
  (widthOp t o x y = UB <-> exact o x y = None \/ (SignedArithmetic t /\ ~ InType (promoted t) (evaluated o x y))) /\
  (forall w, widthOp t o x y = Ok w -> exists z, exact o x y = Some z /\ Wrapped t z w) /\
  (forall e, widthOp t o x y <> Throw e).
Proof.
  intros W X Y.
  assert (G : forall z, exact o x y = Some z -> promotedOp t o x y = computed t z -> z = evaluated o x y ->
    (widthOp t o x y = UB <-> exact o x y = None \/ (SignedArithmetic t /\ ~ InType (promoted t) z)) /\
    (forall w, widthOp t o x y = Ok w -> exists z, exact o x y = Some z /\ Wrapped t z w) /\
    (forall e, widthOp t o x y <> Throw e)).
  { intros z E P _. unfold widthOp. rewrite P, E. destruct (computed_cases t z) as [[S [N C]]|[[S [N C]]|[S C]]]; rewrite C; cbn [bind].
    - split; [tauto|]. split; intros; discriminate.
    - split; [split; [discriminate|intros [H|[_ H]]; [discriminate|contradiction]]|]. split; [|intros; discriminate].
      intros w Hw. injection Hw as <-. exists z. split; [reflexivity|]. apply convert_wrapped, W.
    - split; [split; [discriminate|intros [H|[H _]]; [discriminate|contradiction]]|]. split; [|intros; discriminate].
      intros w Hw. injection Hw as <-. exists z. split; [reflexivity|]. rewrite (not_signed_bits t S).
      destruct (convert_wrapped t z W) as [I K]. rewrite (convert_id t _ W I). split; auto. }
  destruct o; try (exact (G _ eq_refl eq_refl eq_refl)).
  - destruct (Z.eqb_spec y 0) as [E|E].
    + unfold widthOp, promotedOp, exact. subst y. cbn. split; [tauto|]. split; intros; discriminate.
    + unfold exact, promotedOp in G. unfold exact. destruct (Z.eqb_spec y 0); [contradiction|]. exact (G _ eq_refl eq_refl eq_refl).
  - unfold widthOp, promotedOp, exact, evaluated. destruct (Z.eqb_spec y 0) as [E|E].
    + cbn. split; [tauto|]. split; intros; discriminate.
    + pose proof (rem_in_type t x y W X Y E) as R. rewrite (computed_in t (Z.rem x y) W R).
      destruct (computed_cases t (Z.quot x y)) as [[S [N C]]|[[S [N C]]|[S C]]]; rewrite C; cbn [bind].
      * split; [tauto|]. split; intros; discriminate.
      * split; [split; [discriminate|intros [H|[_ H]]; [discriminate|contradiction]]|]. split; [|intros; discriminate].
        intros w Hw. injection Hw as <-. exists (Z.rem x y). split; [reflexivity|apply convert_wrapped, W].
      * split; [split; [discriminate|intros [H|[H _]]; [discriminate|contradiction]]|]. split; [|intros; discriminate].
        intros w Hw. injection Hw as <-. exists (Z.rem x y). split; [reflexivity|apply convert_wrapped, W].
Qed.

(** The exception: the least value of a signed type of at least 32 bits, and -1. *)
Lemma exact_spec t o x y z : Wf t -> InType t x -> InType t y -> exact o x y = Some z -> InType t z ->
  ~ LeastByMinusOne t o x y -> widthOp t o x y = Ok z.
Proof.
  intros W X Y E I N.
  assert (G : promotedOp t o x y = computed t z -> widthOp t o x y = Ok z).
  { intros P. unfold widthOp. rewrite P, (computed_in t z W I). cbn. rewrite convert_id; auto. }
  destruct o; cbn in E; try (injection E as <-; apply G; reflexivity).
  - destruct (Z.eqb_spec y 0) as [H|H]; [discriminate|]. injection E as <-. apply G. cbn. destruct (Z.eqb_spec y 0); [contradiction|reflexivity].
  - destruct (Z.eqb_spec y 0) as [H|H]; [discriminate|]. injection E as <-. apply G. cbn. destruct (Z.eqb_spec y 0); [contradiction|].
    destruct (computed_cases t (Z.quot x y)) as [[S [B C]]|[[S [B C]]|[S C]]]; rewrite C; cbn; try reflexivity.
    exfalso. apply signed_arithmetic in S. destruct (half t W) as [H2 HP].
    assert (Q : Z.abs (Z.quot x y) <= Z.abs x).
    { rewrite <- Z.quot_abs by lia. destruct (Z.eq_dec (Z.abs y) 1) as [Y1|Y1].
      - rewrite Y1, Z.quot_1_r. lia.
      - apply Z.quot_le_upper_bound; nia. }
    assert (Z.quot x y = - itmin t /\ x = itmin t /\ y = -1 /\ isigned t = true \/ InType t (Z.quot x y)) as D.
    { unfold InType, itmin, itmax in *. destruct (isigned t).
      - destruct (Z.eq_dec (Z.quot x y) (2 ^ (ibits t - 1))) as [EQ|NQ]; [left|right; lia].
        assert (x = - 2 ^ (ibits t - 1)).
        { destruct (Z.eq_dec x (- 2 ^ (ibits t - 1))); [assumption|]. lia. }
        split; [lia|]. split; [assumption|]. split; [|reflexivity].
        pose proof (Z.quot_rem x y H). pose proof (Z.rem_bound_abs x y H). nia.
      - right. assert (0 <= Z.quot x y) by (apply Z.quot_pos; lia). lia. }
    destruct D as [[EQ [EX [EY ES]]]|D]; [|apply B, promoted_incl; auto].
    destruct (Z.ltb_spec (ibits t) 32) as [L|L]; [|apply N; unfold LeastByMinusOne; auto].
    apply B. unfold promoted. destruct (Z.ltb_spec (ibits t) 32); [|lia]. unfold InType, itmin, itmax in *. rewrite ES in *. cbn [isigned ibits int32].
    assert (2 ^ (ibits t - 1) <= 2 ^ 30) by (apply pow_le; unfold Wf in W; lia). change (2 ^ (32 - 1)) with (2 * 2 ^ 30). lia.
Qed.

(** Containers *)
Lemma get2 mem a b n : Allocated mem a n -> Allocated mem b n -> forall i, 0 <= i < Z.of_nat n ->
  exists x y, zget (A:=Z) mem (a + i) = Ok x /\ zget mem (b + i) = Ok y.
Proof.
  intros [A0 A1] [B0 B1] i Hi. destruct (zget_in_range mem (a + i)) as [x Hx]; [lia|].
  destruct (zget_in_range mem (b + i)) as [y Hy]; [lia|]. eauto.
Qed.

Lemma inplace_spec t o n mem a b : Wf t -> Allocated mem a n -> Allocated mem b n -> (a <= b \/ Apart a n b n) ->
  Typed t mem a n -> Typed t mem b n ->
  (forall i x y, 0 <= i < Z.of_nat n -> zget mem (a + i) = Ok x -> zget mem (b + i) = Ok y -> exists w, widthOp t o x y = Ok w) ->
  exists mem', transform2 (widthOp t o) n mem a b = Ok mem' /\ Frame mem mem' a n /\
    forall i x y, 0 <= i < Z.of_nat n -> zget mem (a + i) = Ok x -> zget mem (b + i) = Ok y ->
    exists z w, exact o x y = Some z /\ Wrapped t z w /\ zget mem' (a + i) = Ok w.
Proof.
  intros W HA HB HD TA TB D. destruct (transform2_spec (widthOp t o) n mem a b HA HB HD) as (m & E & F & P).
  { intros i Hi. destruct (get2 mem a b n HA HB i Hi) as (x & y & Hx & Hy). destruct (D i x y Hi Hx Hy) as [w Hw].
    exists w. rewrite Hx, Hy. exact Hw. }
  exists m. split; [exact E|]. split; [exact F|]. intros i x y Hi Hx Hy. destruct (D i x y Hi Hx Hy) as [w Hw].
  destruct (operator_spec t o x y W (TA i x Hi Hx) (TB i y Hi Hy)) as [_ [S _]]. destruct (S w Hw) as (z & Ez & Wz).
  exists z, w. split; [exact Ez|]. split; [exact Wz|]. rewrite P by exact Hi. rewrite Hx, Hy. exact Hw.
Qed.

Lemma in_type_wrapped t z w : Wf t -> InType t z -> Wrapped t z w -> w = z.
Proof. intros W I H. rewrite <- (wrapped_convert t z w W H). apply convert_id; auto. Qed.

Lemma inplace_exact t o n mem a b : Wf t -> Allocated mem a n -> Allocated mem b n -> (a <= b \/ Apart a n b n) ->
  Typed t mem a n -> Typed t mem b n ->
  (forall i x y, 0 <= i < Z.of_nat n -> zget mem (a + i) = Ok x -> zget mem (b + i) = Ok y ->
    ~ LeastByMinusOne t o x y /\ exists z, exact o x y = Some z /\ InType t z) ->
  exists mem', transform2 (widthOp t o) n mem a b = Ok mem' /\ Frame mem mem' a n /\
    forall i x y, 0 <= i < Z.of_nat n -> zget mem (a + i) = Ok x -> zget mem (b + i) = Ok y ->
    exists z, exact o x y = Some z /\ zget mem' (a + i) = Ok z.
Proof.
  intros W HA HB HD TA TB D. destruct (inplace_spec t o n mem a b W HA HB HD TA TB) as (m & E & F & P).
  { intros i x y Hi Hx Hy. destruct (D i x y Hi Hx Hy) as [N (z & Ez & Iz)]. exists z. apply exact_spec; eauto. }
  exists m. split; [exact E|]. split; [exact F|]. intros i x y Hi Hx Hy. destruct (P i x y Hi Hx Hy) as (z & w & Ez & Wz & G).
  exists z. split; [exact Ez|]. destruct (D i x y Hi Hx Hy) as [N (z' & Ez' & Iz)]. assert (z' = z) by congruence. subst z'.
  rewrite G. f_equal. exact (in_type_wrapped t z w W Iz Wz).
Qed.

Lemma new_exact t o n mem a b : Wf t -> Allocated mem a n -> Allocated mem b n ->
  Typed t mem a n -> Typed t mem b n ->
  (forall i x y, 0 <= i < Z.of_nat n -> zget mem (a + i) = Ok x -> zget mem (b + i) = Ok y ->
    ~ LeastByMinusOne t o x y /\ exists z, exact o x y = Some z /\ InType t z) ->
  exists l, new2 (widthOp t o) n mem a b = Ok (mem ++ l) /\ length l = n /\
    forall i x y, 0 <= i < Z.of_nat n -> zget mem (a + i) = Ok x -> zget mem (b + i) = Ok y ->
    exists z, exact o x y = Some z /\ zget l i = Ok z.
Proof.
  intros W HA HB TA TB D. destruct (new2_spec (widthOp t o) n mem a b HA HB) as (m & E & L & F & P).
  { intros i Hi. destruct (get2 mem a b n HA HB i Hi) as (x & y & Hx & Hy). destruct (D i x y Hi Hx Hy) as [N (z & Ez & Iz)].
    exists z. rewrite Hx, Hy. cbn [bind]. apply exact_spec; eauto. }
  assert (S : m = mem ++ skipn (length mem) m).
  { rewrite <- (firstn_skipn (length mem) m) at 1. f_equal. apply zget_ext; [rewrite firstn_length; lia|].
    intros i Hi. rewrite firstn_length in Hi. rewrite <- F by lia.
    rewrite <- (firstn_skipn (length mem) m) at 2. rewrite zget_app_l; [reflexivity|]. rewrite firstn_length. lia. }
  exists (skipn (length mem) m). split; [rewrite E; f_equal; exact S|]. split; [rewrite skipn_length; lia|].
  intros i x y Hi Hx Hy. destruct (D i x y Hi Hx Hy) as [N (z & Ez & Iz)]. exists z. split; [exact Ez|].
  assert (G : zget m (Z.of_nat (length mem) + i) = Ok z).
  { rewrite P by exact Hi. rewrite Hx, Hy. cbn [bind]. apply exact_spec; eauto. }
  rewrite S in G. rewrite zget_app_r in G by lia. replace (Z.of_nat (length mem) + i - Z.of_nat (length mem)) with i in G by lia. exact G.
Qed.

Lemma abs_mul x y m : Z.abs x <= m -> Z.abs y <= m -> Z.abs (x * y) <= m * m.
Proof. intros. rewrite Z.abs_mul. apply Z.mul_le_mono_nonneg; lia. Qed.

Lemma never_overflows t o x y : Wf t -> NeverOverflows t -> ring o = true -> InType t x -> InType t y ->
  exists w, widthOp t o x y = Ok w.
Proof.
  intros W N R X Y. destruct (operator_spec t o x y W X Y) as [U [_ T]].
  destruct (widthOp t o x y) as [w|e|] eqn:E; [eauto|exfalso; exact (T e eq_refl)|]. exfalso.
  destruct (proj1 U eq_refl) as [H|[S H]]; [destruct o; discriminate|].
  destruct N as [N|[[N1 N2]|[N1 N2]]].
  - apply H. unfold promoted. destruct (Z.ltb_spec (ibits t) 32); [|lia].
    assert (B : Z.abs x <= 32767 /\ Z.abs y <= 32767).
    { unfold InType, itmin, itmax in *. assert (2 ^ (ibits t - 1) <= 2 ^ 14) by (apply pow_le; unfold Wf in W; lia).
      assert (2 ^ ibits t <= 2 ^ 15) by (apply pow_le; unfold Wf in W; lia). change (2 ^ 14) with 16384 in *. change (2 ^ 15) with 32768 in *.
      destruct (isigned t); lia. }
    destruct B as [BX BY]. pose proof (abs_mul x y _ BX BY). unfold InType, itmin, itmax. cbn [isigned ibits int32].
    change (2 ^ (32 - 1)) with 2147483648. destruct o; cbn in R |- *; try discriminate; lia.
  - apply H. unfold promoted. destruct (Z.ltb_spec (ibits t) 32); [|lia].
    assert (B : Z.abs x <= 32768 /\ Z.abs y <= 32768).
    { unfold InType, itmin, itmax in *. rewrite N2 in *. assert (2 ^ (ibits t - 1) <= 2 ^ 15) by (apply pow_le; unfold Wf in W; lia).
      change (2 ^ 15) with 32768 in *. lia. }
    destruct B as [BX BY]. pose proof (abs_mul x y _ BX BY). unfold InType, itmin, itmax. cbn [isigned ibits int32].
    change (2 ^ (32 - 1)) with 2147483648. destruct o; cbn in R |- *; try discriminate; lia.
  - apply signed_arithmetic in S. unfold Narrow in S. destruct S; [lia|congruence].
Qed.

Lemma inplace_wraps t o n mem a b : Wf t -> NeverOverflows t -> ring o = true ->
  Allocated mem a n -> Allocated mem b n -> (a <= b \/ Apart a n b n) -> Typed t mem a n -> Typed t mem b n ->
  exists mem', transform2 (widthOp t o) n mem a b = Ok mem' /\ Frame mem mem' a n /\
    forall i x y, 0 <= i < Z.of_nat n -> zget mem (a + i) = Ok x -> zget mem (b + i) = Ok y ->
    exists z w, exact o x y = Some z /\ Wrapped t z w /\ zget mem' (a + i) = Ok w.
Proof.
  intros W N R HA HB HD TA TB. apply inplace_spec; auto. intros i x y Hi Hx Hy. apply never_overflows; eauto.
Qed.

Lemma inplace_undefined t o n mem a b i x y : Wf t -> Allocated mem a n -> Allocated mem b n -> (a <= b \/ Apart a n b n) ->
  Typed t mem a n -> Typed t mem b n ->
  0 <= i < Z.of_nat n -> zget mem (a + i) = Ok x -> zget mem (b + i) = Ok y ->
  exact o x y = None \/ (SignedArithmetic t /\ ~ InType (promoted t) (evaluated o x y)) ->
  transform2 (widthOp t o) n mem a b = UB.
Proof.
  intros W HA HB HD TA TB Hi Hx Hy H. apply transform2_ub; auto.
  - intros u v e. unfold widthOp, promotedOp, computed. destruct o; repeat (match goal with |- context [if ?c then _ else _] => destruct c end; cbn [bind]); discriminate.
  - exists i. split; [exact Hi|]. rewrite Hx, Hy. cbn [bind]. apply operator_spec; eauto.
Qed.

(** Inverse operators *)
Lemma add_sub t x y w : Wf t -> InType t x -> InType t y -> widthOp t Add x y = Ok w -> widthOp t Sub w y = Ok x.
Proof.
  intros W X Y E. destruct (operator_spec t Add x y W X Y) as [_ [S _]]. destruct (S w E) as (z & Ez & [Iw [k Ek]]).
  injection Ez as <-. destruct (operator_spec t Sub w y W Iw Y) as [U [S' T]].
  destruct (widthOp t Sub w y) as [v|e|] eqn:E'; [|exfalso; exact (T e eq_refl)|].
  - destruct (S' v eq_refl) as (z & Ez & Wv). injection Ez as <-. f_equal. apply (wrapped_unique t (w - y)); auto.
    split; [exact X|]. exists (- k). lia.
  - exfalso. destruct (proj1 U eq_refl) as [H|[SA H]]; [discriminate|]. cbn in H. apply H.
    destruct (Z.ltb_spec (ibits t) 32) as [L|L].
    + unfold promoted. destruct (Z.ltb_spec (ibits t) 32); [|lia]. unfold InType, itmin, itmax in *. cbn [isigned ibits int32].
      assert (2 ^ (ibits t - 1) <= 2 ^ 15) by (apply pow_le; unfold Wf in W; lia).
      assert (2 ^ ibits t <= 2 ^ 16) by (apply pow_le; unfold Wf in W; lia).
      change (2 ^ 15) with 32768 in *. change (2 ^ 16) with 65536 in *. change (2 ^ (32 - 1)) with 2147483648.
      destruct (isigned t); lia.
    + apply promoted_incl; [exact W|]. replace (w - y) with x; [exact X|].
      assert (P : promoted t = t) by (unfold promoted; destruct (Z.ltb_spec (ibits t) 32); [lia|reflexivity]).
      unfold SignedArithmetic in SA. rewrite P in SA. unfold widthOp, promotedOp, computed in E. rewrite P, SA in E.
      destruct (fits t (x + y)) eqn:F; [|discriminate]. cbn in E. injection E as <-. apply fits_spec in F. rewrite convert_id; auto. lia.
Qed.

Lemma sub_add t x y w : Wf t -> InType t x -> InType t y -> widthOp t Sub x y = Ok w -> widthOp t Add w y = Ok x.
Proof.
  intros W X Y E. destruct (operator_spec t Sub x y W X Y) as [_ [S _]]. destruct (S w E) as (z & Ez & [Iw [k Ek]]).
  injection Ez as <-. destruct (operator_spec t Add w y W Iw Y) as [U [S' T]].
  destruct (widthOp t Add w y) as [v|e|] eqn:E'; [|exfalso; exact (T e eq_refl)|].
  - destruct (S' v eq_refl) as (z & Ez & Wv). injection Ez as <-. f_equal. apply (wrapped_unique t (w + y)); auto.
    split; [exact X|]. exists (- k). lia.
  - exfalso. destruct (proj1 U eq_refl) as [H|[SA H]]; [discriminate|]. cbn in H. apply H.
    destruct (Z.ltb_spec (ibits t) 32) as [L|L].
    + unfold promoted. destruct (Z.ltb_spec (ibits t) 32); [|lia]. unfold InType, itmin, itmax in *. cbn [isigned ibits int32].
      assert (2 ^ (ibits t - 1) <= 2 ^ 15) by (apply pow_le; unfold Wf in W; lia).
      assert (2 ^ ibits t <= 2 ^ 16) by (apply pow_le; unfold Wf in W; lia).
      change (2 ^ 15) with 32768 in *. change (2 ^ 16) with 65536 in *. change (2 ^ (32 - 1)) with 2147483648.
      destruct (isigned t); lia.
    + apply promoted_incl; [exact W|]. replace (w + y) with x; [exact X|].
      assert (P : promoted t = t) by (unfold promoted; destruct (Z.ltb_spec (ibits t) 32); [lia|reflexivity]).
      unfold SignedArithmetic in SA. rewrite P in SA. unfold widthOp, promotedOp, computed in E. rewrite P, SA in E.
      destruct (fits t (x - y)) eqn:F; [|discriminate]. cbn in E. injection E as <-. apply fits_spec in F. rewrite convert_id; auto. lia.
Qed.

Lemma defined_elements t o n mem a b m : Wf t -> Allocated mem a n -> Allocated mem b n -> (a <= b \/ Apart a n b n) ->
  transform2 (widthOp t o) n mem a b = Ok m ->
  forall i x y, 0 <= i < Z.of_nat n -> zget mem (a + i) = Ok x -> zget mem (b + i) = Ok y -> exists w, widthOp t o x y = Ok w.
Proof.
  intros W HA HB HD E i x y Hi Hx Hy.
  assert (T : forall u v e, widthOp t o u v <> Throw e).
  { intros u v e. unfold widthOp, promotedOp, computed. destruct o; repeat (match goal with |- context [if ?c then _ else _] => destruct c end; cbn [bind]); discriminate. }
  destruct (widthOp t o x y) as [w|e|] eqn:H; [eauto|exfalso; exact (T _ _ _ H)|].
  exfalso. rewrite transform2_ub in E; [discriminate| | | | |]; auto. exists i. split; [exact Hi|]. rewrite Hx, Hy. exact H.
Qed.

Lemma width_inverse t n mem a b : Wf t -> Allocated mem a n -> Allocated mem b n -> Apart a n b n ->
  Typed t mem a n -> Typed t mem b n ->
  (forall m, transform2 (widthOp t Add) n mem a b = Ok m -> transform2 (widthOp t Sub) n m a b = Ok mem) /\
  (forall m, transform2 (widthOp t Sub) n mem a b = Ok m -> transform2 (widthOp t Add) n m a b = Ok mem).
Proof.
  intros W HA HB HD TA TB. split; intros m E.
  - rewrite <- (inverse2_mem (widthOp t Add) (widthOp t Sub) n mem a b HA HB HD); [rewrite E; reflexivity|].
    intros i Hi. destruct (get2 mem a b n HA HB i Hi) as (x & y & Hx & Hy).
    destruct (defined_elements t Add n mem a b m W HA HB (or_intror HD) E i x y Hi Hx Hy) as [w Hw].
    exists x, y, w. repeat split; auto. apply (add_sub t x y w); eauto.
  - rewrite <- (inverse2_mem (widthOp t Sub) (widthOp t Add) n mem a b HA HB HD); [rewrite E; reflexivity|].
    intros i Hi. destruct (get2 mem a b n HA HB i Hi) as (x & y & Hx & Hy).
    destruct (defined_elements t Sub n mem a b m W HA HB (or_intror HD) E i x y Hi Hx Hy) as [w Hw].
    exists x, y, w. repeat split; auto. apply (sub_add t x y w); eauto.
Qed.

(** Unary operators *)
Lemma unary_spec t x : Wf t -> InType t x ->
  (widthIncr t x = UB <-> isigned t = true /\ 32 <= ibits t /\ x = itmax t) /\
  (widthDecr t x = UB <-> isigned t = true /\ 32 <= ibits t /\ x = itmin t) /\
  (widthNeg t x = UB <-> isigned t = true /\ 32 <= ibits t /\ x = itmin t) /\
  (forall w, widthIncr t x = Ok w -> Wrapped t (x + 1) w) /\
  (forall w, widthDecr t x = Ok w -> Wrapped t (x - 1) w) /\
  (forall w, widthNeg t x = Ok w -> Wrapped t (- x) w).
Proof.
  intros W X. destruct (half t W) as [H2 HP].
  assert (B8 : 2 ^ 7 <= 2 ^ (ibits t - 1)) by (apply pow_le; unfold Wf in W; lia). change (2 ^ 7) with 128 in B8.
  assert (I1 : InType t 1) by (unfold InType, itmin, itmax; destruct (isigned t); lia).
  assert (G : forall z, - 70000 <= z - x <= 70000 \/ z = - x -> (SignedArithmetic t /\ ~ InType (promoted t) z <-> isigned t = true /\ 32 <= ibits t /\ ~ InType t z)).
  { intros z Hz. unfold SignedArithmetic, promoted. destruct (Z.ltb_spec (ibits t) 32) as [L|L]; [|split; tauto].
    split; [|lia]. intros [_ N]. exfalso. apply N. unfold InType, itmin, itmax in *. cbn [isigned ibits int32].
    assert (2 ^ (ibits t - 1) <= 2 ^ 15) by (apply pow_le; unfold Wf in W; lia).
    assert (2 ^ ibits t <= 2 ^ 16) by (apply pow_le; unfold Wf in W; lia).
    change (2 ^ 15) with 32768 in *. change (2 ^ 16) with 65536 in *. change (2 ^ (32 - 1)) with 2147483648.
    destruct (isigned t); lia. }
  destruct (operator_spec t Add x 1 W X I1) as [UA [SA _]]. destruct (operator_spec t Sub x 1 W X I1) as [US [SS _]].
  assert (NU : widthNeg t x = UB <-> SignedArithmetic t /\ ~ InType (promoted t) (- x)).
  { unfold widthNeg. destruct (computed_cases t (- x)) as [[S [N C]]|[[S [N C]]|[S C]]]; rewrite C; cbn [bind];
      (split; [intros; try discriminate; tauto | intros [? ?]; try reflexivity; contradiction]). }
  split; [|split; [|split; [|split; [|split]]]].
  - unfold widthIncr. rewrite UA. cbn [exact evaluated]. rewrite (G (x + 1)) by lia. unfold InType, itmin, itmax in *.
    split; [intros [C|(S & L & N)]; [discriminate|]; rewrite S in *; repeat split; auto; lia|].
    intros (S & L & ->). right. rewrite S in *. repeat split; auto. lia.
  - unfold widthDecr. rewrite US. cbn [exact evaluated]. rewrite (G (x - 1)) by lia. unfold InType, itmin, itmax in *.
    split; [intros [C|(S & L & N)]; [discriminate|]; rewrite S in *; repeat split; auto; lia|].
    intros (S & L & ->). right. rewrite S in *. repeat split; auto. lia.
  - rewrite NU, (G (- x)) by lia. unfold InType, itmin, itmax in *.
    split; intros (S & L & N); rewrite S in *; repeat split; auto; lia.
  - intros w E. destruct (SA w E) as (z & Ez & Wz). injection Ez as <-. exact Wz.
  - intros w E. destruct (SS w E) as (z & Ez & Wz). injection Ez as <-. exact Wz.
  - intros w E. unfold widthNeg in E. destruct (computed_cases t (- x)) as [[S [N C]]|[[S [N C]]|[S C]]]; rewrite C in E; cbn [bind] in E; [discriminate| |].
    + injection E as <-. apply convert_wrapped, W.
    + injection E as <-. rewrite (not_signed_bits t S). destruct (convert_wrapped t (- x) W) as [I K]. rewrite (convert_id t _ W I). split; auto.
Qed.

(** Ranges *)
Lemma range_elements t step : Wf t -> InType t step -> forall n v l, InType t v -> widthRange t n v step = Ok l ->
  length l = n /\ forall i, 0 <= i < Z.of_nat n -> exists w, zget l i = Ok w /\ Wrapped t (v + i * step) w.
Proof.
  intros W IS. induction n as [|n IH]; intros v l V E; cbn [widthRange] in E.
  - injection E as <-. split; [reflexivity|]. intros; lia.
  - destruct (widthOp t Add v step) as [v'| |] eqn:A; cbn [bind] in E; try discriminate.
    destruct (widthRange t n v' step) as [l'| |] eqn:R; cbn [bind] in E; try discriminate. injection E as <-.
    destruct (operator_spec t Add v step W V IS) as [_ [S _]]. destruct (S v' A) as (z & Ez & [Iv [k Ek]]). injection Ez as <-.
    destruct (IH v' l' Iv R) as [L P]. split; [cbn; lia|]. intros i Hi. destruct (Z.eq_dec i 0) as [->|N].
    + exists v. split; [reflexivity|]. split; [exact V|]. exists 0. lia.
    + destruct (P (i - 1)) as (w & G & [Iw [k' Ek']]); [lia|]. exists w. split.
      * rewrite <- G. apply zget_cons_S. lia.
      * split; [exact Iw|]. exists (k + k'). lia.
Qed.

Lemma range_defined t step : Wf t -> InType t step -> forall n v, InType t v ->
  (exists l, widthRange t n v step = Ok l) \/ widthRange t n v step = UB.
Proof.
  intros W IS. induction n as [|n IH]; intros v V; cbn [widthRange]; [eauto|].
  destruct (operator_spec t Add v step W V IS) as [_ [S T]].
  destruct (widthOp t Add v step) as [v'|e|] eqn:A; cbn [bind]; [|exfalso; exact (T e eq_refl)|auto].
  destruct (S v' eq_refl) as (z & _ & [Iv _]). destruct (IH v' Iv) as [[l E]|E]; rewrite E; cbn; eauto.
Qed.

Lemma range_undefined t step : Wf t -> InType t step -> forall n v, InType t v ->
  (widthRange t n v step = UB <-> isigned t = true /\ 32 <= ibits t /\ exists i, 1 <= i <= Z.of_nat n /\ ~ InType t (v + i * step)).
Proof.
  intros W IS. induction n as [|n IH]; intros v V; cbn [widthRange].
  - split; [discriminate|]. intros (_ & _ & i & Hi & _). lia.
  - destruct (operator_spec t Add v step W V IS) as [U [S T]]. cbn [exact evaluated] in *.
    assert (G : SignedArithmetic t /\ ~ InType (promoted t) (v + step) <-> isigned t = true /\ 32 <= ibits t /\ ~ InType t (v + step)).
    { unfold SignedArithmetic, promoted. destruct (Z.ltb_spec (ibits t) 32) as [L|L]; [|split; tauto].
      split; [|lia]. intros [_ N]. exfalso. apply N. unfold InType, itmin, itmax in *. cbn [isigned ibits int32].
      assert (2 ^ (ibits t - 1) <= 2 ^ 15) by (apply pow_le; unfold Wf in W; lia).
      assert (2 ^ ibits t <= 2 ^ 16) by (apply pow_le; unfold Wf in W; lia).
      change (2 ^ 15) with 32768 in *. change (2 ^ 16) with 65536 in *. change (2 ^ (32 - 1)) with 2147483648.
      destruct (isigned t); lia. }
    rewrite G in U. destruct (widthOp t Add v step) as [v'|e|] eqn:A; cbn [bind]; [|exfalso; exact (T e eq_refl)|].
    + destruct (S v' eq_refl) as (z & Ez & [Iv [k Ek]]). injection Ez as <-.
      destruct (range_defined t step W IS n v' Iv) as [[l R]|R]; rewrite R; cbn [bind].
      * split; [discriminate|]. intros (SG & L & i & Hi & N). exfalso.
        assert (NN : ~ widthRange t n v' step = UB) by congruence. apply NN, IH; [exact Iv|]. split; [exact SG|]. split; [exact L|].
        assert (I1 : InType t (v + step)).
        { destruct (Z_le_dec (itmin t) (v + step)); [destruct (Z_le_dec (v + step) (itmax t)); [split; lia|]|];
            (exfalso; assert (X : Ok v' = @UB Z) by (apply U; right; split; [exact SG|]; split; [exact L|]; unfold InType; lia); discriminate X). }
        assert (EV : v' = v + step) by (apply (in_type_wrapped t _ _ W I1); split; [exact Iv|eauto]). clear Ek. subst v'.
        exists (i - 1). split.
        -- destruct (Z.eq_dec i 1) as [->|]; [|lia]. exfalso. apply N. replace (v + 1 * step) with (v + step) by lia. exact I1.
        -- replace (v + step + (i - 1) * step) with (v + i * step) by lia. exact N.
      * split; [|reflexivity]. intros _. destruct (proj1 (IH v' Iv) R) as (SG & L & i & Hi & N). split; [exact SG|]. split; [exact L|].
        assert (I1 : InType t (v + step)).
        { destruct (Z_le_dec (itmin t) (v + step)); [destruct (Z_le_dec (v + step) (itmax t)); [split; lia|]|];
            (exfalso; assert (X : Ok v' = @UB Z) by (apply U; right; split; [exact SG|]; split; [exact L|]; unfold InType; lia); discriminate X). }
        assert (EV : v' = v + step) by (apply (in_type_wrapped t _ _ W I1); split; [exact Iv|eauto]). clear Ek. subst v'.
        exists (i + 1). split; [lia|]. replace (v + (i + 1) * step) with (v + step + i * step) by lia. exact N.
    + split; [|reflexivity]. intros _. destruct (proj1 U eq_refl) as [C|(SG & L & N)]; [discriminate|]. split; [exact SG|]. split; [exact L|].
      exists 1. split; [lia|]. replace (v + 1 * step) with (v + step) by lia. exact N.
Qed.

(** Non-integral scalars *)
Lemma trunc_small q : (-1 < q)%Q -> (q < 1)%Q -> qtrunc q = 0.
Proof.
  unfold qtrunc, Qlt. cbn. intros. apply Z.quot_small_iff; lia.
Qed.

Lemma trunc_one q : (1 <= q)%Q -> (q < 2)%Q -> qtrunc q = 1.
Proof.
  unfold qtrunc, Qlt, Qle. cbn. intros. symmetry. apply (Z.quot_unique _ _ _ (Qnum q - Zpos (Qden q))); lia.
Qed.

Lemma trunc_int z : qtrunc (inject_Z z) = z.
Proof. unfold qtrunc. cbn. apply Z.quot_1_r. Qed.

Lemma get1 mem a n : Allocated mem a n -> forall i, 0 <= i < Z.of_nat n -> exists x, zget (A:=Z) mem (a + i) = Ok x.
Proof. intros [A0 A1] i Hi. apply zget_in_range. lia. Qed.

Lemma in01 t : Wf t -> InType t 0 /\ InType t 1.
Proof.
  intros W. destruct (half t W) as [H2 HP]. assert (B8 : 2 ^ 7 <= 2 ^ (ibits t - 1)) by (apply pow_le; unfold Wf in W; lia).
  change (2 ^ 7) with 128 in B8. unfold InType, itmin, itmax. destruct (isigned t); lia.
Qed.

Lemma scalar_pixels t o q n mem a : Wf t -> Allocated mem a n -> Typed t mem a n -> InType t (qtrunc q) ->
  (forall i x, 0 <= i < Z.of_nat n -> zget mem (a + i) = Ok x -> ~ LeastByMinusOne t o x (qtrunc q) /\
    exists z, exact o x (qtrunc q) = Some z /\ InType t z) ->
  exists mem', scalarInPlace t o q n mem a = Ok mem' /\ Frame mem mem' a n /\
    forall i x, 0 <= i < Z.of_nat n -> zget mem (a + i) = Ok x -> exists z, exact o x (qtrunc q) = Some z /\ zget mem' (a + i) = Ok z.
Proof.
  intros W HA TA IQ D. unfold scalarInPlace, scalarOf. apply fits_spec in IQ as F. rewrite F. cbn [bind].
  destruct (transform1_spec (fun x => widthOp t o x (qtrunc q)) n mem a HA) as (m & E & FR & P).
  { intros i Hi. destruct (get1 mem a n HA i Hi) as [x Hx]. destruct (D i x Hi Hx) as [N (z & Ez & Iz)]. exists z. rewrite Hx. cbn [bind]. apply exact_spec; eauto. }
  exists m. split; [exact E|]. split; [exact FR|]. intros i x Hi Hx. destruct (D i x Hi Hx) as [N (z & Ez & Iz)]. exists z. split; [exact Ez|].
  rewrite P by exact Hi. rewrite Hx. cbn [bind]. apply exact_spec; eauto.
Qed.

Lemma scalar_trunc t o q n mem a : scalarInPlace t o q n mem a = scalarInPlace t o (inject_Z (qtrunc q)) n mem a.
Proof. unfold scalarInPlace, scalarOf. rewrite trunc_int. reflexivity. Qed.

Lemma scalar_overflow t o q n mem a : ~ InType t (qtrunc q) -> scalarInPlace t o q n mem a = UB.
Proof.
  intros N. unfold scalarInPlace, scalarOf. destruct (fits t (qtrunc q)) eqn:F; [|reflexivity]. apply fits_spec in F. contradiction.
Qed.

Lemma unchanged n (mem mem' : list Z) a : Frame mem mem' a n ->
  (forall i, 0 <= i < Z.of_nat n -> zget mem' (a + i) = zget mem (a + i)) -> mem' = mem.
Proof.
  intros [L F] P. apply zget_ext; [exact L|]. intros j Hj. destruct (Z_lt_dec j a); [apply F; unfold Outside; lia|].
  destruct (Z_lt_dec j (a + Z.of_nat n)); [|apply F; unfold Outside; lia]. replace j with (a + (j - a)) by lia. apply P. lia.
Qed.

Lemma scalar_fraction t q n mem a : Wf t -> Allocated mem a n -> Typed t mem a n -> (0 < n)%nat -> (-1 < q)%Q -> (q < 1)%Q ->
  (exists mem', scalarInPlace t Mul q n mem a = Ok mem' /\ Frame mem mem' a n /\
    forall i, 0 <= i < Z.of_nat n -> zget mem' (a + i) = Ok 0) /\
  scalarInPlace t Div q n mem a = UB /\ scalarInPlace t Mod q n mem a = UB /\
  scalarInPlace t Add q n mem a = Ok mem /\ scalarInPlace t Sub q n mem a = Ok mem.
Proof.
  intros W HA TA HN L H. pose proof (trunc_small q L H) as T. destruct (in01 t W) as [I0 I1].
  assert (S : forall o, scalarInPlace t o q n mem a = transform1 (fun x => widthOp t o x 0) n mem a).
  { intros o. unfold scalarInPlace, scalarOf. rewrite T. apply fits_spec in I0 as F. rewrite F. reflexivity. }
  assert (K : forall o, (forall x, exact o x 0 = Some x) -> o <> Mod -> scalarInPlace t o q n mem a = Ok mem).
  { intros o HO NM. destruct (scalar_pixels t o q n mem a W HA TA) as (m & E & F & P).
    - rewrite T. exact I0.
    - intros i x Hi Hx. rewrite T. split; [intros [? _]; contradiction|]. exists x. split; [apply HO|]. exact (TA i x Hi Hx).
    - rewrite E. f_equal. apply (unchanged n mem m a F). intros i Hi. destruct (get1 mem a n HA i Hi) as [x Hx].
      destruct (P i x Hi Hx) as (z & Ez & G). rewrite T, HO in Ez. rewrite G. congruence. }
  split; [|split; [|split; [|split]]].
  - destruct (scalar_pixels t Mul q n mem a W HA TA) as (m & E & F & P).
    + rewrite T. exact I0.
    + intros i x Hi Hx. rewrite T. split; [intros [? _]; discriminate|]. exists (x * 0). split; [reflexivity|]. rewrite Z.mul_0_r. exact I0.
    + exists m. split; [exact E|]. split; [exact F|]. intros i Hi. destruct (get1 mem a n HA i Hi) as [x Hx].
      destruct (P i x Hi Hx) as (z & Ez & G). rewrite T in Ez. cbn in Ez. rewrite Z.mul_0_r in Ez. congruence.
  - rewrite S. destruct n; [lia|]. cbn [transform1]. destruct (get1 mem a _ HA 0) as [x Hx]; [lia|]. rewrite Z.add_0_r in Hx. rewrite Hx. reflexivity.
  - rewrite S. destruct n; [lia|]. cbn [transform1]. destruct (get1 mem a _ HA 0) as [x Hx]; [lia|]. rewrite Z.add_0_r in Hx. rewrite Hx. reflexivity.
  - apply K; [|discriminate]. intros x. cbn. f_equal. lia.
  - apply K; [|discriminate]. intros x. cbn. f_equal. lia.
Qed.

Lemma scalar_one t q n mem a : Wf t -> Allocated mem a n -> Typed t mem a n -> (1 <= q)%Q -> (q < 2)%Q ->
  scalarInPlace t Mul q n mem a = Ok mem /\ scalarInPlace t Div q n mem a = Ok mem.
Proof.
  intros W HA TA L H. pose proof (trunc_one q L H) as T. destruct (in01 t W) as [I0 I1].
  assert (K : forall o, (forall x, exact o x 1 = Some x) -> o <> Mod -> scalarInPlace t o q n mem a = Ok mem).
  { intros o HO NM. destruct (scalar_pixels t o q n mem a W HA TA) as (m & E & F & P).
    - rewrite T. exact I1.
    - intros i x Hi Hx. rewrite T. split; [intros [? _]; contradiction|]. exists x. split; [apply HO|]. exact (TA i x Hi Hx).
    - rewrite E. f_equal. apply (unchanged n mem m a F). intros i Hi. destruct (get1 mem a n HA i Hi) as [x Hx].
      destruct (P i x Hi Hx) as (z & Ez & G). rewrite T, HO in Ez. rewrite G. congruence. }
  split; apply K; try discriminate; intros x; cbn; f_equal; [lia|apply Z.quot_1_r].
Qed.

(** Integral scalars give the expected number. *)
Lemma qexact_int o x s : o <> Mod -> match exact o x s with
  | Some z => exists r, qexact o x (inject_Z s) = Some r /\ qtrunc r = z
  | None => qexact o x (inject_Z s) = None
  end.
Proof.
  intros NM. destruct o; try contradiction; cbn.
  - exists (inject_Z x + inject_Z s)%Q. split; [reflexivity|]. unfold qtrunc. cbn. rewrite Z.quot_1_r. lia.
  - exists (inject_Z x - inject_Z s)%Q. split; [reflexivity|]. unfold qtrunc. cbn. rewrite Z.quot_1_r. lia.
  - exists (inject_Z x * inject_Z s)%Q. split; [reflexivity|]. unfold qtrunc. cbn. rewrite Z.quot_1_r. lia.
  - replace (Qeq_bool (inject_Z s) 0) with (s =? 0).
    2:{ unfold Qeq_bool. cbn. unfold Zeq_bool. rewrite Z.mul_1_r. destruct (Z.eqb_spec s 0); destruct (Z.compare_spec s 0); congruence || lia. }
    destruct (Z.eqb_spec s 0) as [E|E]; [reflexivity|]. exists (inject_Z x / inject_Z s)%Q. split; [reflexivity|].
    unfold qtrunc, Qdiv, Qinv. cbn. destruct s as [|p|p]; [contradiction| |]; cbn.
    + rewrite Z.mul_1_r. reflexivity.
    + change (Zneg p) with (- Zpos p). rewrite Z.quot_opp_r by discriminate. rewrite <- Z.quot_opp_l by discriminate. f_equal. lia.
Qed.

Lemma scalar_integral t o s n mem a : Wf t -> o <> Mod -> Allocated mem a n -> Typed t mem a n -> InType t s ->
  (forall i x, 0 <= i < Z.of_nat n -> zget mem (a + i) = Ok x -> exists r, qexact o x (inject_Z s) = Some r /\ InType t (qtrunc r)) ->
  exists mem', scalarInPlace t o (inject_Z s) n mem a = Ok mem' /\ Frame mem mem' a n /\
    forall i x, 0 <= i < Z.of_nat n -> zget mem (a + i) = Ok x ->
    exists r, qexact o x (inject_Z s) = Some r /\ zget mem' (a + i) = Ok (qtrunc r).
Proof.
  intros W NM HA TA IS D. destruct (scalar_pixels t o (inject_Z s) n mem a W HA TA) as (m & E & F & P).
  - rewrite trunc_int. exact IS.
  - intros i x Hi Hx. rewrite trunc_int. split; [intros [? _]; contradiction|]. destruct (D i x Hi Hx) as (r & Er & Ir).
    pose proof (qexact_int o x s NM) as Q. destruct (exact o x s) as [z|]; [|congruence]. destruct Q as (r' & Er' & Tr).
    assert (r' = r) by congruence. subst r'. exists z. rewrite <- Tr. auto.
  - exists m. split; [exact E|]. split; [exact F|]. intros i x Hi Hx. destruct (P i x Hi Hx) as (z & Ez & G). rewrite trunc_int in Ez.
    pose proof (qexact_int o x s NM) as Q. rewrite Ez in Q. destruct Q as (r & Er & Tr). exists r. split; [exact Er|]. rewrite Tr. exact G.
Qed.

Lemma scalar_new_fraction t q n mem a : Wf t -> Allocated mem a n -> Typed t mem a n -> (-1 < q)%Q -> (q < 1)%Q ->
  scalarNew t Mul q n mem a = Ok (mem ++ repeat 0 n).
Proof.
  intros W HA TA L H. pose proof (trunc_small q L H) as T. destruct (in01 t W) as [I0 I1].
  assert (Z0 : forall x, InType t x -> widthOp t Mul x 0 = Ok 0).
  { intros x X. apply exact_spec; auto; [cbn; f_equal; lia|intros [? _]; discriminate]. }
  unfold scalarNew, scalarOf. rewrite T. apply fits_spec in I0 as F. rewrite F. cbn [bind].
  destruct (new1_spec (fun x => widthOp t Mul x 0) n mem a HA) as (m & E & LM & FR & P).
  { intros i Hi. destruct (get1 mem a n HA i Hi) as [x Hx]. exists 0. rewrite Hx. cbn [bind]. apply Z0. exact (TA i x Hi Hx). }
  rewrite E. f_equal. apply zget_ext; [rewrite app_length, repeat_length; exact LM|]. intros j Hj.
  destruct (Z_lt_dec j (Z.of_nat (length mem))) as [C|C].
  - rewrite FR by exact C. rewrite zget_app_l by exact C. reflexivity.
  - rewrite zget_app_r by lia. replace j with (Z.of_nat (length mem) + (j - Z.of_nat (length mem))) at 1 by lia.
    rewrite P by lia. destruct (get1 mem a n HA (j - Z.of_nat (length mem))) as [x Hx]; [lia|]. rewrite Hx. cbn [bind].
    rewrite Z0 by (apply (TA (j - Z.of_nat (length mem)) x ltac:(lia) Hx)). unfold zget. destruct (Z.ltb_spec (j - Z.of_nat (length mem)) 0); [lia|].
    rewrite nth_error_repeat by lia. reflexivity.
Qed.
