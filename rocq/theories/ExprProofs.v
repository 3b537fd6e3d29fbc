(** Proofs about formulae. *)
From Verif Require Import Res Lemmas ArithModel TypesModel WidthModel WidthSpec ExprModel ExprSpec ArithSpec ArithProofs WidthProofs.

Lemma pixels_nth {A} (mem : list A) operands i xs k a : PixelsAt mem operands i xs -> nth_error operands k = Some a ->
  exists x, nth_error xs k = Some x /\ zget mem (a + i) = Ok x.
Proof.
  intros H. revert k. induction H as [|b x ops xs Hx H IH]; intros [|k] E; cbn in *; try discriminate; eauto.
  injection E as ->. eauto.
Qed.

Lemma Forall2_len {X Y} (R : X -> Y -> Prop) l r : Forall2 R l r -> length l = length r.
Proof. induction 1; cbn; auto. Qed.

Lemma pixels_extended {A} (mem l : list A) n operands i xs : Operands mem n operands -> 0 <= i < Z.of_nat n ->
  PixelsAt mem operands i xs -> PixelsAt (mem ++ l) operands i xs.
Proof.
  intros O Hi P. unfold PixelsAt in *. induction P as [|a x ops xs Hx P IH]; [constructor|]. inversion O as [|? ? HA O']; subst. constructor; [|auto].
  rewrite zget_app_l; [exact Hx|]. destruct HA. lia.
Qed.

Lemma operands_extended {A} (mem l : list A) n operands : Operands mem n operands -> Operands (mem ++ l) n operands.
Proof. unfold Operands. apply Forall_impl. intros a [H0 H1]. split; [exact H0|]. rewrite app_length. lia. Qed.

Lemma pixels_exist {A} (mem : list A) n operands i : Operands mem n operands -> 0 <= i < Z.of_nat n -> exists xs, PixelsAt mem operands i xs.
Proof.
  intros O Hi. unfold PixelsAt. induction O as [|a ops [H0 H1] O IH]; [exists []; constructor|].
  destruct IH as [xs H]. destruct (zget_in_range mem (a + i)) as [x Hx]; [lia|]. exists (x :: xs). constructor; auto.
Qed.

Lemma pixels_read {A} (mem : list A) operands i xs : PixelsAt mem operands i xs -> readArgs mem (shifted operands i) = Ok xs.
Proof.
  unfold PixelsAt. induction 1 as [|a x ops xs Hx P IH]; cbn; [reflexivity|]. rewrite Hx. cbn [bind]. unfold shifted in IH. rewrite IH. reflexivity.
Qed.

Section Expr.
Context {A : Type}.
Variable op : bop -> A -> A -> res A.

Lemma as_app (mem m : list A) k : length m = (length mem + k)%nat -> (forall j, j < Z.of_nat (length mem) -> zget m j = zget mem j) ->
  exists l, m = mem ++ l.
Proof.
  intros L F. exists (skipn (length mem) m). rewrite <- (firstn_skipn (length mem) m) at 1. f_equal. apply zget_ext; [rewrite firstn_length; lia|].
  intros i Hi. rewrite firstn_length in Hi. rewrite <- F by lia.
  rewrite <- (firstn_skipn (length mem) m) at 2. rewrite zget_app_l; [reflexivity|]. rewrite firstn_length. lia.
Qed.

(** The memory is extended; each pixel of the result is the formula on the pixels of the operands. *)
Lemma formula_spec n operands e : forall mem, Operands mem n operands -> Closed (length operands) e ->
  (forall i xs, 0 <= i < Z.of_nat n -> PixelsAt mem operands i xs -> exists z, evalPixel op e xs = Ok z) ->
  exists l a, evalFormula op n operands e mem = Ok (mem ++ l, a) /\ Allocated (mem ++ l) a n /\
    forall i xs, 0 <= i < Z.of_nat n -> PixelsAt mem operands i xs -> zget (mem ++ l) (a + i) = evalPixel op e xs.
Proof.
  induction e as [k|o e1 IH1 e2 IH2|o e1 IH1 s]; intros mem O C D; cbn [evalFormula evalPixel Closed] in *.
  - destruct (nth_error operands k) as [a|] eqn:E; [|apply nth_error_None in E; lia]. exists [], a. rewrite app_nil_r. split; [reflexivity|].
    split; [apply (proj1 (Forall_forall _ _) O), (nth_error_In _ _ E)|].
    intros i xs Hi P. destruct (pixels_nth _ _ _ _ _ _ P E) as (x & Ex & Hx). rewrite Ex. exact Hx.
  - destruct C as [C1 C2].
    destruct (IH1 mem O C1) as (l1 & a1 & E1 & A1 & P1).
    { intros i xs Hi P. destruct (D i xs Hi P) as [z Hz]. destruct (evalPixel op e1 xs); cbn [bind] in Hz; try discriminate. eauto. }
    destruct (IH2 (mem ++ l1) (operands_extended mem l1 n operands O) C2) as (l2 & a2 & E2 & A2 & P2).
    { intros i xs Hi P. destruct (pixels_exist mem n operands i O Hi) as [xs' P'].
      assert (xs' = xs).
      { pose proof (pixels_read _ _ _ _ (pixels_extended mem l1 n operands i xs' O Hi P')) as R'. rewrite (pixels_read _ _ _ _ P) in R'. congruence. }
      subst xs'. destruct (D i xs Hi P') as [z Hz]. destruct (evalPixel op e1 xs); cbn [bind] in Hz; try discriminate.
      destruct (evalPixel op e2 xs); cbn [bind] in Hz; try discriminate. eauto. }
    rewrite E1. cbn [bind fst snd]. rewrite E2. cbn [bind fst snd].
    assert (A1' : Allocated ((mem ++ l1) ++ l2) a1 n) by (destruct A1; split; [lia|rewrite app_length; lia]).
    assert (V : forall i xs, 0 <= i < Z.of_nat n -> PixelsAt mem operands i xs ->
      (x <- zget ((mem ++ l1) ++ l2) (a1 + i) ;; y <- zget ((mem ++ l1) ++ l2) (a2 + i) ;; op o x y) =
      (x <- evalPixel op e1 xs ;; y <- evalPixel op e2 xs ;; op o x y)).
    { intros i xs Hi P. rewrite (P2 i xs Hi (pixels_extended mem l1 n operands i xs O Hi P)). rewrite zget_app_l by (destruct A1; lia).
      rewrite (P1 i xs Hi P). reflexivity. }
    destruct (new2_spec (op o) n ((mem ++ l1) ++ l2) a1 a2 A1' A2) as (m & E & L & F & PM).
    { intros i Hi. destruct (pixels_exist mem n operands i O Hi) as [xs P]. rewrite (V i xs Hi P). apply D with (i := i); auto. }
    rewrite E. cbn [bind]. destruct (as_app _ _ _ L F) as [l3 ->]. exists (l1 ++ l2 ++ l3), (Z.of_nat (length ((mem ++ l1) ++ l2))).
    rewrite !app_assoc. split; [reflexivity|]. split.
    + rewrite !app_length in L. split; [lia|]. rewrite !app_length. lia.
    + intros i xs Hi P. rewrite PM by exact Hi. apply V; auto.
  - destruct (IH1 mem O C) as (l1 & a1 & E1 & A1 & P1).
    { intros i xs Hi P. destruct (D i xs Hi P) as [z Hz]. destruct (evalPixel op e1 xs); cbn [bind] in Hz; try discriminate. eauto. }
    rewrite E1. cbn [bind fst snd]. destruct (new1_spec (fun x => op o x s) n (mem ++ l1) a1 A1) as (m & E & L & F & PM).
    { intros i Hi. destruct (pixels_exist mem n operands i O Hi) as [xs P]. rewrite (P1 i xs Hi P). apply D with (i := i); auto. }
    rewrite E. cbn [bind]. destruct (as_app _ _ _ L F) as [l3 ->]. exists (l1 ++ l3), (Z.of_nat (length (mem ++ l1))).
    rewrite !app_assoc. split; [reflexivity|]. split.
    + rewrite !app_length in L. split; [lia|]. rewrite !app_length. lia.
    + intros i xs Hi P. rewrite PM by exact Hi. rewrite (P1 i xs Hi P). reflexivity.
Qed.

(** generate *)
Lemma calls_pointwise {X} (g : X -> res A) (tuples : list X) : (forall x, In x tuples -> exists z, g x = Ok z) ->
  exists out, calls (fun (_ : unit) x => z <- g x ;; Ok (tt, z)) tt tuples = Ok (tt, out) /\ Forall2 (fun x z => g x = Ok z) tuples out.
Proof.
  induction tuples as [|x l IH]; intros H; cbn [calls]; [exists []; split; [reflexivity|constructor]|].
  destruct (H x) as [z Hz]; [now left|]. destruct IH as (out & E & F); [intros y Hy; apply H; now right|].
  rewrite Hz. cbn [bind fst snd]. rewrite E. cbn. exists (z :: out). split; [reflexivity|constructor; auto].
Qed.

Lemma Forall2_zget {X Y} (R : X -> Y -> Prop) l r : Forall2 R l r -> forall i x, zget l i = Ok x -> exists y, zget r i = Ok y /\ R x y.
Proof.
  unfold zget. intros H i x. destruct (i <? 0); [discriminate|]. generalize (Z.to_nat i). clear i. intros k. revert k.
  induction H as [|a b l r Hab H IH]; intros [|k]; cbn; try discriminate; eauto. intros E. injection E as ->. eauto.
Qed.

Lemma tuples_exist (mem : list A) n operands : Operands mem n operands ->
  exists tuples, length tuples = n /\ forall i, 0 <= i < Z.of_nat n -> exists xs, zget tuples i = Ok xs /\ PixelsAt mem operands i xs.
Proof.
  intros O. assert (G : forall k, (k <= n)%nat -> exists tuples, length tuples = k /\
    forall i, 0 <= i < Z.of_nat k -> exists xs, zget tuples i = Ok xs /\ PixelsAt mem operands i xs).
  { induction k as [|k IH]; intros Hk; [exists []; split; [reflexivity|lia]|]. destruct IH as (t & L & P); [lia|].
    destruct (pixels_exist mem n operands (Z.of_nat k) O) as [xs X]; [lia|]. exists (t ++ [xs]). split; [rewrite app_length; cbn; lia|].
    intros i Hi. destruct (Z.eq_dec i (Z.of_nat k)) as [->|N].
    - exists xs. split; [|exact X]. rewrite zget_app_r by lia. rewrite L, Z.sub_diag. reflexivity.
    - destruct (P i) as (ys & Ey & Py); [lia|]. exists ys. split; [|exact Py]. rewrite zget_app_l by lia. exact Ey. }
  exact (G n (le_n n)).
Qed.

Lemma generate_formula conv n operands e mem r : Allocated mem r n -> Operands mem n operands ->
  Forall (fun b => r <= b \/ Apart r n b n) operands ->
  (forall i xs, 0 <= i < Z.of_nat n -> PixelsAt mem operands i xs -> exists z, evalPixel op e xs = Ok z) ->
  exists mem', generateFormula op conv n operands e mem r = Ok mem' /\ Frame mem mem' r n /\
    forall i xs, 0 <= i < Z.of_nat n -> PixelsAt mem operands i xs -> zget mem' (r + i) = (z <- evalPixel op e xs ;; Ok (conv z)).
Proof.
  intros HA O HD D. destruct (tuples_exist mem n operands O) as (tuples & L & T).
  destruct (calls_pointwise (fun xs => z <- evalPixel op e xs ;; Ok (conv z)) tuples) as (out & C & F).
  { intros xs Hxs. destruct (In_nth_error _ _ Hxs) as [k Hk]. assert (k < n)%nat by (rewrite <- L; apply nth_error_Some; congruence).
    destruct (T (Z.of_nat k)) as (ys & Ey & Py); [lia|]. unfold zget in Ey. destruct (Z.ltb_spec (Z.of_nat k) 0); [lia|].
    rewrite Nat2Z.id, Hk in Ey. injection Ey as <-. destruct (D (Z.of_nat k) xs ltac:(lia) Py) as [z Hz]. exists (conv z). rewrite Hz. reflexivity. }
  assert (CE : calls (fun (_ : unit) xs => z <- evalPixel op e xs ;; Ok (tt, conv z)) tt tuples = Ok (tt, out)).
  { rewrite <- C. clear. generalize tt at 2 4. induction tuples as [|x l IH]; intros u; cbn [calls]; [reflexivity|].
    destruct (evalPixel op e x); cbn [bind fst snd]; try reflexivity. rewrite IH. reflexivity. }
  destruct (generate_spec (fun (_ : unit) xs => z <- evalPixel op e xs ;; Ok (tt, conv z)) n tt mem r operands tuples tt out HA HD L) as (m & E & FR & P).
  - intros i Hi. destruct (T i Hi) as (xs & Ex & Px). rewrite Ex. apply pixels_read. exact Px.
  - exact CE.
  - exists m. unfold generateFormula. rewrite E. split; [reflexivity|]. split; [exact FR|]. intros i xs Hi Px. rewrite P by exact Hi.
    destruct (T i Hi) as (ys & Ey & Py). assert (xs = ys) by (pose proof (pixels_read _ _ _ _ Px); pose proof (pixels_read _ _ _ _ Py); congruence). subst ys.
    destruct (Forall2_zget _ _ _ F i xs Ey) as (z & Ez & Hz). rewrite Ez. symmetry. exact Hz.
Qed.

Lemma apply_is_generate conv n a operands e (mem : list A) : applyFormula op conv n a operands e mem = generateFormula op conv n (a :: operands) e mem a.
Proof. reflexivity. Qed.

(** Both, for a type which is closed under the operators. *)
Lemma formula_generate n operands e mem r : Allocated mem r n -> Operands mem n operands -> Closed (length operands) e ->
  Forall (fun b => r <= b \/ Apart r n b n) operands ->
  (forall i xs, 0 <= i < Z.of_nat n -> PixelsAt mem operands i xs -> exists z, evalPixel op e xs = Ok z) ->
  exists l a mem', evalFormula op n operands e mem = Ok (mem ++ l, a) /\ generateFormula op (fun z => z) n operands e mem r = Ok mem' /\
    Frame mem mem' r n /\
    forall i, 0 <= i < Z.of_nat n -> exists xs z, PixelsAt mem operands i xs /\ evalPixel op e xs = Ok z /\
      zget (mem ++ l) (a + i) = Ok z /\ zget mem' (r + i) = Ok z.
Proof.
  intros HA O C HD D. destruct (formula_spec n operands e mem O C D) as (l & a & E & _ & P).
  destruct (generate_formula (fun z => z) n operands e mem r HA O HD D) as (m & E' & F & P').
  exists l, a, m. split; [exact E|]. split; [exact E'|]. split; [exact F|]. intros i Hi. destruct (pixels_exist mem n operands i O Hi) as [xs X].
  destruct (D i xs Hi X) as [z Hz]. exists xs, z. split; [exact X|]. split; [exact Hz|]. rewrite (P i xs Hi X), (P' i xs Hi X), Hz. auto.
Qed.
End Expr.

(** Integral types *)
Definition EnvIn (t : itype) (xs : list Z) : Prop := Forall (InType t) xs.

Lemma wide_promoted t : 32 <= ibits t -> promoted t = t.
Proof. unfold promoted. destruct (Z.ltb_spec (ibits t) 32); [lia|reflexivity]. Qed.

Lemma wide_op t o x y : Wf t -> 32 <= ibits t -> promotedOp t o x y = widthOp t o x y.
Proof.
  intros W L. unfold widthOp.
  assert (G : forall z, computed t z = (v <- computed t z ;; Ok (convert t v))).
  { intros z. unfold computed. rewrite (wide_promoted t L). destruct (isigned t) eqn:S.
    - destruct (fits t z) eqn:F; [|reflexivity]. cbn. apply fits_spec in F. rewrite convert_id; auto.
    - cbn. destruct (convert_wrapped t z W) as [I _]. rewrite (convert_id t (convert t z) W I). reflexivity. }
  destruct o; cbn [promotedOp]; try apply G.
  - destruct (y =? 0); [reflexivity|apply G].
  - destruct (y =? 0); [reflexivity|]. destruct (computed t (Z.quot x y)); cbn [bind]; try reflexivity. apply G.
Qed.

Lemma wide_pixel t e xs : Wf t -> 32 <= ibits t -> EnvIn t xs -> Scalars t e ->
  evalPixel (promotedOp t) e xs = evalPixel (widthOp t) e xs /\ (forall z, evalPixel (widthOp t) e xs = Ok z -> InType t z).
Proof.
  intros W L X. induction e as [k|o e1 IH1 e2 IH2|o e1 IH1 s]; cbn [evalPixel Scalars]; intros S.
  - split; [reflexivity|]. intros z. destruct (nth_error xs k) as [x|] eqn:E; [|discriminate]. intros H. injection H as <-.
    apply (proj1 (Forall_forall _ _) X), (nth_error_In _ _ E).
  - destruct S as [S1 S2]. destruct (IH1 S1) as [E1 I1]. destruct (IH2 S2) as [E2 I2]. rewrite E1, E2. split.
    + destruct (evalPixel (widthOp t) e1 xs); cbn [bind]; try reflexivity. destruct (evalPixel (widthOp t) e2 xs); cbn [bind]; try reflexivity.
      apply wide_op; auto.
    + intros z. destruct (evalPixel (widthOp t) e1 xs) as [x| |]; cbn [bind]; try discriminate.
      destruct (evalPixel (widthOp t) e2 xs) as [y| |]; cbn [bind]; try discriminate. intros H.
      destruct (operator_spec t o x y W (I1 x eq_refl) (I2 y eq_refl)) as [_ [G _]]. destruct (G z H) as (v & _ & [I _]). exact I.
  - destruct S as [S1 S2]. destruct (IH1 S1) as [E1 I1]. rewrite E1. split.
    + destruct (evalPixel (widthOp t) e1 xs); cbn [bind]; try reflexivity. apply wide_op; auto.
    + intros z. destruct (evalPixel (widthOp t) e1 xs) as [x| |]; cbn [bind]; try discriminate. intros H.
      destruct (operator_spec t o x s W (I1 x eq_refl) S2) as [_ [G _]]. destruct (G z H) as (v & _ & [I _]). exact I.
Qed.

(** Narrow types: sums, differences and products. *)
Lemma narrow_ring_op t o x y x' y' z : Wf t -> NeverOverflows t -> ring o = true ->
  InType t x' -> InType t y' -> (exists k, x' = x + k * 2 ^ ibits t) -> (exists k, y' = y + k * 2 ^ ibits t) ->
  promotedOp t o x y = Ok z -> exists w, widthOp t o x' y' = Ok w /\ InType t w /\ exists k, w = z + k * 2 ^ ibits t.
Proof.
  intros W N R IX IY [kx EX] [ky EY] E. destruct (never_overflows t o x' y' W N R IX IY) as [w Hw]. exists w. split; [exact Hw|].
  destruct (operator_spec t o x' y' W IX IY) as [_ [G _]]. destruct (G w Hw) as (v & Ev & [Iw [k Ek]]). split; [exact Iw|].
  assert (EZ : exists k, z = evaluated o x y + k * 2 ^ ibits t).
  { assert (C : computed t (evaluated o x y) = Ok z) by (destruct o; cbn in R |- *; try discriminate; exact E).
    unfold computed in C. destruct (isigned (promoted t)) eqn:S.
    - destruct (fits (promoted t) (evaluated o x y)); [|discriminate]. injection C as <-. exists 0. lia.
    - assert (NS : ~ SignedArithmetic t) by (unfold SignedArithmetic; congruence). rewrite (not_signed_bits t NS) in C. injection C as <-.
      destruct (convert_wrapped t (evaluated o x y) W) as [_ H]. exact H. }
  destruct EZ as [kz EZ]. set (M := 2 ^ ibits t) in *. clearbody M.
  assert (EV : exists j, v = evaluated o x y + j * M).
  { destruct o; cbn in R, Ev |- *; try discriminate; injection Ev as <-.
    - exists (kx + ky). lia.
    - exists (kx - ky). lia.
    - exists (x * ky + kx * y + kx * ky * M). subst. ring. }
  destruct EV as [j EV]. exists (k + j - kz). lia.
Qed.

Lemma narrow_ring_pixel t e xs : Wf t -> NeverOverflows t -> EnvIn t xs -> Scalars t e -> Ring e -> forall z,
  evalPixel (promotedOp t) e xs = Ok z -> exists w, evalPixel (widthOp t) e xs = Ok w /\ InType t w /\ exists k, w = z + k * 2 ^ ibits t.
Proof.
  intros W N X. induction e as [k|o e1 IH1 e2 IH2|o e1 IH1 s]; cbn [evalPixel Scalars Ring]; intros S R z H.
  - destruct (nth_error xs k) as [x|] eqn:E; [|discriminate]. injection H as <-. exists x. split; [reflexivity|].
    split; [apply (proj1 (Forall_forall _ _) X), (nth_error_In _ _ E)|exists 0; lia].
  - destruct S as [S1 S2]. destruct R as [R0 [R1 R2]].
    destruct (evalPixel (promotedOp t) e1 xs) as [x| |]; cbn [bind] in H; try discriminate.
    destruct (evalPixel (promotedOp t) e2 xs) as [y| |]; cbn [bind] in H; try discriminate.
    destruct (IH1 S1 R1 x eq_refl) as (x' & E1 & I1 & K1). destruct (IH2 S2 R2 y eq_refl) as (y' & E2 & I2 & K2).
    rewrite E1, E2. cbn [bind]. exact (narrow_ring_op t o x y x' y' z W N R0 I1 I2 K1 K2 H).
  - destruct S as [S1 S2]. destruct R as [R0 R1].
    destruct (evalPixel (promotedOp t) e1 xs) as [x| |]; cbn [bind] in H; try discriminate.
    destruct (IH1 S1 R1 x eq_refl) as (x' & E1 & I1 & K1).
    rewrite E1. cbn [bind]. apply (narrow_ring_op t o x s x' s z W N R0 I1 S2 K1); [exists 0; lia|exact H].
Qed.

Lemma pixels_typed t mem n operands i xs : Forall (fun a => Typed t mem a n) operands -> 0 <= i < Z.of_nat n ->
  PixelsAt mem operands i xs -> EnvIn t xs.
Proof.
  intros T Hi P. unfold PixelsAt, EnvIn in *. induction P as [|a x ops xs Hx P IH]; [constructor|]. inversion T; subst. constructor; [|auto]. eauto.
Qed.

(** Where the lambda is defined for all the pixels, the formula is, too, and they give the same pixels. *)
Lemma integral_formula t n operands e mem r : Wf t -> (32 <= ibits t \/ NeverOverflows t /\ Ring e) ->
  Allocated mem r n -> Operands mem n operands -> Closed (length operands) e -> Scalars t e ->
  Forall (fun a => Typed t mem a n) operands -> Forall (fun b => r <= b \/ Apart r n b n) operands ->
  (forall i xs, 0 <= i < Z.of_nat n -> PixelsAt mem operands i xs -> exists z, evalPixel (promotedOp t) e xs = Ok z) ->
  exists l a mem', narrowFormula t n operands e mem = Ok (mem ++ l, a) /\ narrowGenerate t n operands e mem r = Ok mem' /\
    Frame mem mem' r n /\
    forall i, 0 <= i < Z.of_nat n -> exists w, zget (mem ++ l) (a + i) = Ok w /\ zget mem' (r + i) = Ok w.
Proof.
  intros W K HA O C S T HD D.
  assert (V : forall i xs, 0 <= i < Z.of_nat n -> PixelsAt mem operands i xs -> forall z, evalPixel (promotedOp t) e xs = Ok z ->
    evalPixel (widthOp t) e xs = Ok (convert t z)).
  { intros i xs Hi P z Hz. pose proof (pixels_typed t mem n operands i xs T Hi P) as X. destruct K as [K|[K R]].
    - destruct (wide_pixel t e xs W K X S) as [E I]. rewrite E in Hz. rewrite Hz. f_equal. symmetry. apply convert_id; auto.
    - destruct (narrow_ring_pixel t e xs W K X S R z Hz) as (w & Hw & Iw & Kw). rewrite Hw. f_equal. symmetry. apply wrapped_convert; [exact W|]. split; auto. }
  destruct (formula_spec (widthOp t) n operands e mem O C) as (l & a & E & _ & P).
  { intros i xs Hi X. destruct (D i xs Hi X) as [z Hz]. eauto. }
  destruct (generate_formula (promotedOp t) (convert t) n operands e mem r HA O HD D) as (m & E' & F & P').
  exists l, a, m. split; [exact E|]. split; [exact E'|]. split; [exact F|]. intros i Hi. destruct (pixels_exist mem n operands i O Hi) as [xs X].
  destruct (D i xs Hi X) as [z Hz]. exists (convert t z). rewrite (P i xs Hi X), (P' i xs Hi X), Hz. split; [eauto|reflexivity].
Qed.
