(** Mathematical functions of containers of integers. *)
From Coq Require Import Reals Lra.
From Flocq Require Import Core Relative IEEE754.BinarySingleNaN.
From Verif Require Import Res Lemmas ArithModel ArithSpec ArithProofs WidthModel WidthSpec WidthProofs FloatModel FloatSpec FloatProofs MathModel MathSpec.

Local Existing Instance hprec.
Local Existing Instance hmax.
Local Existing Instance valid64.
Open Scope Z_scope.

(** ** Lifting to containers *)

Lemma appended {A} (mem m : list A) n : length m = (length mem + n)%nat -> (forall j, j < Z.of_nat (length mem) -> zget m j = zget mem j) ->
  exists l, m = mem ++ l /\ length l = n /\ forall i, 0 <= i -> zget l i = zget m (Z.of_nat (length mem) + i).
Proof.
  intros L F. assert (Q : m = mem ++ skipn (length mem) m).
  { rewrite <- (firstn_skipn (length mem) m) at 1. f_equal. apply zget_ext; [rewrite firstn_length; lia|].
    intros i Hi. rewrite firstn_length in Hi. rewrite <- F by lia.
    rewrite <- (firstn_skipn (length mem) m) at 2. rewrite zget_app_l; [reflexivity|]. rewrite firstn_length. lia. }
  exists (skipn (length mem) m). split; [exact Q|]. split; [rewrite skipn_length; lia|].
  intros i Hi. rewrite Q at 2. rewrite zget_app_r by lia. f_equal. lia.
Qed.

Lemma gives_lift f n mem a g : Allocated mem a n -> Every (fun x => f x = Ok (g x)) mem a n -> Gives f n mem a g.
Proof.
  intros HA E. assert (D : forall i, 0 <= i < Z.of_nat n -> exists z, (x <- zget mem (a + i) ;; f x) = Ok z).
  { intros i Hi. destruct (zget_in_range mem (a + i)) as [x Hx]; [destruct HA; lia|]. exists (g x). rewrite Hx. exact (E i x Hi Hx). }
  split.
  - destruct (transform1_spec f n mem a HA D) as (m & Em & F & P). exists m. split; [exact Em|]. split; [exact F|].
    intros i x Hi Hx. rewrite P by exact Hi. rewrite Hx. exact (E i x Hi Hx).
  - destruct (new1_spec f n mem a HA D) as (m & Em & L & F & P). destruct (appended mem m n L F) as (l & -> & Ll & G).
    exists l. split; [exact Em|]. split; [exact Ll|]. intros i x Hi Hx. rewrite G by lia. rewrite P by exact Hi. rewrite Hx. exact (E i x Hi Hx).
Qed.

Lemma both_lift f n mem a b g : Allocated mem a n -> Allocated mem b n ->
  (forall i x y, 0 <= i < Z.of_nat n -> zget mem (a + i) = Ok x -> zget mem (b + i) = Ok y -> f x y = Ok (g x y)) -> GivesBoth f n mem a b g.
Proof.
  intros HA HB E. assert (D : forall i, 0 <= i < Z.of_nat n -> exists z, (x <- zget mem (a + i) ;; y <- zget mem (b + i) ;; f x y) = Ok z).
  { intros i Hi. destruct (zget_in_range mem (a + i)) as [x Hx]; [destruct HA; lia|]. destruct (zget_in_range mem (b + i)) as [y Hy]; [destruct HB; lia|].
    exists (g x y). rewrite Hx, Hy. exact (E i x y Hi Hx Hy). }
  split.
  - intros O. destruct (transform2_spec f n mem a b HA HB O D) as (m & Em & F & P). exists m. split; [exact Em|]. split; [exact F|].
    intros i x y Hi Hx Hy. rewrite P by exact Hi. rewrite Hx, Hy. exact (E i x y Hi Hx Hy).
  - destruct (new2_spec f n mem a b HA HB D) as (m & Em & L & F & P). destruct (appended mem m n L F) as (l & -> & Ll & G).
    exists l. split; [exact Em|]. split; [exact Ll|]. intros i x y Hi Hx Hy. rewrite G by lia. rewrite P by exact Hi. rewrite Hx, Hy. exact (E i x y Hi Hx Hy).
Qed.

Lemma scalar_lift f n mem a s y g : Allocated mem a n -> zget mem s = Ok y -> Every (fun x => f x y = Ok (g x y)) mem a n -> GivesScalar f n mem a s g.
Proof.
  intros HA Hs E. destruct (gives_lift (fun x => f x y) n mem a (fun x => g x y) HA E) as [(m & Em & F & P) (l & El & L & Q)]. split.
  - exists m. unfold transformVal. rewrite Hs. cbn [bind]. split; [exact Em|]. split; [exact F|]. intros i x y' Hi Hx Hy. replace y' with y by congruence. exact (P i x Hi Hx).
  - exists l. unfold newVal. rewrite Hs. cbn [bind]. split; [exact El|]. split; [exact L|]. intros i x y' Hi Hx Hy. replace y' with y by congruence. exact (Q i x Hi Hx).
Qed.

Lemma transform1_ub f n : forall mem a, Allocated mem a n -> (forall x e, f x <> Throw e) ->
  (exists i x, 0 <= i < Z.of_nat n /\ zget mem (a + i) = Ok x /\ f x = UB) -> @transform1 Z f n mem a = UB.
Proof.
  induction n as [|n IH]; intros mem a HA HT (i & x & Hi & Hx & E); [lia|]. cbn [transform1].
  destruct (zget_in_range mem a) as [y Hy]; [destruct HA; lia|]. rewrite Hy. cbn [bind].
  destruct (f y) as [z|e|] eqn:Ez; [|exfalso; eapply HT; eauto|reflexivity]. cbn [bind].
  destruct (Allocated_zset _ _ _ z HA) as [m Hm]. rewrite Hm. cbn [bind].
  assert (G : forall j, j <> a -> zget m j = zget mem j) by (intros; eapply zset_get_neq; eauto).
  assert (Hi0 : i <> 0) by (intros ->; rewrite Z.add_0_r in Hx; congruence).
  apply IH; [eapply Allocated_step; eauto|exact HT|]. exists (i - 1), x. split; [lia|]. split; [|exact E].
  replace (a + 1 + (i - 1)) with (a + i) by lia. rewrite G by lia. exact Hx.
Qed.

Lemma undefined_lift f n mem a : Allocated mem a n -> (forall x e, f x <> Throw e) ->
  (exists i x, 0 <= i < Z.of_nat n /\ zget mem (a + i) = Ok x /\ f x = UB) -> Undefined f n mem a.
Proof.
  intros HA HT (i & x & Hi & Hx & E). split; [apply transform1_ub; eauto|].
  unfold new1. destruct (copyNew_spec _ _ _ HA) as (m & Em & L & P & Q). rewrite Em. cbn [bind]. apply transform1_ub; [split; lia|exact HT|].
  exists i, x. split; [exact Hi|]. split; [rewrite P by exact Hi; exact Hx|exact E].
Qed.

(** ** Conversions *)

Lemma zero_in_type t : Wf t -> InType t 0.
Proof.
  intros W. unfold InType, itmin, itmax, Wf in *. assert (0 < 2 ^ (ibits t - 1)) by (apply Z.pow_pos_nonneg; lia). assert (0 < 2 ^ ibits t) by (apply Z.pow_pos_nonneg; lia). destruct (isigned t); lia.
Qed.

Lemma dconvert_iff t x z : Wf t -> dconvert t x = Ok z <-> Finite x /\ z = Ztrunc (real x) /\ InType t z.
Proof.
  intros W. unfold Finite, real. destruct x as [s|s| |s m e B]; cbn [dconvert is_finite B2R]; try (split; [discriminate|intros [H _]; discriminate]).
  - rewrite Ztrunc_IZR. split; [intros E; injection E as <-; split; [reflexivity|]; split; [reflexivity|now apply zero_in_type]|intros (_ & -> & _); reflexivity].
  - set (w := if s then _ else _). assert (T : Ztrunc (F2R (Float radix2 (SpecFloat.cond_Zopp s (Zpos m)) e)) = w).
    { assert (P : Ztrunc (F2R (Float radix2 (Zpos m) e)) = if (0 <=? e)%Z then (Zpos m * 2 ^ e)%Z else (Zpos m / 2 ^ (- e))%Z).
      { unfold F2R. cbn [Fnum Fexp]. destruct (Z.leb_spec 0 e) as [L|L].
        - rewrite <- (IZR_Zpower radix2) by exact L. rewrite <- mult_IZR, Ztrunc_IZR. reflexivity.
        - rewrite Ztrunc_floor by (apply Rmult_le_pos; [apply IZR_le; lia|apply bpow_ge_0]).
          rewrite <- (Z.opp_involutive e) at 1. rewrite bpow_opp, <- (IZR_Zpower radix2) by lia. change (IZR (Z.pos m) * / IZR (radix2 ^ (- e)))%R with (IZR (Zpos m) / IZR (2 ^ (- e)))%R.
          apply Zfloor_div. assert (0 < 2 ^ (- e))%Z by (apply Z.pow_pos_nonneg; lia). lia. }
      unfold w. destruct s; cbn [SpecFloat.cond_Zopp]; [|exact P]. rewrite <- P, <- Ztrunc_opp, <- F2R_Zopp. reflexivity. }
    rewrite T. clearbody w. unfold fits. destruct (_ && _)%bool eqn:C; split.
    + intros E. injection E as <-. unfold InType. repeat split; lia.
    + intros (_ & -> & _). reflexivity.
    + discriminate.
    + intros (_ & -> & H). unfold InType in H. lia.
Qed.

Lemma dconvert_throw t x e : dconvert t x <> Throw e.
Proof. destruct x; cbn [dconvert]; try discriminate. cbv zeta. destruct (fits _ _); discriminate. Qed.

Lemma dconvert_nan t : dconvert t B754_nan = UB.
Proof. reflexivity. Qed.

Lemma dconvert_ub t x : Wf t -> (Finite x -> ~ InType t (Ztrunc (real x))) -> dconvert t x = UB.
Proof.
  intros W H. destruct (dconvert t x) as [z|e|] eqn:E; [|exfalso; eapply dconvert_throw; eauto|reflexivity].
  apply dconvert_iff in E; [|exact W]. destruct E as (F & -> & I). exfalso. exact (H F I).
Qed.

Lemma dconvert_int t x z : Wf t -> Finite x -> real x = IZR z -> InType t z -> dconvert t x = Ok z.
Proof. intros W F E I. apply dconvert_iff; [exact W|]. split; [exact F|]. split; [now rewrite E, Ztrunc_IZR|exact I]. Qed.

Lemma in_type_bound t x : ibits t <= 64 -> Wf t -> InType t x -> Z.abs x <= 2 ^ 64.
Proof.
  intros B W [L H]. unfold itmin, itmax, Wf in *. assert (2 ^ ibits t <= 2 ^ 64) by (apply Z.pow_le_mono_r; lia). assert (2 ^ (ibits t - 1) <= 2 ^ 64) by (apply Z.pow_le_mono_r; lia).
  destruct (isigned t); lia.
Qed.

Lemma small_type t x : Wf t -> InType t x -> ibits t <= 53 -> Precise x.
Proof.
  intros W [L H] B. unfold Precise, itmin, itmax, Wf in *. assert (2 ^ ibits t <= 2 ^ 53) by (apply Z.pow_le_mono_r; lia). assert (2 ^ (ibits t - 1) <= 2 ^ 53) by (apply Z.pow_le_mono_r; lia).
  destruct (isigned t); lia.
Qed.

Theorem unary_element t f x : Wf t -> ibits t <= 64 -> InType t x ->
  (Finite (dofZ x) /\ real (dofZ x) = nearestDouble (IZR x)) /\
  (forall z, mathUnary t f x = Ok z <-> Finite (f (dofZ x)) /\ z = Ztrunc (real (f (dofZ x))) /\ InType t z) /\
  (forall e, mathUnary t f x <> Throw e).
Proof.
  intros W B I. split; [|split].
  - destruct (dofZ_ok x (in_type_bound t x B W I)) as [V F]. split; [exact F|exact V].
  - intros z. now apply dconvert_iff.
  - intros e. apply dconvert_throw.
Qed.

(** ** Rounding functions *)

Lemma rounding_keeps f x z : IsRounding f -> Finite x -> real x = IZR z -> Finite (f x) /\ real (f x) = IZR z.
Proof.
  intros [H|[H|[H|H]]] F E; destruct (H x F) as [Ff R].
  - split; [exact Ff|]. now rewrite R, E, Zfloor_IZR.
  - split; [exact Ff|]. now rewrite R, E, Zceil_IZR.
  - split; [exact Ff|]. now rewrite R, E, Ztrunc_IZR.
  - split; [exact Ff|]. destruct R as (k & -> & N). f_equal. rewrite E, <- minus_IZR, <- abs_IZR in N.
    assert (Z.abs (z - k) < 1); [|lia]. apply lt_IZR. lra.
Qed.

Lemma rounding_element t f x : Wf t -> IsRounding f -> InType t x -> Precise x -> mathUnary t f x = Ok x.
Proof.
  intros W H I P. unfold mathUnary. destruct (dofZ_small x P) as [V F]. destruct (rounding_keeps f (dofZ x) x H F V) as [Ff R]. now apply dconvert_int.
Qed.

Lemma gives_id f n mem a : Gives f n mem a (fun x => x) -> Allocated mem a n -> transform1 f n mem a = Ok mem /\ new1 f n mem a = copyNew n mem a.
Proof.
  intros [(m & Em & [L F] & P) (l & El & Ll & Q)] HA. split.
  - rewrite Em. f_equal. apply zget_ext; [exact L|]. intros j Hj. destruct (Z_lt_dec j a) as [O|O]; [apply F; left; lia|]. destruct (Z_le_dec (a + Z.of_nat n) j) as [O'|O']; [apply F; right; lia|].
    destruct (zget_in_range mem j) as [x Hx]; [lia|]. rewrite Hx. replace j with (a + (j - a)) in * by lia. rewrite (P (j - a) x); [reflexivity|lia|exact Hx].
  - rewrite El. destruct (copyNew_spec _ _ _ HA) as (m' & Em' & L' & P' & Q'). rewrite Em'. f_equal. destruct (appended mem m' n L' Q') as (l' & -> & Ll' & G'). f_equal.
    apply zget_ext; [lia|]. intros i Hi. destruct (zget_in_range mem (a + i)) as [x Hx]; [destruct HA; lia|]. rewrite G' by lia. rewrite P' by lia. rewrite Hx. apply Q; [lia|exact Hx].
Qed.

Theorem rounding_same t f n mem a : Wf t -> IsRounding f -> Allocated mem a n -> Typed t mem a n -> (ibits t <= 53 \/ Every Precise mem a n) ->
  transform1 (mathUnary t f) n mem a = Ok mem /\ new1 (mathUnary t f) n mem a = copyNew n mem a.
Proof.
  intros W H HA T P. apply gives_id; [|exact HA]. apply gives_lift; [exact HA|]. intros i x Hi Hx. assert (I : InType t x) by (exact (T i x Hi Hx)). apply rounding_element; auto.
  destruct P as [B|P]; [now apply (small_type t)|exact (P i x Hi Hx)].
Qed.

Lemma F64_large_int v : F64 v -> (pow2 53 <= Rabs v)%R -> exists k, v = IZR k.
Proof.
  intros G L. exists (Ztrunc (scaled_mantissa radix2 fexp64 v) * 2 ^ cexp radix2 fexp64 v). rewrite mult_IZR.
  assert (M : 54 <= mag radix2 v) by (apply mag_ge_bpow; exact L).
  assert (C : 0 <= cexp radix2 fexp64 v) by (unfold cexp, SpecFloat.fexp; lia).
  change 2%Z with (radix_val radix2). rewrite IZR_Zpower by exact C. exact G.
Qed.

Lemma rnd_whole x : rnd (IZR x) = IZR (Ztrunc (rnd (IZR x))).
Proof.
  destruct (Z_le_dec (Z.abs x) (2 ^ 53)) as [L|L].
  - rewrite (round_generic radix2 fexp64 ZnearestE) by (now apply F64_small). now rewrite Ztrunc_IZR.
  - destruct (F64_large_int (rnd (IZR x))) as [k E].
    + apply generic_format_round; [apply valid64|apply valid_rnd_N].
    + apply abs_round_ge_generic; [apply valid64|apply valid_rnd_N|apply (generic_format_FLT_bpow radix2 (3 - 1024 - 53) 53); lia|].
      rewrite <- abs_IZR. change (pow2 53) with (IZR (2 ^ 53)). apply IZR_le. lia.
    + rewrite E, Ztrunc_IZR. reflexivity.
Qed.

Theorem whole_nearest x : IZR (Ztrunc (nearestDouble (IZR x))) = nearestDouble (IZR x).
Proof. symmetry. apply rnd_whole. Qed.

Lemma rounding_wide t f x : Wf t -> ibits t <= 64 -> IsRounding f -> InType t x ->
  let k := Ztrunc (nearestDouble (IZR x)) in (InType t k -> mathUnary t f x = Ok k) /\ (~ InType t k -> mathUnary t f x = UB).
Proof.
  intros W B H I k. destruct (dofZ_ok x (in_type_bound t x B W I)) as [V F]. change (rnd (IZR x)) with (nearestDouble (IZR x)) in V.
  destruct (rounding_keeps f (dofZ x) k H F) as [Ff R]; [unfold real; rewrite V; symmetry; apply whole_nearest|]. unfold mathUnary. split; intros Ik.
  - now apply dconvert_int.
  - apply dconvert_ub; [exact W|]. intros _. rewrite R, Ztrunc_IZR. exact Ik.
Qed.

Theorem rounding_nearest t f n mem a : Wf t -> ibits t <= 64 -> IsRounding f -> Allocated mem a n -> Typed t mem a n ->
  (Every (fun x => InType t (Ztrunc (nearestDouble (IZR x)))) mem a n -> Gives (mathUnary t f) n mem a (fun x => Ztrunc (nearestDouble (IZR x)))) /\
  (~ Every (fun x => InType t (Ztrunc (nearestDouble (IZR x)))) mem a n -> Undefined (mathUnary t f) n mem a).
Proof.
  intros W B H HA T. split.
  - intros E. apply gives_lift; [exact HA|]. intros i x Hi Hx. apply (rounding_wide t f x W B H); [exact (T i x Hi Hx)|exact (E i x Hi Hx)].
  - intros N. apply undefined_lift; [exact HA|intros x e; apply dconvert_throw|].
    assert (D : forall k, (exists i x, 0 <= i < Z.of_nat k /\ zget mem (a + i) = Ok x /\ ~ InType t (Ztrunc (nearestDouble (IZR x)))) \/ Every (fun x => InType t (Ztrunc (nearestDouble (IZR x)))) mem a k).
    { induction k as [|k [(i & x & Hi & Hx & Q)|IH]].
      - right. intros i x Hi. lia.
      - left. exists i, x. split; [lia|auto].
      - destruct (zget mem (a + Z.of_nat k)) as [x|e|] eqn:Ex.
        + destruct (Z_le_dec (itmin t) (Ztrunc (nearestDouble (IZR x)))) as [L|L]; [destruct (Z_le_dec (Ztrunc (nearestDouble (IZR x))) (itmax t)) as [L'|L']|].
          * right. intros i y Hi Hy. destruct (Z.eq_dec i (Z.of_nat k)) as [->|Ne]; [assert (y = x) by congruence; subst; split; assumption|apply (IH i y); [lia|exact Hy]].
          * left. exists (Z.of_nat k), x. split; [lia|]. split; [exact Ex|]. unfold InType. lia.
          * left. exists (Z.of_nat k), x. split; [lia|]. split; [exact Ex|]. unfold InType. lia.
        + right. intros i y Hi Hy. destruct (Z.eq_dec i (Z.of_nat k)) as [->|Ne]; [congruence|apply (IH i y); [lia|exact Hy]].
        + right. intros i y Hi Hy. destruct (Z.eq_dec i (Z.of_nat k)) as [->|Ne]; [congruence|apply (IH i y); [lia|exact Hy]]. }
    destruct (D n) as [(i & x & Hi & Hx & Q)|E]; [|contradiction]. exists i, x. split; [exact Hi|]. split; [exact Hx|].
    apply (rounding_wide t f x W B H); [exact (T i x Hi Hx)|exact Q].
Qed.

Lemma same_value (x y : double) : B2SF x = B2SF y -> val x = val y.
Proof. intros H. now rewrite <- !(SF2R_B2SF 53 1024), H. Qed.

Definition int64 : itype := mkItype true 64.
Lemma int64_wf : Wf int64. Proof. right. cbn. lia. Qed.

Theorem rounding_changes f : IsRounding f -> transform1 (mathUnary (mkItype true 64) f) 1 [2 ^ 53 + 1] 0 = Ok [2 ^ 53].
Proof.
  intros H. fold int64. assert (I : InType int64 (2 ^ 53 + 1)) by (split; vm_compute; discriminate).
  destruct (rounding_wide int64 f (2 ^ 53 + 1) int64_wf ltac:(cbn; lia) H I) as [K _].
  assert (E : Ztrunc (nearestDouble (IZR (2 ^ 53 + 1))) = 2 ^ 53).
  { change (nearestDouble (IZR (2 ^ 53 + 1))) with (rnd (IZR (2 ^ 53 + 1))). rewrite <- (proj1 (dofZ_ok (2 ^ 53 + 1) ltac:(lia))).
    rewrite (same_value (dofZ (2 ^ 53 + 1)) (dofZ (2 ^ 53))) by (vm_compute; reflexivity). rewrite (proj1 (dofZ_small (2 ^ 53) ltac:(lia))). apply Ztrunc_IZR. }
  rewrite E in K. cbn [transform1]. change (zget [2 ^ 53 + 1] 0) with (@Ok Z (2 ^ 53 + 1)). cbn [bind]. rewrite K by (split; vm_compute; discriminate). reflexivity.
Qed.

Theorem rounding_undefined f : IsRounding f -> Undefined (mathUnary (mkItype true 64) f) 1 [2 ^ 63 - 1] 0.
Proof.
  intros H. fold int64. assert (I : InType int64 (2 ^ 63 - 1)) by (split; vm_compute; discriminate).
  destruct (rounding_wide int64 f (2 ^ 63 - 1) int64_wf ltac:(cbn; lia) H I) as [_ K].
  apply undefined_lift; [split; cbn; lia|intros x e; apply dconvert_throw|]. exists 0, (2 ^ 63 - 1). split; [lia|]. split; [reflexivity|]. apply K.
  assert (E : Ztrunc (nearestDouble (IZR (2 ^ 63 - 1))) = 2 ^ 63).
  { change (nearestDouble (IZR (2 ^ 63 - 1))) with (rnd (IZR (2 ^ 63 - 1))). rewrite <- (proj1 (dofZ_ok (2 ^ 63 - 1) ltac:(lia))).
    rewrite (same_value (dofZ (2 ^ 63 - 1)) (dlit 1 63)) by (vm_compute; reflexivity). assert (V : val (dlit 1 63) = IZR (2 ^ 63)); [|rewrite V; apply Ztrunc_IZR].
    rewrite (same_value (dlit 1 63) (dofZ (2 ^ 63))) by (vm_compute; reflexivity). rewrite (proj1 (dofZ_ok (2 ^ 63) ltac:(lia))).
    apply round_generic; [apply valid_rnd_N|]. change (IZR (2 ^ 63)) with (pow2 63). apply (generic_format_FLT_bpow radix2 (3 - 1024 - 53) 53); lia. }
  rewrite E. intros [_ L]. vm_compute in L. contradiction L. reflexivity.
Qed.

(** ** Absolute values *)

Lemma abs_element t x : Wf t -> InType t x -> isigned t = true \/ Narrow t -> (isigned t = true -> itmin t < x) -> absElement t x = Ok (Z.abs x).
Proof.
  intros W I C N. unfold absElement. assert (A : InType t (Z.abs x)).
  { unfold InType, itmin, itmax in *. destruct (isigned t); [specialize (N eq_refl)|]; lia. }
  assert (E : computed t (Z.abs x) = Ok (Z.abs x)).
  { unfold computed. assert (P : fits (promoted t) (Z.abs x) = true).
    { unfold fits, promoted. destruct (Z.ltb_spec (ibits t) 32) as [L|L].
      - unfold InType, itmin, itmax, int32 in *. cbn [isigned ibits]. assert (2 ^ ibits t <= 2 ^ 31) by (apply Z.pow_le_mono_r; unfold Wf in W; lia).
        assert (2 ^ (ibits t - 1) <= 2 ^ 31) by (apply Z.pow_le_mono_r; unfold Wf in W; lia). change (32 - 1) with 31. destruct (isigned t); lia.
      - unfold InType in A. lia. }
    rewrite P. destruct (isigned (promoted t)) eqn:S; [reflexivity|].
    exfalso. unfold promoted in S. destruct (Z.ltb_spec (ibits t) 32) as [L|L]; [discriminate|]. unfold Narrow in C. destruct C as [C|C]; [congruence|lia]. }
  rewrite E. cbn [bind]. f_equal. now apply convert_id.
Qed.

Theorem abs_gives t n mem a : Wf t -> isigned t = true \/ Narrow t -> Allocated mem a n -> Typed t mem a n ->
  (isigned t = true -> Every (fun x => itmin t < x) mem a n) -> Gives (absElement t) n mem a Z.abs.
Proof.
  intros W C HA T N. apply gives_lift; [exact HA|]. intros i x Hi Hx. apply abs_element; auto; [exact (T i x Hi Hx)|]. intros S. exact (N S i x Hi Hx).
Qed.

Theorem abs_least t : Wf t -> isigned t = true -> absElement t (itmin t) = if ibits t <? 32 then Ok (itmin t) else UB.
Proof.
  intros W S. unfold absElement, computed, promoted. assert (P : 0 < 2 ^ (ibits t - 1)) by (apply Z.pow_pos_nonneg; unfold Wf in W; lia).
  assert (E : Z.abs (itmin t) = 2 ^ (ibits t - 1)) by (unfold itmin; rewrite S; lia). rewrite E. destruct (Z.ltb_spec (ibits t) 32) as [L|L].
  - cbn [isigned int32]. assert (F : fits int32 (2 ^ (ibits t - 1)) = true).
    { unfold fits, itmin, itmax, int32. cbn [isigned ibits]. assert (2 ^ (ibits t - 1) <= 2 ^ 30) by (apply Z.pow_le_mono_r; lia). change (32 - 1) with 31. lia. }
    rewrite F. cbn [bind]. f_equal. unfold convert, itmin. rewrite S. assert (D : 2 ^ ibits t = 2 * 2 ^ (ibits t - 1)) by (rewrite <- Z.pow_succ_r by (unfold Wf in W; lia); f_equal; lia).
    replace (2 ^ (ibits t - 1) + 2 ^ (ibits t - 1)) with (2 ^ ibits t) by lia. rewrite Z_mod_same_full. lia.
  - rewrite S. assert (F : fits t (2 ^ (ibits t - 1)) = false) by (unfold fits, itmin, itmax; rewrite S; lia). rewrite F. reflexivity.
Qed.

(** ** Square roots *)

Open Scope R_scope.

Lemma sqrt_below x p : 0 <= p -> x <= p * p -> sqrt x <= p.
Proof. intros P L. rewrite <- (sqrt_square p P). apply sqrt_le_1_alt. exact L. Qed.

Lemma sqrt_whole x : (0 <= x < 2 ^ 52 + 2 ^ 27)%Z -> Ztrunc (rnd (sqrt (IZR x))) = Z.sqrt x.
Proof.
  intros B. destruct (Z.sqrt_spec x ltac:(lia)) as [Lo Hi]. set (s := Z.sqrt x) in *. assert (S0 : (0 <= s)%Z) by (apply Z.sqrt_nonneg).
  assert (S1 : (s <= 2 ^ 26)%Z) by nia.
  assert (R0 : IZR s <= sqrt (IZR x)).
  { rewrite <- (sqrt_square (IZR s)) by (apply IZR_le; lia). apply sqrt_le_1_alt. rewrite <- mult_IZR. apply IZR_le. lia. }
  assert (L : IZR s <= rnd (sqrt (IZR x))) by (apply round_ge_generic; [apply valid64|apply valid_rnd_N|apply F64_small; lia|exact R0]).
  assert (U : rnd (sqrt (IZR x)) < IZR s + 1).
  { assert (N0 : 1 <= IZR s + 1) by (assert (0 <= IZR s) by (apply IZR_le; lia); lra).
    assert (H26 : pow2 (-26) = / 67108864) by reflexivity. assert (H27 : pow2 (-27) = / 134217728) by reflexivity.
    destruct (Z_lt_dec s (2 ^ 26)) as [C|C].
    - assert (NS : IZR s + 1 <= 67108864) by (rewrite <- plus_IZR; apply IZR_le; lia).
      apply Rle_lt_trans with (IZR s + 1 - pow2 (-27)); [|rewrite H27; lra].
      apply round_le_generic; [apply valid64|apply valid_rnd_N| |].
      + replace (IZR s + 1 - pow2 (-27)) with (IZR ((s + 1) * 134217728 - 1) * pow2 (-27)) by (rewrite minus_IZR, mult_IZR, plus_IZR, H27; field). apply F64_scaled; lia.
      + apply sqrt_below; [rewrite H27; lra|]. assert (X : IZR x <= (IZR s + 1) * (IZR s + 1) - 1) by (rewrite <- plus_IZR, <- mult_IZR, <- minus_IZR; apply IZR_le; lia).
        rewrite H27. nra.
    - assert (s = 2 ^ 26)%Z by lia. set (n := IZR s + 1). assert (En : n = 67108865) by (unfold n; rewrite H; vm_compute; lra).
      assert (X : IZR x <= n * n - 2) by (unfold n; rewrite <- plus_IZR, <- mult_IZR, <- minus_IZR; apply IZR_le; lia).
      assert (V : sqrt (IZR x) <= n - / 134217728 - / 1000000000).
      { apply sqrt_below; rewrite En in *; lra. }
      set (v := sqrt (IZR x)) in *. set (p := n - pow2 (-26)).
      assert (Fp : F64 p).
      { unfold p. replace (n - pow2 (-26)) with (IZR ((s + 1) * 67108864 - 1) * pow2 (-26)) by (unfold n; rewrite minus_IZR, mult_IZR, plus_IZR, H26; field). apply F64_scaled; lia. }
      destruct (Rle_dec v p) as [Q|Q].
      + apply Rle_lt_trans with p; [|unfold p; rewrite H26; lra]. apply round_le_generic; [apply valid64|apply valid_rnd_N|exact Fp|exact Q].
      + destruct (round_N_pt radix2 fexp64 (fun x => negb (Z.even x)) v) as [_ M]. specialize (M p Fp). change (round radix2 fexp64 (Znearest (fun x => negb (Z.even x))) v) with (rnd v) in M.
        unfold p in *. rewrite H26 in *. rewrite (Rabs_left1 (n - _ - v)) in M by lra. assert (D := Rle_abs (rnd v - v)). lra. }
  rewrite Ztrunc_floor by (assert (0 <= IZR s) by (apply IZR_le; lia); lra). apply Zfloor_imp. rewrite plus_IZR. lra.
Qed.

Lemma sqrt_element t f x : Wf t -> IsSqrt f -> InType t x -> (0 <= x < 2 ^ 52 + 2 ^ 27)%Z -> mathUnary t f x = Ok (Z.sqrt x).
Proof.
  intros W H I B. unfold mathUnary. destruct (dofZ_small x ltac:(lia)) as [V F]. destruct (H (dofZ x) F) as [P _].
  change (real (dofZ x)) with (val (dofZ x)) in P. rewrite V in P. destruct (P ltac:(apply IZR_le; lia)) as [Ff R].
  apply dconvert_iff; [exact W|]. split; [exact Ff|]. rewrite R. split; [symmetry; now apply sqrt_whole|].
  assert (0 <= Z.sqrt x <= x)%Z by (split; [apply Z.sqrt_nonneg|destruct (Z.eq_dec x 0) as [->|]; [reflexivity|apply Z.sqrt_le_lin; lia]]).
  assert (Z0 := zero_in_type t W). unfold InType in *. lia.
Qed.

Theorem sqrt_gives t f n mem a : Wf t -> IsSqrt f -> Allocated mem a n -> Typed t mem a n -> Every (fun x => 0 <= x < 2 ^ 52 + 2 ^ 27)%Z mem a n ->
  Gives (mathUnary t f) n mem a Z.sqrt.
Proof. intros W H HA T E. apply gives_lift; [exact HA|]. intros i x Hi Hx. apply sqrt_element; auto; [exact (T i x Hi Hx)|exact (E i x Hi Hx)]. Qed.

Theorem sqrt_negative t f n mem a : Wf t -> (ibits t <= 64)%Z -> IsSqrt f -> Allocated mem a n -> Typed t mem a n -> ~ Every (fun x => 0 <= x)%Z mem a n ->
  Undefined (mathUnary t f) n mem a.
Proof.
  intros W B H HA T N. apply undefined_lift; [exact HA|intros x e; apply dconvert_throw|].
  assert (D : forall k, (exists i x, 0 <= i < Z.of_nat k /\ zget mem (a + i) = Ok x /\ x < 0)%Z \/ Every (fun x => 0 <= x)%Z mem a k).
  { induction k as [|k [(i & x & Hi & Hx & Q)|IH]].
    - right. intros i x Hi. lia.
    - left. exists i, x. split; [lia|auto].
    - destruct (zget mem (a + Z.of_nat k)) as [x|e|] eqn:Ex.
      + destruct (Z_lt_dec x 0) as [L|L].
        * left. exists (Z.of_nat k), x. split; [lia|auto].
        * right. intros i y Hi Hy. destruct (Z.eq_dec i (Z.of_nat k)) as [->|Ne]; [assert (y = x) by congruence; lia|apply (IH i y); [lia|exact Hy]].
      + right. intros i y Hi Hy. destruct (Z.eq_dec i (Z.of_nat k)) as [->|Ne]; [congruence|apply (IH i y); [lia|exact Hy]].
      + right. intros i y Hi Hy. destruct (Z.eq_dec i (Z.of_nat k)) as [->|Ne]; [congruence|apply (IH i y); [lia|exact Hy]]. }
  destruct (D n) as [(i & x & Hi & Hx & Q)|E]; [|contradiction]. exists i, x. split; [exact Hi|]. split; [exact Hx|].
  unfold mathUnary. destruct (dofZ_ok x (in_type_bound t x B W (T i x Hi Hx))) as [V F]. destruct (H (dofZ x) F) as [_ P].
  rewrite P; [apply dconvert_nan|]. change (real (dofZ x)) with (val (dofZ x)). rewrite V.
  apply Rle_lt_trans with (IZR (-1)); [|lra]. apply round_le_generic; [apply valid64|apply valid_rnd_N|apply F64_small; lia|apply IZR_le; lia].
Qed.

Lemma dsqrt_ok : IsSqrt dsqrt.
Proof.
  intros x F. unfold dsqrt. destruct (Bsqrt_correct 53 1024 hprec hmax mode_NE x) as (V & G & _). split; intros L.
  - split; [|exact V]. unfold Finite. etransitivity; [exact G|]. destruct x as [s|s| |[|] m e B]; try reflexivity; try discriminate F. exfalso.
    unfold real in L. cbn [B2R] in L. assert (N := F2R_lt_0 radix2 (Float radix2 (SpecFloat.cond_Zopp true (Zpos m)) e) ltac:(cbn; lia)). lra.
  - destruct x as [s|s| |[|] m e B]; try discriminate F; unfold real in L; cbn [B2R] in L; [lra|reflexivity|]. exfalso.
    assert (N := F2R_gt_0 radix2 (Float radix2 (SpecFloat.cond_Zopp false (Zpos m)) e) ltac:(cbn; lia)). lra.
Qed.

Theorem sqrt_wrong f : IsSqrt f -> transform1 (mathUnary (mkItype true 64) f) 1 [2 ^ 52 + 2 ^ 27]%Z 0 = Ok [2 ^ 26 + 1]%Z /\ Z.sqrt (2 ^ 52 + 2 ^ 27) = (2 ^ 26)%Z.
Proof.
  intros H. split; [|reflexivity]. fold int64. set (x := (2 ^ 52 + 2 ^ 27)%Z). destruct (dofZ_small x ltac:(vm_compute; discriminate)) as [V F].
  assert (P : 0 <= real (dofZ x)) by (unfold real; rewrite V; apply IZR_le; vm_compute; discriminate).
  destruct (proj1 (H (dofZ x) F) P) as [Ff R]. destruct (proj1 (dsqrt_ok (dofZ x) F) P) as [_ R']. rewrite <- R' in R. unfold real in R.
  rewrite (same_value (dsqrt (dofZ x)) (dofZ (2 ^ 26 + 1))) in R by (vm_compute; reflexivity). rewrite (proj1 (dofZ_small (2 ^ 26 + 1) ltac:(lia))) in R.
  assert (E : mathUnary int64 f x = Ok (2 ^ 26 + 1)%Z) by (apply dconvert_int; [exact int64_wf|exact Ff|exact R|split; vm_compute; discriminate]).
  cbn [transform1]. change (zget [x] 0) with (@Ok Z x). cbn [bind]. rewrite E. reflexivity.
Qed.

(** ** Remainders *)

Lemma fmod_element t f x y : Wf t -> IsFmod f -> InType t x -> Precise x -> Precise y -> y <> 0%Z -> mathBinary t f x y = Ok (Z.rem x y).
Proof.
  intros W H I Px Py N. unfold mathBinary. destruct (dofZ_small x Px) as [Vx Fx]. destruct (dofZ_small y Py) as [Vy Fy]. destruct (H _ _ Fx Fy) as [P _].
  unfold real in P. rewrite Vx, Vy in P. destruct (P ltac:(apply not_0_IZR; exact N)) as [Ff R]. rewrite Ztrunc_div in R by exact N.
  assert (E : (Z.rem x y = x - Z.quot x y * y)%Z) by (pose proof (Z.quot_rem' x y); lia).
  apply dconvert_int; [exact W|exact Ff| |].
  - unfold real. rewrite R, <- mult_IZR, <- minus_IZR. f_equal. lia.
  - assert (A := Z.rem_le x y). assert (Q := Z.rem_sign_mul x y N). assert (Bd : (Z.abs (Z.rem x y) <= Z.abs x)%Z).
    { rewrite <- Z.rem_abs by exact N. apply Z.rem_le; lia. }
    assert (Z0 := zero_in_type t W). unfold InType in *. nia.
Qed.

Theorem fmod_gives t f n mem a b : Wf t -> IsFmod f -> Allocated mem a n -> Allocated mem b n -> Typed t mem a n -> Every Precise mem a n ->
  Every (fun y => Precise y /\ y <> 0%Z) mem b n -> GivesBoth (mathBinary t f) n mem a b Z.rem.
Proof.
  intros W H HA HB T Ea Eb. apply both_lift; auto. intros i x y Hi Hx Hy. destruct (Eb i y Hi Hy) as [Py N]. apply fmod_element; auto; [exact (T i x Hi Hx)|exact (Ea i x Hi Hx)].
Qed.

Theorem fmod_scalar t f n mem a s y : Wf t -> IsFmod f -> Allocated mem a n -> Typed t mem a n -> Every Precise mem a n ->
  zget mem s = Ok y -> Precise y -> y <> 0%Z -> GivesScalar (mathBinary t f) n mem a s Z.rem.
Proof.
  intros W H HA T Ea Hs Py N. apply (scalar_lift _ n mem a s y); auto. intros i x Hi Hx. apply fmod_element; auto; [exact (T i x Hi Hx)|exact (Ea i x Hi Hx)].
Qed.

Lemma fmod_zero t f x : IsFmod f -> Finite (dofZ x) -> mathBinary t f x 0 = UB.
Proof.
  intros H F. unfold mathBinary. destruct (dofZ_small 0 ltac:(lia)) as [V F0]. destruct (H _ _ F F0) as [_ P]. rewrite P; [reflexivity|exact V].
Qed.

Theorem fmod_by_zero t f n mem a b i : Wf t -> (ibits t <= 64)%Z -> IsFmod f -> Allocated mem a n -> Allocated mem b n -> (a <= b \/ Apart a n b n)%Z -> Typed t mem a n ->
  (0 <= i < Z.of_nat n)%Z -> zget mem (b + i) = Ok 0%Z -> transform2 (mathBinary t f) n mem a b = UB.
Proof.
  intros W B H HA HB O T Hi Hy. apply transform2_ub; auto; [intros x y e; apply dconvert_throw|]. exists i. split; [exact Hi|].
  destruct (zget_in_range mem (a + i)) as [x Hx]; [destruct HA; lia|]. rewrite Hx, Hy. cbn [bind]. apply fmod_zero; [exact H|].
  exact (proj2 (dofZ_ok x (in_type_bound t x B W (T i x Hi Hx)))).
Qed.

(** ** Positive differences *)

Lemma fdim_element t f x y : Wf t -> IsFdim f -> Precise x -> Precise y -> Precise (x - y) -> InType t (Z.max 0 (x - y)) -> mathBinary t f x y = Ok (Z.max 0 (x - y)).
Proof.
  intros W H Px Py Pd I. unfold mathBinary. destruct (dofZ_small x Px) as [Vx Fx]. destruct (dofZ_small y Py) as [Vy Fy]. destruct (H _ _ Fx Fy) as [P Q].
  unfold real in P, Q. rewrite Vx, Vy in P, Q. destruct (Z_lt_dec y x) as [L|L].
  - assert (E : nearestDouble (IZR x - IZR y) = IZR (x - y)) by (rewrite <- minus_IZR; apply rnd_int; exact Pd).
    rewrite E in P. destruct P as [Ff R].
    + now apply IZR_lt.
    + rewrite <- abs_IZR. apply Rle_trans with (IZR (2 ^ 53)); [apply IZR_le; exact Pd|]. unfold maxDouble. apply Rle_trans with (IZR 1 * pow2 971).
      * rewrite Rmult_1_l. change (IZR (2 ^ 53)) with (pow2 53). apply bpow_le. lia.
      * apply Rmult_le_compat_r; [apply bpow_ge_0|apply IZR_le; lia].
    + apply dconvert_int; [exact W|exact Ff| |exact I]. unfold real. rewrite R. f_equal. lia.
  - destruct Q as [Ff R]; [apply IZR_le; lia|]. apply dconvert_int; [exact W|exact Ff| |exact I]. unfold real. rewrite R. f_equal. lia.
Qed.

Theorem fdim_gives t f n mem a b : Wf t -> IsFdim f -> Allocated mem a n -> Allocated mem b n -> Every Precise mem a n -> Every Precise mem b n ->
  (forall i x y, 0 <= i < Z.of_nat n -> zget mem (a + i) = Ok x -> zget mem (b + i) = Ok y -> Precise (x - y) /\ InType t (Z.max 0 (x - y)))%Z ->
  GivesBoth (mathBinary t f) n mem a b (fun x y => Z.max 0 (x - y)).
Proof.
  intros W H HA HB Ea Eb D. apply both_lift; auto. intros i x y Hi Hx Hy. destruct (D i x y Hi Hx Hy) as [Pd I]. apply fdim_element; auto; [exact (Ea i x Hi Hx)|exact (Eb i y Hi Hy)].
Qed.

Theorem fdim_scalar t f n mem a s y : Wf t -> IsFdim f -> Allocated mem a n -> Every Precise mem a n -> zget mem s = Ok y -> Precise y ->
  Every (fun x => Precise (x - y) /\ InType t (Z.max 0 (x - y)))%Z mem a n -> GivesScalar (mathBinary t f) n mem a s (fun x y => Z.max 0 (x - y)).
Proof.
  intros W H HA Ea Hs Py D. apply (scalar_lift _ n mem a s y); auto. intros i x Hi Hx. destruct (D i x Hi Hx) as [Pd I]. apply fdim_element; auto. exact (Ea i x Hi Hx).
Qed.

Theorem fdim_overflow f : IsFdim f -> mathBinary int32 f (2 ^ 31 - 1) (- 1) = UB.
Proof.
  intros H. unfold mathBinary. assert (Bx : (Z.abs (2 ^ 31 - 1) <= 2 ^ 53)%Z) by lia. destruct (dofZ_small _ Bx) as [Vx Fx]. destruct (dofZ_small (-1) ltac:(lia)) as [Vy Fy]. destruct (H _ _ Fx Fy) as [P _].
  unfold real in P. rewrite Vx, Vy in P. assert (E : nearestDouble (IZR (2 ^ 31 - 1) - IZR (-1)) = IZR (2 ^ 31)) by (rewrite <- minus_IZR; apply rnd_int; lia).
  rewrite E in P. destruct P as [Ff R].
  - apply IZR_lt. lia.
  - rewrite <- abs_IZR. unfold maxDouble. apply Rle_trans with (IZR 1 * pow2 971).
    + rewrite Rmult_1_l. change (IZR (Z.abs (2 ^ 31))) with (pow2 31). apply bpow_le. lia.
    + apply Rmult_le_compat_r; [apply bpow_ge_0|apply IZR_le; lia].
  - apply dconvert_ub; [right; cbn; lia|]. intros _. unfold real. rewrite R, Ztrunc_IZR. intros [_ L]. vm_compute in L. contradiction L. reflexivity.
Qed.

(** ** Exponents *)

Lemma logb_element t f x : Wf t -> IsLogb f -> Precise x -> x <> 0%Z -> mathUnary t f x = Ok (Z.log2 (Z.abs x)).
Proof.
  intros W H P N. unfold mathUnary. destruct (dofZ_small x P) as [V F]. destruct (H _ F) as [Q _]. unfold real in Q. rewrite V in Q.
  destruct (Z.log2_spec (Z.abs x) ltac:(lia)) as [Lo Hi]. assert (L0 := Z.log2_nonneg (Z.abs x)). destruct (Q (Z.log2 (Z.abs x))) as [Ff R].
  { rewrite <- abs_IZR, <- !(IZR_Zpower radix2) by lia. change (radix_val radix2) with 2%Z. split; [apply IZR_le|apply IZR_lt]; lia. }
  apply dconvert_int; [exact W|exact Ff|exact R|]. assert (L1 : (Z.log2 (Z.abs x) <= 53)%Z) by (apply Z.le_trans with (Z.log2 (2 ^ 53)); [apply Z.log2_le_mono; exact P|reflexivity]).
  assert (A : (2 ^ 7 <= 2 ^ (ibits t - 1))%Z) by (apply Z.pow_le_mono_r; unfold Wf in W; lia). assert (A2 : (2 ^ 8 <= 2 ^ (ibits t))%Z) by (apply Z.pow_le_mono_r; unfold Wf in W; lia).
  unfold InType, itmin, itmax. destruct (isigned t); lia.
Qed.

Theorem logb_gives t f n mem a : Wf t -> IsLogb f -> Allocated mem a n -> Every (fun x => Precise x /\ x <> 0%Z) mem a n ->
  Gives (mathUnary t f) n mem a (fun x => Z.log2 (Z.abs x)).
Proof. intros W H HA E. apply gives_lift; [exact HA|]. intros i x Hi Hx. destruct (E i x Hi Hx). now apply logb_element. Qed.

Theorem logb_zero t f n mem a i : Wf t -> IsLogb f -> Allocated mem a n -> (0 <= i < Z.of_nat n)%Z -> zget mem (a + i) = Ok 0%Z -> Undefined (mathUnary t f) n mem a.
Proof.
  intros W H HA Hi Hx. apply undefined_lift; [exact HA|intros x e; apply dconvert_throw|]. exists i, 0%Z. split; [exact Hi|]. split; [exact Hx|].
  unfold mathUnary. destruct (dofZ_small 0 ltac:(lia)) as [V F]. apply dconvert_ub; [exact W|]. intros Ff. exfalso. exact (proj2 (H _ F) V Ff).
Qed.

(** ** The specifications can be met *)

Lemma nearbyint_ok m x : Finite x -> Finite (nearbyint m x) /\ real (nearbyint m x) = IZR (round_mode m (real x)).
Proof.
  intros F. unfold nearbyint, Finite, real. destruct (Bnearbyint_correct 53 1024 hmax m x) as (V & G & _). split; [etransitivity; [exact G|exact F]|].
  etransitivity; [exact V|]. unfold round, scaled_mantissa, cexp, FIX_exp, F2R. cbn [Fnum Fexp Z.opp bpow]. now rewrite !Rmult_1_r.
Qed.

Lemma floor_met : IsFloor (nearbyint mode_DN).
Proof. intros x F. exact (nearbyint_ok mode_DN x F). Qed.
Lemma ceil_met : IsCeil (nearbyint mode_UP).
Proof. intros x F. exact (nearbyint_ok mode_UP x F). Qed.
Lemma trunc_met : IsTrunc (nearbyint mode_ZR).
Proof. intros x F. exact (nearbyint_ok mode_ZR x F). Qed.
Lemma round_met : IsRound (nearbyint mode_NA).
Proof. intros x F. destruct (nearbyint_ok mode_NA x F) as [Ff R]. split; [exact Ff|]. eexists. split; [exact R|]. apply Znearest_half. Qed.

Lemma fdim_met : IsFdim dfdim.
Proof.
  intros x y Fx Fy. unfold dfdim, dltb. rewrite (Bcompare_correct 53 1024 y x Fy Fx). fold (real y) (real x). split; intros L.
  - intros M. rewrite Rcompare_Lt by exact L. destruct (dsub_ok x y Fx Fy) as [V F].
    + eapply Rle_lt_trans; [exact M|apply maxDouble_lt].
    + split; [exact F|exact V].
  - destruct (Rcompare_spec (real y) (real x)); [lra| |]; split; reflexivity.
Qed.

Lemma logb_met : IsLogb dlogb.
Proof.
  intros x F. destruct x as [s|s| |s m e B]; try discriminate F.
  - split; [|intros _; discriminate]. intros e [L _]. unfold real in L. cbn [B2R] in L. rewrite Rabs_R0 in L. assert (P := bpow_gt_0 radix2 e). lra.
  - split.
    + intros k [L U]. cbn [dlogb]. destruct (mantissa_bound m e B) as [Mm Me]. assert (E1 := Z.log2_nonneg (Zpos m)). assert (Me' : (e <= 971)%Z).
      { clear - B. unfold SpecFloat.bounded in B. apply Bool.andb_true_iff in B. destruct B as [_ B]. apply Z.leb_le in B. exact B. }
      destruct (Z.log2_spec (Zpos m) ltac:(lia)) as [Lo Hi]. assert (E2 : (Z.log2 (Zpos m) <= 53)%Z) by (apply Z.le_trans with (Z.log2 (2 ^ 53)); [apply Z.log2_le_mono; lia|reflexivity]).
      assert (K : (Z.log2 (Z.pos m) + e = k)%Z).
      { assert (A : Rabs (real (B754_finite s m e B)) = IZR (Zpos m) * pow2 e).
        { unfold real. cbn [B2R]. rewrite <- F2R_Zabs. unfold F2R. cbn [Fnum Fexp]. f_equal. f_equal. destruct s; reflexivity. }
        rewrite A in L, U. assert (G1 : pow2 (Z.log2 (Z.pos m) + e) <= IZR (Zpos m) * pow2 e).
        { rewrite bpow_plus. apply Rmult_le_compat_r; [apply bpow_ge_0|]. rewrite <- (IZR_Zpower radix2) by exact E1. apply IZR_le. exact Lo. }
        assert (G2 : IZR (Zpos m) * pow2 e < pow2 (Z.log2 (Z.pos m) + e + 1)).
        { replace (Z.log2 (Z.pos m) + e + 1)%Z with (Z.succ (Z.log2 (Z.pos m)) + e)%Z by lia. rewrite bpow_plus. apply Rmult_lt_compat_r; [apply bpow_gt_0|]. rewrite <- (IZR_Zpower radix2) by lia. apply IZR_lt. exact Hi. }
        assert (G3 : (Z.log2 (Z.pos m) + e < k + 1)%Z) by (apply (lt_bpow radix2); lra).
        assert (G4 : (k < Z.log2 (Z.pos m) + e + 1)%Z) by (apply (lt_bpow radix2); lra). lia. }
      rewrite K. destruct (dofZ_small k ltac:(lia)) as [V Fk]. split; [exact Fk|exact V].
    + intros Z0. exfalso. unfold real in Z0. cbn [B2R] in Z0. apply eq_0_F2R in Z0. destruct s; discriminate.
Qed.

Lemma dlit_exact m e : (Z.abs m < 2 ^ 53)%Z -> (-1074 <= e <= 971)%Z -> fin (dlit m e) = true /\ val (dlit m e) = IZR m * pow2 e.
Proof.
  intros M Ee. assert (C := binary_normalize_correct 53 1024 hprec hmax mode_NE m e false). cbv zeta in C. cbn [round_mode] in C.
  assert (G : F64 (IZR m * pow2 e)) by (apply F64_scaled; lia). change (F2R (Float radix2 m e)) with (IZR m * pow2 e) in C.
  rewrite (round_generic radix2 fexp64 ZnearestE) in C by exact G. assert (B : Rabs (IZR m * pow2 e) < pow2 1024).
  { rewrite Rabs_mult, (Rabs_pos_eq (pow2 e)) by apply bpow_ge_0. apply Rlt_le_trans with (pow2 53 * pow2 e).
    - apply Rmult_lt_compat_r; [apply bpow_gt_0|]. rewrite <- abs_IZR. change (pow2 53) with (IZR (2 ^ 53)). now apply IZR_lt.
    - rewrite <- bpow_plus. apply bpow_le. lia. }
  rewrite (rlt_true _ _ B) in C. unfold dlit. tauto.
Qed.

Lemma fmod_met : IsFmod dfmod.
Proof.
  intros x y Fx Fy. destruct y as [s'|s'| |s' m' e' B']; try discriminate Fy.
  { split; [intros H; contradiction H; reflexivity|]. intros _. destruct x; reflexivity || discriminate Fx. }
  assert (Ny : real (B754_finite s' m' e' B') <> 0) by (unfold real; cbn [B2R]; intros Z0; apply eq_0_F2R in Z0; destruct s'; discriminate).
  split; [|intros Z0; contradiction]. intros _. destruct x as [s|s| |s m e B]; try discriminate Fx.
  { split; [reflexivity|]. unfold real at 1 2 3. cbn [B2R dfmod]. unfold Rdiv. rewrite Rmult_0_l, Ztrunc_IZR. ring. }
  cbn [dfmod]. set (k := Z.min e e'). destruct (mantissa_bound m e B) as [Mm Me]. destruct (mantissa_bound m' e' B') as [Mm' Me'].
  assert (T : forall m e, SpecFloat.bounded 53 1024 m e = true -> (e <= 971)%Z).
  { clear. intros m e B. unfold SpecFloat.bounded in B. apply Bool.andb_true_iff in B. destruct B as [_ B]. apply Z.leb_le in B. exact B. }
  assert (T1 := T _ _ B). assert (T2 := T _ _ B').
  set (X := (Zpos m * 2 ^ (e - k))%Z). set (Y := (Zpos m' * 2 ^ (e' - k))%Z).
  assert (P1 : (0 < 2 ^ (e - k))%Z) by (apply Z.pow_pos_nonneg; lia). assert (P2 : (0 < 2 ^ (e' - k))%Z) by (apply Z.pow_pos_nonneg; lia).
  assert (X0 : (0 < X)%Z) by (unfold X; nia). assert (Y0 : (0 < Y)%Z) by (unfold Y; nia).
  assert (Rb : (0 <= Z.rem X Y < 2 ^ 53)%Z).
  { assert (R0 := Z.rem_bound_pos X Y ltac:(lia) Y0). split; [lia|]. destruct (Z_le_dec e e') as [L|L].
    - assert (R1 := Z.rem_le X Y ltac:(lia) Y0). assert (X = Zpos m) by (unfold X; replace (e - k)%Z with 0%Z by lia; lia). lia.
    - assert (Y = Zpos m') by (unfold Y; replace (e' - k)%Z with 0%Z by lia; lia). lia. }
  assert (VX : real (B754_finite s m e B) = IZR (if s then - X else X) * pow2 k).
  { unfold real, X. cbn [B2R]. unfold F2R. cbn [Fnum Fexp]. assert (Pe : pow2 e = IZR (2 ^ (e - k)) * pow2 k).
    { change (2 ^ (e - k))%Z with (radix2 ^ (e - k))%Z. rewrite IZR_Zpower by lia. rewrite <- bpow_plus. f_equal. lia. }
    rewrite Pe. destruct s; cbn [SpecFloat.cond_Zopp]; rewrite ?opp_IZR, ?mult_IZR; try (change (IZR (Z.neg m)) with (- IZR (Zpos m))); ring. }
  assert (VY : real (B754_finite s' m' e' B') = IZR (if s' then - Y else Y) * pow2 k).
  { unfold real, Y. cbn [B2R]. unfold F2R. cbn [Fnum Fexp]. assert (Pe : pow2 e' = IZR (2 ^ (e' - k)) * pow2 k).
    { change (2 ^ (e' - k))%Z with (radix2 ^ (e' - k))%Z. rewrite IZR_Zpower by lia. rewrite <- bpow_plus. f_equal. lia. }
    rewrite Pe. destruct s'; cbn [SpecFloat.cond_Zopp]; rewrite ?opp_IZR, ?mult_IZR; try (change (IZR (Z.neg m')) with (- IZR (Zpos m'))); ring. }
  destruct (dlit_exact (if s then - Z.rem X Y else Z.rem X Y) k) as [Ff Vf]; [destruct s; lia|lia|]. split; [exact Ff|].
  unfold real at 1. etransitivity; [exact Vf|]. rewrite VX, VY. set (SX := if s then (- X)%Z else X). set (SY := if s' then (- Y)%Z else Y).
  assert (NY : SY <> 0%Z) by (unfold SY; destruct s'; lia).
  replace (IZR SX * pow2 k / (IZR SY * pow2 k)) with (IZR SX / IZR SY) by (field; split; [assert (Q := bpow_gt_0 radix2 k); lra|now apply not_0_IZR]).
  rewrite Ztrunc_div by exact NY. assert (E : (if s then - Z.rem X Y else Z.rem X Y)%Z = (SX - Z.quot SX SY * SY)%Z).
  { assert (Q := Z.quot_rem' SX SY). assert (R0 : Z.rem SX SY = if s then (- Z.rem X Y)%Z else Z.rem X Y); [|lia].
    unfold SX, SY. destruct s, s'; rewrite ?Z.rem_opp_opp, ?Z.rem_opp_l, ?Z.rem_opp_r by lia; reflexivity. }
  rewrite E, minus_IZR, mult_IZR. ring.
Qed.
