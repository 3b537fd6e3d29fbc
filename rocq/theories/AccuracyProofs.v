(** Proofs of the error bounds of interpolation. *)
From Coq Require Import Reals Lra Psatz.
From Flocq Require Import Core IEEE754.BinarySingleNaN.
From Verif Require Import Res FloatModel FloatSpec FloatKernelSpec AccuracySpec FloatProofs QuantileProofs FloatKernelProofs FloatSumProofs MathProofs.
Local Existing Instance hprec.
Local Existing Instance hmax.
Local Existing Instance valid64.
Open Scope R_scope.

(** The fractional part *)
Lemma F64_one : F64 1.
Proof. exact (F64_small 1 ltac:(lia)). Qed.

Lemma rnd_unit r : 0 <= r <= 1 -> 0 <= rnd r <= 1.
Proof.
  intros [L H]. split; [now apply round_nonneg|]. rewrite <- (round_generic radix2 fexp64 ZnearestE 1 F64_one). apply round_le; [apply valid64|apply valid_rnd_N|exact H].
Qed.

Lemma dltb_neg x : fin x = true -> val x < 0 -> dltb x (dofZ 0) = true.
Proof.
  intros F P. destruct (dofZ_small 0 ltac:(lia)) as [V F0]. unfold dltb. rewrite (Bcompare_correct 53 1024 x (dofZ 0) F F0). rewrite V.
  destruct (Rcompare_spec (val x) 0); auto; lra.
Qed.

Lemma dtrunc_neg x z : fin x = true -> val x < 0 -> - pow2 52 < val x -> dtrunc x = Ok z -> (- 2 ^ 52 <= z <= 0)%Z /\ 0 <= IZR z - val x < 1.
Proof.
  intros F N L E. destruct x as [s| | |s m e B]; try discriminate F; [cbn [B2R] in N; lra|].
  destruct s; [|exfalso; cbn [B2R] in N; assert (P := F2R_ge_0 radix2 (Float radix2 (SpecFloat.cond_Zopp false (Zpos m)) e) ltac:(cbn; lia)); lra].
  set (y := B754_finite false m e B : double).
  assert (V : val (B754_finite true m e B) = - val y).
  { cbn [B2R y SpecFloat.cond_Zopp]. rewrite <- F2R_Zopp. reflexivity. }
  rewrite V in *. destruct (dtrunc_total y eq_refl) as (a & Ta & Ba).
  { rewrite Rabs_pos_eq by lra. apply Rlt_le_trans with (pow2 52); [lra|]. apply bpow_le. lia. }
  destruct (dtrunc_ok y a eq_refl ltac:(lra) Ta) as (Pa & _ & _ & Da).
  assert (z = - a)%Z as ->. { unfold dtrunc, y in *. cbv zeta in *. apply chk64_inv in Ta. apply chk64_inv in E. lia. }
  rewrite opp_IZR. split; [|lra]. assert (IZR a < IZR (2 ^ 52)) by (change (IZR (2 ^ 52)) with (pow2 52); lra). apply lt_IZR in H. lia.
Qed.

Lemma dfloor_placed x f : Placed x -> dfloor x = Ok f -> let d := dsub x (dofZ f) in
  fin d = true /\ 0 <= val d <= 1 /\ 0 <= val x - IZR f <= 1 /\ Rabs (val d - (val x - IZR f)) <= uu /\
  (f = Zfloor (val x) \/ (val x < 0 /\ val x = IZR (f + 1))).
Proof.
  intros [F L] E. unfold Finite, real in *. assert (U := uu_pos). cbv zeta. destruct (Rle_or_lt 0 (val x)) as [P|N].
  - destruct (dfloor_ok x f F P E) as (Bf & Fd & Vd & Bd). split; [exact Fd|]. rewrite Vd in *. split; [lra|]. split; [lra|].
    split; [rewrite Rminus_eq_0, Rabs_R0; lra|]. left. symmetry. apply Zfloor_imp. rewrite plus_IZR. lra.
  - unfold dfloor in E. destruct (dtrunc x) as [z| |] eqn:T; try discriminate. cbn [bind] in E. rewrite (dltb_neg x F N) in E.
    apply chk64_inv in E. destruct E as [_ ->]. destruct (dtrunc_neg x z F N L T) as (Bz & Dz).
    destruct (dofZ_small (z - 1) ltac:(lia)) as [V FV]. assert (Hr : 0 <= val x - IZR (z - 1) <= 1) by (rewrite minus_IZR; lra).
    assert (Ru := rnd_unit _ Hr). destruct (dsub_ok x (dofZ (z - 1)) F FV) as [D FD].
    { rewrite V, Rabs_pos_eq by lra. apply Rle_lt_trans with 1; [lra|]. change 1 with (pow2 0). apply bpow_lt. lia. }
    rewrite V in D. split; [exact FD|]. rewrite D. split; [exact Ru|]. split; [exact Hr|]. split.
    + assert (Q := plus_error (val x) (- IZR (z - 1)) (F64_val x)). apply Rle_trans with (uu * Rabs (val x + - IZR (z - 1))).
      * apply Q. apply generic_format_opp. apply F64_small. lia.
      * replace (val x + - IZR (z - 1)) with (val x - IZR (z - 1)) by ring. rewrite (Rabs_pos_eq (val x - IZR (z - 1))) by lra. assert (uu * (val x - IZR (z - 1)) <= uu * 1) by (apply Rmult_le_compat_l; lra). lra.
    + destruct (Req_dec (val x) (IZR z)) as [Q|Q]; [right|left].
      * split; [exact N|]. rewrite Q. f_equal. lia.
      * symmetry. apply Zfloor_imp. replace (z - 1 + 1)%Z with z by lia. rewrite minus_IZR in *. lra.
Qed.

(** A double near a real number *)
Definition approx (B : R) (x : double) (X m b g : R) : Prop := fin x = true /\ Rabs (val x - X) <= b * (uu * B) + g * hh /\ Rabs X <= m * B.
Definition small (m b g : R) : Prop := 0 <= m <= 64 /\ 0 <= b <= 1000 /\ 0 <= g <= 1000.

Lemma uu_tiny : 0 < uu <= / 1000000.
Proof.
  split; [exact uu_pos|]. unfold uu. apply Rle_trans with (pow2 (-20)); [apply bpow_le; lia|].
  change (pow2 (-20)) with (/ IZR (2 ^ 20)). apply Rinv_le; [lra|]. apply IZR_le. lia.
Qed.
Lemma hh_tiny : 0 < hh <= uu.
Proof. split; [exact hh_pos|]. unfold hh, uu. apply bpow_le. lia. Qed.

Lemma near_rnd B z X m b g : 0 <= B -> small m b g -> Rabs (z - X) <= b * (uu * B) + g * hh -> Rabs X <= m * B ->
  Rabs (rnd z - X) <= (b + m + 1) * (uu * B) + (g + 2) * hh /\ Rabs z <= (m + 1) * B + 1.
Proof.
  intros PB (Sm & Sb & Sg) E M. assert (U := uu_tiny). assert (H := hh_tiny). assert (R := rnd_error z). fold uu in R. fold hh in R.
  assert (UB : 0 <= uu * B) by (apply Rmult_le_pos; lra).
  assert (b1 : b * (uu * B) <= / 1000 * B). { rewrite <- Rmult_assoc. apply Rmult_le_compat_r; [exact PB|]. apply Rle_trans with (1000 * uu); [apply Rmult_le_compat_r; lra|lra]. }
  assert (g1 : g * hh <= 1000 * hh) by (apply Rmult_le_compat_r; lra).
  assert (Z : Rabs z <= m * B + (b * (uu * B) + g * hh)). { replace z with (X + (z - X)) by ring. apply Rle_trans with (1 := Rabs_triang _ _). lra. }
  split; [|lra].
  replace (rnd z - X) with ((rnd z - z) + (z - X)) by ring. apply Rle_trans with (1 := Rabs_triang _ _).
  assert (Z' : uu * Rabs z <= uu * (m * B) + uu * B + hh).
  { apply Rle_trans with (uu * (m * B + (/ 1000 * B + 1000 * hh))); [apply Rmult_le_compat_l; lra|].
    assert (uu * (1000 * hh) <= hh). { replace hh with (1 * hh) at 2 by ring. rewrite <- Rmult_assoc. apply Rmult_le_compat_r; lra. }
    rewrite !Rmult_plus_distr_l. assert (uu * (/ 1000 * B) <= uu * B) by (apply Rmult_le_compat_l; lra). lra. }
  replace (uu * (m * B)) with (m * (uu * B)) in Z' by ring. lra.
Qed.

Lemma fits_one B m : 0 <= B <= pow2 1000 -> 0 <= m <= 64 -> (m + 1) * B + 1 <= pow2 1023.
Proof.
  intros [P L] Hm. apply Rle_trans with (65 * pow2 1000 + 1).
  - assert ((m + 1) * B <= 65 * pow2 1000); [|lra]. apply Rmult_le_compat; lra.
  - assert (1 <= pow2 1000) by (change 1 with (pow2 0); apply bpow_le; lia). apply Rle_trans with (128 * pow2 1000); [lra|].
    change 128 with (pow2 7). rewrite <- bpow_plus. apply bpow_le. lia.
Qed.

Lemma approx_add B x y X Y m n b c g h : 0 <= B <= pow2 1000 -> approx B x X m b g -> approx B y Y n c h -> small (m + n) (b + c) (g + h) ->
  approx B (dadd x y) (X + Y) (m + n) (b + c + (m + n) + 1) (g + h + 2).
Proof.
  intros PB (Fx & Ex & Mx) (Fy & Ey & My) Sm.
  assert (M : Rabs (X + Y) <= (m + n) * B) by (apply Rle_trans with (1 := Rabs_triang _ _); lra).
  assert (E : Rabs (val x + val y - (X + Y)) <= (b + c) * (uu * B) + (g + h) * hh).
  { replace (val x + val y - (X + Y)) with ((val x - X) + (val y - Y)) by ring. apply Rle_trans with (1 := Rabs_triang _ _). lra. }
  destruct (near_rnd B _ _ _ _ _ ltac:(lra) Sm E M) as [R Z]. destruct Sm as (Sm & _).
  destruct (dadd_ok x y Fx Fy) as [V F]; [apply no_overflow; assert (T := fits_one B (m + n) PB Sm); lra|].
  split; [exact F|]. split; [rewrite V; exact R|exact M].
Qed.

Lemma approx_opp B x X m b g : approx B x X m b g -> approx B (dopp x) (- X) m b g.
Proof.
  intros (F & E & M). unfold dopp. split; [now rewrite is_finite_Bopp|]. rewrite B2R_Bopp, Rabs_Ropp. split; [|exact M].
  replace (- val x - - X) with (- (val x - X)) by ring. now rewrite Rabs_Ropp.
Qed.

Lemma approx_sub B x y X Y m n b c g h : 0 <= B <= pow2 1000 -> approx B x X m b g -> approx B y Y n c h -> small (m + n) (b + c) (g + h) ->
  approx B (dsub x y) (X - Y) (m + n) (b + c + (m + n) + 1) (g + h + 2).
Proof.
  intros PB (Fx & Ex & Mx) (Fy & Ey & My) Sm.
  assert (M : Rabs (X - Y) <= (m + n) * B) by (apply Rle_trans with (1 := Rabs_triang _ _); rewrite Rabs_Ropp; lra).
  assert (E : Rabs (val x - val y - (X - Y)) <= (b + c) * (uu * B) + (g + h) * hh).
  { replace (val x - val y - (X - Y)) with ((val x - X) - (val y - Y)) by ring. apply Rle_trans with (1 := Rabs_triang _ _). rewrite Rabs_Ropp. lra. }
  destruct (near_rnd B _ _ _ _ _ ltac:(lra) Sm E M) as [R Z]. destruct Sm as (Sm & _).
  destruct (dsub_ok x y Fx Fy) as [V F]; [apply no_overflow; assert (T := fits_one B (m + n) PB Sm); lra|].
  split; [exact F|]. split; [rewrite V; exact R|exact M].
Qed.

(** Product by a distance which is near [t] *)
Definition unit (d : double) (t k : R) : Prop := fin d = true /\ 0 <= val d <= 1 /\ 0 <= t <= 1 /\ Rabs (val d - t) <= k * uu.

Lemma approx_scale B d t k x X m b g : 0 <= B <= pow2 1000 -> unit d t k -> 0 <= k -> approx B x X m b g -> small m (b + k * m) g ->
  approx B (dmul d x) (t * X) m (b + k * m + m + 1) (g + 2).
Proof.
  intros PB (Fd & Bd & Bt & Ed) Pk (Fx & Ex & Mx) Sm. assert (U := uu_tiny).
  assert (M : Rabs (t * X) <= m * B). { rewrite Rabs_mult, (Rabs_pos_eq t) by lra. apply Rle_trans with (1 * Rabs X); [apply Rmult_le_compat_r; [apply Rabs_pos|lra]|lra]. }
  assert (E : Rabs (val d * val x - t * X) <= (b + k * m) * (uu * B) + g * hh).
  { replace (val d * val x - t * X) with (val d * (val x - X) + (val d - t) * X) by ring. apply Rle_trans with (1 := Rabs_triang _ _). rewrite !Rabs_mult, (Rabs_pos_eq (val d)) by lra.
    assert (val d * Rabs (val x - X) <= 1 * Rabs (val x - X)) by (apply Rmult_le_compat_r; [apply Rabs_pos|lra]).
    assert (Rabs (val d - t) * Rabs X <= k * uu * (m * B)) by (apply Rmult_le_compat; auto using Rabs_pos). lra. }
  destruct (near_rnd B _ _ _ _ _ ltac:(lra) Sm E M) as [R Z]. destruct Sm as (Sm & _).
  destruct (dmul_ok d x Fd Fx) as [V F]; [apply no_overflow; assert (T := fits_one B m PB Sm); lra|].
  split; [exact F|]. split; [rewrite V; exact R|exact M].
Qed.

(** Product by a constant *)
Lemma approx_times B c k x X m b g : 0 <= B <= pow2 1000 -> fin c = true -> val c = k -> 0 <= k -> approx B x X m b g -> small (k * m) (k * b) (k * g) ->
  approx B (dmul c x) (k * X) (k * m) (k * b + k * m + 1) (k * g + 2).
Proof.
  intros PB Fc Vc Pk (Fx & Ex & Mx) Sm. assert (U := uu_tiny).
  assert (M : Rabs (k * X) <= k * m * B). { rewrite Rabs_mult, (Rabs_pos_eq k) by lra. rewrite Rmult_assoc. apply Rmult_le_compat_l; lra. }
  assert (E : Rabs (val c * val x - k * X) <= k * b * (uu * B) + k * g * hh).
  { rewrite Vc. replace (k * val x - k * X) with (k * (val x - X)) by ring. rewrite Rabs_mult, (Rabs_pos_eq k) by lra.
    replace (k * b * (uu * B) + k * g * hh) with (k * (b * (uu * B) + g * hh)) by ring. apply Rmult_le_compat_l; lra. }
  destruct (near_rnd B _ _ _ _ _ ltac:(lra) Sm E M) as [R Z]. destruct Sm as (Sm & _).
  destruct (dmul_ok c x Fc Fx) as [V F]; [apply no_overflow; assert (T := fits_one B (k * m) PB Sm); lra|].
  split; [exact F|]. split; [rewrite V; exact R|exact M].
Qed.

(** Powers of the distance *)
Lemma unit_mul d t k e s l : unit d t k -> unit e s l -> 0 <= k <= 100 -> 0 <= l <= 100 -> unit (dmul d e) (t * s) (k + l + 2).
Proof.
  intros (Fd & Bd & Bt & Ed) (Fe & Be & Bs & Ee) Pk Pl. assert (U := uu_tiny). assert (H := hh_tiny).
  assert (P : 0 <= val d * val e <= 1) by (split; [apply Rmult_le_pos; lra|]; apply Rle_trans with (1 * 1); [apply Rmult_le_compat; lra|lra]).
  assert (Q : 0 <= t * s <= 1) by (split; [apply Rmult_le_pos; lra|]; apply Rle_trans with (1 * 1); [apply Rmult_le_compat; lra|lra]).
  assert (Ru := rnd_unit _ P). destruct (dmul_ok d e Fd Fe) as [V F].
  { rewrite Rabs_pos_eq by lra. apply Rle_lt_trans with 1; [lra|]. change 1 with (pow2 0). apply bpow_lt. lia. }
  split; [exact F|]. rewrite V. split; [exact Ru|]. split; [exact Q|].
  assert (R := rnd_error (val d * val e)). fold uu in R. fold hh in R. rewrite (Rabs_pos_eq (val d * val e)) in R by lra.
  assert (uu * (val d * val e) <= uu * 1) by (apply Rmult_le_compat_l; lra).
  assert (D : Rabs (val d * val e - t * s) <= (k + l) * uu).
  { replace (val d * val e - t * s) with (val d * (val e - s) + (val d - t) * s) by ring. apply Rle_trans with (1 := Rabs_triang _ _). rewrite !Rabs_mult, (Rabs_pos_eq (val d)), (Rabs_pos_eq s) by lra.
    assert (val d * Rabs (val e - s) <= 1 * Rabs (val e - s)) by (apply Rmult_le_compat_r; [apply Rabs_pos|lra]).
    assert (Rabs (val d - t) * s <= Rabs (val d - t) * 1) by (apply Rmult_le_compat_l; [apply Rabs_pos|lra]). lra. }
  replace (rnd (val d * val e) - t * s) with ((rnd (val d * val e) - val d * val e) + (val d * val e - t * s)) by ring. apply Rle_trans with (1 := Rabs_triang _ _). lra.
Qed.

Lemma approx_self B x : fin x = true -> Rabs (val x) <= B -> approx B x (val x) 1 0 0.
Proof. intros F H. split; [exact F|]. rewrite Rminus_eq_0, Rabs_R0. lra. Qed.

Lemma approx_weaken B x X m b g m' b' g' : 0 <= B -> m <= m' -> b <= b' -> g <= g' -> approx B x X m b g -> approx B x X m' b' g'.
Proof.
  intros PB Hm Hb Hg (F & E & M). assert (U := uu_tiny). assert (H := hh_tiny). split; [exact F|]. split.
  - apply Rle_trans with (1 := E). apply Rplus_le_compat; apply Rmult_le_compat_r; auto; [apply Rmult_le_pos|]; lra.
  - apply Rle_trans with (1 := M). now apply Rmult_le_compat_r.
Qed.

Ltac sm := unfold small; repeat split; lra.

Lemma dlinear_approx B d t p n : 0 <= B <= pow2 1000 -> unit d t 1 -> fin p = true -> fin n = true -> Rabs (val p) <= B -> Rabs (val n) <= B ->
  approx B (dlinear d p n) (t * (val p - val n) + val n) 3 12 6.
Proof.
  intros PB Hd Fp Fn Bp Bn. assert (Ap := approx_self B p Fp Bp). assert (An := approx_self B n Fn Bn). unfold dlinear.
  assert (A1 := approx_sub B p n _ _ _ _ _ _ _ _ PB Ap An ltac:(sm)).
  assert (A2 := approx_scale B d t 1 _ _ _ _ _ PB Hd ltac:(lra) A1 ltac:(sm)).
  assert (A3 := approx_add B _ _ _ _ _ _ _ _ _ _ PB A2 An ltac:(sm)).
  apply approx_weaken with (5 := A3); lra.
Qed.

Lemma dcubic_approx B d t pp p n nn : 0 <= B <= pow2 1000 -> unit d t 1 -> fin pp = true -> fin p = true -> fin n = true -> fin nn = true ->
  Rabs (val pp) <= B -> Rabs (val p) <= B -> Rabs (val n) <= B -> Rabs (val nn) <= B ->
  approx B (dcubic d pp p n nn) (val p + / 2 * (t * (- val pp + val n) + t * t * (2 * val pp - 5 * val p + 4 * val n - val nn) + t * t * t * (- val pp + 3 * val p - 3 * val n + val nn))) 12 200 100.
Proof.
  intros PB Hd F0 F1 F2 F3 B0 B1 B2 B3. assert (A0 := approx_self B pp F0 B0). assert (A1 := approx_self B p F1 B1). assert (A2 := approx_self B n F2 B2). assert (A3 := approx_self B nn F3 B3).
  unfold dcubic. cbv zeta.
  destruct (dofZ_small 2 ltac:(lia)) as [V2 Q2]. destruct (dofZ_small 3 ltac:(lia)) as [V3 Q3]. destruct (dofZ_small 4 ltac:(lia)) as [V4 Q4]. destruct (dofZ_small 5 ltac:(lia)) as [V5 Q5].
  destruct half_val as [Qh Vh].
  assert (D2 := unit_mul d t 1 d t 1 Hd Hd ltac:(lra) ltac:(lra)). assert (D3 := unit_mul _ _ _ d t 1 D2 Hd ltac:(lra) ltac:(lra)).
  assert (a1 := approx_add B _ _ _ _ _ _ _ _ _ _ PB (approx_opp _ _ _ _ _ _ A0) A2 ltac:(sm)).
  assert (a := approx_scale B d t 1 _ _ _ _ _ PB Hd ltac:(lra) a1 ltac:(sm)). clear a1.
  assert (b1 := approx_times B _ 2 _ _ _ _ _ PB Q2 V2 ltac:(lra) A0 ltac:(sm)).
  assert (b2 := approx_times B _ 5 _ _ _ _ _ PB Q5 V5 ltac:(lra) A1 ltac:(sm)).
  assert (b3 := approx_sub B _ _ _ _ _ _ _ _ _ _ PB b1 b2 ltac:(sm)).
  assert (b4 := approx_times B _ 4 _ _ _ _ _ PB Q4 V4 ltac:(lra) A2 ltac:(sm)).
  assert (b5 := approx_add B _ _ _ _ _ _ _ _ _ _ PB b3 b4 ltac:(sm)).
  assert (b6 := approx_sub B _ _ _ _ _ _ _ _ _ _ PB b5 A3 ltac:(sm)).
  assert (b := approx_scale B _ _ _ _ _ _ _ _ PB D2 ltac:(lra) b6 ltac:(sm)). clear b1 b2 b3 b4 b5 b6.
  assert (c1 := approx_times B _ 3 _ _ _ _ _ PB Q3 V3 ltac:(lra) A1 ltac:(sm)).
  assert (c2 := approx_add B _ _ _ _ _ _ _ _ _ _ PB (approx_opp _ _ _ _ _ _ A0) c1 ltac:(sm)).
  assert (c3 := approx_times B _ 3 _ _ _ _ _ PB Q3 V3 ltac:(lra) A2 ltac:(sm)).
  assert (c4 := approx_sub B _ _ _ _ _ _ _ _ _ _ PB c2 c3 ltac:(sm)).
  assert (c5 := approx_add B _ _ _ _ _ _ _ _ _ _ PB c4 A3 ltac:(sm)).
  assert (c := approx_scale B _ _ _ _ _ _ _ _ PB D3 ltac:(lra) c5 ltac:(sm)). clear c1 c2 c3 c4 c5.
  assert (s1 := approx_add B _ _ _ _ _ _ _ _ _ _ PB a b ltac:(sm)).
  assert (s2 := approx_add B _ _ _ _ _ _ _ _ _ _ PB s1 c ltac:(sm)).
  assert (s3 := approx_times B _ (/ 2) _ _ _ _ _ PB Qh Vh ltac:(lra) s2 ltac:(sm)).
  assert (s4 := approx_add B _ _ _ _ _ _ _ _ _ _ PB A1 s3 ltac:(sm)).
  apply approx_weaken with (5 := s4); lra.
Qed.

(** Linear interpolation, along each axis *)
Lemma convex t P N b : 0 <= t <= 1 -> Rabs P <= b -> Rabs N <= b -> Rabs (t * P + (1 - t) * N) <= b.
Proof.
  intros Ht HP HN. apply Rle_trans with (1 := Rabs_triang _ _). rewrite !Rabs_mult, (Rabs_pos_eq t), (Rabs_pos_eq (1 - t)) by lra.
  assert (t * Rabs P <= t * b) by (apply Rmult_le_compat_l; lra). assert ((1 - t) * Rabs N <= (1 - t) * b) by (apply Rmult_le_compat_l; lra). lra.
Qed.

Definition lin_a (M : R) : R := 12 * uu * M + 6 * hh.
Definition lin_err (M : R) (k : nat) : R := INR k * (1 + 12 * uu) ^ k * lin_a M.

Lemma lin_a_pos M : 0 <= M -> 0 <= lin_a M.
Proof. intros H. assert (U := uu_tiny). assert (T := hh_tiny). unfold lin_a. assert (0 <= uu * M) by (apply Rmult_le_pos; lra). lra. Qed.

Lemma lin_err_pos M k : 0 <= M -> 0 <= lin_err M k.
Proof.
  intros H. assert (U := uu_tiny). apply Rmult_le_pos; [apply Rmult_le_pos; [apply pos_INR|apply pow_le; lra]|now apply lin_a_pos].
Qed.

Lemma lin_err_step M k : 0 <= M -> lin_err M k * (1 + 12 * uu) + lin_a M <= lin_err M (S k).
Proof.
  intros H. assert (U := uu_tiny). assert (A := lin_a_pos M H). unfold lin_err. rewrite S_INR. cbn [pow].
  assert (P : 1 <= (1 + 12 * uu) * (1 + 12 * uu) ^ k). { apply (pow_R1_Rle (1 + 12 * uu) (S k)). lra. }
  set (q := (1 + 12 * uu) * (1 + 12 * uu) ^ k) in *. replace (INR k * (1 + 12 * uu) ^ k * lin_a M * (1 + 12 * uu)) with (INR k * q * lin_a M) by (unfold q; ring).
  replace ((INR k + 1) * q * lin_a M) with (INR k * q * lin_a M + q * lin_a M) by ring.
  assert (1 * lin_a M <= q * lin_a M) by (apply Rmult_le_compat_r; lra). lra.
Qed.

Lemma lin_err_mono M k l : 0 <= M -> (k <= l)%nat -> lin_err M k <= lin_err M l.
Proof.
  intros H. induction 1 as [|l _ IH]; [lra|]. assert (S := lin_err_step M l H). assert (P := lin_err_pos M l H). assert (A := lin_a_pos M H).
  assert (U := uu_tiny). assert (0 <= lin_err M l * (12 * uu)) by (apply Rmult_le_pos; lra). lra.
Qed.

Lemma dlinearRec_error get image M rpos : 0 <= M -> Represents get image M -> Forall Inside rpos -> M + lin_err M (length rpos) <= pow2 1000 ->
  forall ind v, dlinearRec get rpos ind = Ok v ->
  fin v = true /\ Rabs (val v - weighted mirrorTaps image (map val rpos) ind) <= lin_err M (length rpos) /\ Rabs (weighted mirrorTaps image (map val rpos) ind) <= M.
Proof.
  intros PM G. induction rpos as [|x rpos IH]; intros Fx L ind v E; [discriminate|]. inversion_clear Fx as [|? ? Ix Fr].
  destruct (dlinearRec_inv get x rpos ind v E) as (f & p & n & EF & Ep & En & ->).
  assert (Lm := lin_err_mono M (length rpos) (length (x :: rpos)) PM ltac:(cbn [length]; lia)).
  assert (K : forall i w, match rpos with [] => get (i :: ind) | _ => dlinearRec get rpos (i :: ind) end = Ok w ->
    fin w = true /\ Rabs (val w - weighted mirrorTaps image (map val rpos) (i :: ind)) <= lin_err M (length rpos) /\ Rabs (weighted mirrorTaps image (map val rpos) (i :: ind)) <= M).
  { intros i w Ew. destruct rpos as [|y r].
    - destruct (G _ _ Ew) as (F & V & B). unfold Finite, real in *. cbn [map weighted length]. split; [exact F|]. split; [|exact B].
      rewrite V, Rminus_eq_0, Rabs_R0. now apply lin_err_pos.
    - apply IH; auto. lra. }
  destruct (K _ _ Ep) as (Fp & Dp & Wp). destruct (K _ _ En) as (Fn & Dn & Wn). clear IH K Ep En E.
  destruct Ix as [Px Nx]. destruct (dfloor_placed x f Px EF) as (Fd & Bd & Bt & Ed & Ff). set (d := dsub x (dofZ f)) in *.
  assert (f = Zfloor (val x)) as Hf.
  { destruct Ff as [Ff|[Neg Ff]]; [exact Ff|]. unfold real in Nx. destruct Nx as [Nx|Nx]; [lra|]. now apply Nx in Ff. }
  clear Ff Nx. cbn [map weighted mirrorTaps length fst snd sumR fold_right]. rewrite <- Hf. rewrite Z.add_0_r, Rplus_0_r.
  set (P := weighted mirrorTaps image (map val rpos) (f :: ind)) in *. set (N := weighted mirrorTaps image (map val rpos) ((f + 1)%Z :: ind)) in *.
  set (t := val x - IZR f) in *. set (e := lin_err M (length rpos)) in *. assert (Pe : 0 <= e) by now apply lin_err_pos.
  assert (Bp : Rabs (val p) <= M + e). { replace (val p) with (P + (val p - P)) by ring. apply Rle_trans with (1 := Rabs_triang _ _). lra. }
  assert (Bn : Rabs (val n) <= M + e). { replace (val n) with (N + (val n - N)) by ring. apply Rle_trans with (1 := Rabs_triang _ _). lra. }
  destruct (dlinear_approx (M + e) d t p n) as (Fv & Ev & _); auto; [lra|split; [exact Fd|]; repeat split; try lra|].
  split; [exact Fv|]. split; [|now apply convex].
  assert (C := convex t (val p - P) (val n - N) e Bt Dp Dn).
  replace (val (dlinear d p n) - (t * P + (1 - t) * N)) with ((val (dlinear d p n) - (t * (val p - val n) + val n)) + (t * (val p - P) + (1 - t) * (val n - N))) by ring.
  apply Rle_trans with (1 := Rabs_triang _ _).
  assert (S := lin_err_step M (length rpos) PM). fold e in S. unfold lin_a in S. cbn [length] in S. lra.
Qed.

Lemma pow_thin n : (Z.of_nat n <= 2 ^ 40)%Z -> (1 + 12 * uu) ^ n <= 2.
Proof.
  intros H. assert (U := uu_tiny). assert (B : INR n * (12 * uu) <= / 2).
  { apply Rle_trans with (pow2 40 * (16 * uu)).
    - apply Rmult_le_compat; [apply pos_INR|lra| |lra]. rewrite INR_IZR_INZ. change (pow2 40) with (IZR (2 ^ 40)). apply IZR_le. exact H.
    - unfold uu. change 16 with (pow2 4). rewrite <- !bpow_plus. change (/ 2) with (pow2 (-1)). apply bpow_le. lia. }
  assert (P := pow_bound (12 * uu) n ltac:(lra) ltac:(lra)).
  assert (Q : INR n * INR n * (12 * uu * (12 * uu)) <= / 2 * / 2).
  { replace (INR n * INR n * (12 * uu * (12 * uu))) with (INR n * (12 * uu) * (INR n * (12 * uu))) by ring.
    assert (0 <= INR n * (12 * uu)) by (apply Rmult_le_pos; [apply pos_INR|lra]). apply Rmult_le_compat; lra. }
  lra.
Qed.

Lemma scaled_u k : (0 <= k)%Z -> bpow radix2 (-53 + k) = IZR (2 ^ k) * uu.
Proof. intros H. rewrite Z.add_comm, bpow_plus. unfold uu. f_equal. symmetry. now apply (IZR_Zpower radix2). Qed.
Lemma scaled_h k : (0 <= k)%Z -> bpow radix2 (-1075 + k) = IZR (2 ^ k) * hh.
Proof. intros H. rewrite Z.add_comm, bpow_plus. unfold hh. f_equal. symmetry. now apply (IZR_Zpower radix2). Qed.

Lemma lin_err_bound M n : 0 <= M -> (Z.of_nat n <= 2 ^ 40)%Z -> lin_err M n <= linearBound n M.
Proof.
  intros PM H. assert (A := lin_a_pos M PM). assert (P := pow_thin n H). unfold lin_err, linearBound.
  assert (U := uu_tiny). assert (T := hh_tiny). rewrite Rmult_assoc. apply Rmult_le_compat_l; [apply pos_INR|].
  apply Rle_trans with (2 * lin_a M); [apply Rmult_le_compat_r; lra|].
  change (-48)%Z with (-53 + 5)%Z. rewrite (scaled_u 5) by lia. change (-1070)%Z with (-1075 + 5)%Z. rewrite (scaled_h 5) by lia.
  change (IZR (2 ^ 5)) with 32. unfold lin_a. assert (0 <= uu * M) by (apply Rmult_le_pos; lra). lra.
Qed.

Lemma linear_fits M n : 0 <= M <= pow2 999 -> (Z.of_nat n <= 2 ^ 40)%Z -> M + linearBound n M <= pow2 1000.
Proof.
  intros PM H. unfold linearBound. assert (B : INR n <= pow2 40). { rewrite INR_IZR_INZ. change (pow2 40) with (IZR (2 ^ 40)). apply IZR_le. exact H. }
  assert (Q : 0 <= pow2 (-48) * M + pow2 (-1070)) by (apply Rplus_le_le_0_compat; [apply Rmult_le_pos; [apply bpow_ge_0|lra]|apply bpow_ge_0]).
  assert (Q' : pow2 (-48) * M + pow2 (-1070) <= pow2 (-48) * pow2 999 + pow2 951).
  { apply Rplus_le_compat; [apply Rmult_le_compat_l; [apply bpow_ge_0|lra]|apply bpow_le; lia]. }
  rewrite <- bpow_plus in Q'. change (-48 + 999)%Z with 951%Z in Q'.
  assert (X : INR n * (pow2 (-48) * M + pow2 (-1070)) <= pow2 40 * (2 * pow2 951)) by (apply Rmult_le_compat; [apply pos_INR|lra|lra|lra]).
  change 2 with (pow2 1) in X. rewrite <- !bpow_plus in X. assert (pow2 (40 + (1 + 951)) <= pow2 999) by (apply bpow_le; lia).
  assert (pow2 1000 = 2 * pow2 999) by (change 2 with (pow2 1); rewrite <- bpow_plus; reflexivity). lra.
Qed.

Theorem linear_accuracy get image M pos v : Represents get image M -> 0 <= M <= bpow radix2 999 -> (Z.of_nat (length pos) <= 2 ^ 40)%Z -> Forall Inside pos ->
  dlinearAt get pos = Ok v -> Finite v /\ Rabs (real v - interpolation mirrorTaps image (map real pos)) <= linearBound (length pos) M.
Proof.
  intros G PM H I E. unfold dlinearAt in E. assert (B := lin_err_bound M (length pos) ltac:(lra) H).
  destruct (dlinearRec_error get image M (rev pos) ltac:(lra) G) with (ind := @nil Z) (v := v) as (F & D & _); auto.
  - apply Forall_rev. exact I.
  - rewrite rev_length. assert (T := linear_fits M (length pos) PM H). lra.
  - rewrite rev_length in D. rewrite map_rev in D. split; [exact F|]. apply Rle_trans with (2 := B). exact D.
Qed.

(** Cubic interpolation *)
Definition cub (t a b c d : R) : R := b + / 2 * (t * (- a + c) + t * t * (2 * a - 5 * b + 4 * c - d) + t * t * t * (- a + 3 * b - 3 * c + d)).

Lemma cub_bound t a b c d e : 0 <= t <= 1 -> Rabs a <= e -> Rabs b <= e -> Rabs c <= e -> Rabs d <= e -> Rabs (cub t a b c d) <= 5 / 4 * e.
Proof.
  intros Ht Ha Hb Hc Hd. assert (Pe : 0 <= e) by (assert (P := Rabs_pos a); lra).
  replace (cub t a b c d) with (- (/ 2 * (t * ((1 - t) * (1 - t)))) * a + / 2 * ((1 - t) * (2 + 2 * t - 3 * (t * t))) * b + / 2 * (t * (1 + 4 * t - 3 * (t * t))) * c + - (/ 2 * (t * t * (1 - t))) * d) by (unfold cub; field).
  assert (tt : t * t <= t) by (rewrite <- (Rmult_1_r t) at 3; apply Rmult_le_compat_l; lra).
  assert (w0 : 0 <= / 2 * (t * ((1 - t) * (1 - t)))) by (repeat apply Rmult_le_pos; lra).
  assert (w1 : 0 <= / 2 * ((1 - t) * (2 + 2 * t - 3 * (t * t)))) by (repeat apply Rmult_le_pos; nra).
  assert (w2 : 0 <= / 2 * (t * (1 + 4 * t - 3 * (t * t)))) by (repeat apply Rmult_le_pos; lra).
  assert (w3 : 0 <= / 2 * (t * t * (1 - t))) by (repeat apply Rmult_le_pos; lra).
  assert (T : forall w x, 0 <= w -> Rabs x <= e -> Rabs (w * x) <= w * e) by (intros w x Pw Px; rewrite Rabs_mult, (Rabs_pos_eq w) by lra; apply Rmult_le_compat_l; lra).
  assert (T' : forall w x, 0 <= w -> Rabs x <= e -> Rabs (- w * x) <= w * e) by (intros w x Pw Px; rewrite Ropp_mult_distr_l_reverse, Rabs_Ropp; now apply T).
  assert (S : / 2 * (t * ((1 - t) * (1 - t))) * e + / 2 * ((1 - t) * (2 + 2 * t - 3 * (t * t))) * e + / 2 * (t * (1 + 4 * t - 3 * (t * t))) * e + / 2 * (t * t * (1 - t)) * e <= 5 / 4 * e).
  { rewrite <- !Rmult_plus_distr_r. apply Rmult_le_compat_r; [exact Pe|]. assert (0 <= (t - / 2) * (t - / 2)) by apply Rle_0_sqr.
    match goal with |- ?l <= _ => replace l with (5 / 4 - (t - / 2) * (t - / 2)) by field end. lra. }
  assert (X0 := T' _ a w0 Ha). assert (X1 := T _ b w1 Hb). assert (X2 := T _ c w2 Hc). assert (X3 := T' _ d w3 Hd).
  assert (Q : forall x y z w, Rabs (x + y + z + w) <= Rabs x + Rabs y + Rabs z + Rabs w).
  { intros. assert (A1 := Rabs_triang (x + y + z) w). assert (A2 := Rabs_triang (x + y) z). assert (A3 := Rabs_triang x y). lra. }
  apply Rle_trans with (1 := Q _ _ _ _). lra.
Qed.

Definition cub_a (M : R) : R := 200 * uu * M + 100 * hh.
Definition cub_err (M : R) (k : nat) : R := INR k * (4 / 3) ^ k * cub_a M.

Lemma cub_a_pos M : 0 <= M -> 0 <= cub_a M.
Proof. intros H. assert (U := uu_tiny). assert (T := hh_tiny). unfold cub_a. assert (0 <= uu * M) by (apply Rmult_le_pos; lra). lra. Qed.

Lemma cub_err_pos M k : 0 <= M -> 0 <= cub_err M k.
Proof. intros H. apply Rmult_le_pos; [apply Rmult_le_pos; [apply pos_INR|apply pow_le; lra]|now apply cub_a_pos]. Qed.

Lemma pow_growth k : 1 <= (5 / 4) ^ k <= (4 / 3) ^ k.
Proof. split; [apply pow_R1_Rle; lra|apply pow_incr; lra]. Qed.

Lemma cub_err_step M k : 0 <= M -> 5 / 4 * cub_err M k + (200 * uu * ((5 / 4) ^ k * M + cub_err M k) + 100 * hh) <= cub_err M (S k).
Proof.
  intros H. assert (U := uu_tiny). assert (T := hh_tiny). assert (A := cub_a_pos M H). assert (P := cub_err_pos M k H).
  assert (E : 5 / 4 * cub_err M k + 200 * uu * cub_err M k <= 4 / 3 * cub_err M k) by (rewrite <- Rmult_plus_distr_r; apply Rmult_le_compat_r; lra).
  assert (G := pow_growth k). assert (X : 200 * uu * ((5 / 4) ^ k * M) + 100 * hh <= (4 / 3) ^ k * cub_a M).
  { unfold cub_a. rewrite Rmult_plus_distr_l. apply Rplus_le_compat.
    - replace (200 * uu * ((5 / 4) ^ k * M)) with ((5 / 4) ^ k * (200 * uu * M)) by ring. apply Rmult_le_compat_r; [|lra]. repeat apply Rmult_le_pos; lra.
    - rewrite <- (Rmult_1_l (100 * hh)) at 1. apply Rmult_le_compat_r; lra. }
  unfold cub_err at 3. rewrite S_INR. cbn [pow]. unfold cub_err in *.
  assert (0 <= (4 / 3) ^ k * cub_a M) by (apply Rmult_le_pos; lra). lra.
Qed.

Lemma cub_err_mono M k l : 0 <= M -> (k <= l)%nat -> cub_err M k <= cub_err M l.
Proof.
  intros H. induction 1 as [|l _ IH]; [lra|]. assert (S := cub_err_step M l H). assert (P := cub_err_pos M l H).
  assert (U := uu_tiny). assert (T := hh_tiny). assert (G := pow_growth l).
  assert (0 <= 200 * uu * ((5 / 4) ^ l * M + cub_err M l)).
  { apply Rmult_le_pos; [lra|]. apply Rplus_le_le_0_compat; [apply Rmult_le_pos; lra|exact P]. }
  lra.
Qed.

Lemma dcubicRec_taps get x rpos ind v : dcubicRec get (x :: rpos) ind = Ok v -> exists f pp p n nn, dfloor x = Ok f /\
  let at_ i := match rpos with [] => get (i :: ind) | _ => dcubicRec get rpos (i :: ind) end in
  at_ (f - 1)%Z = Ok pp /\ at_ f = Ok p /\ at_ (f + 1)%Z = Ok n /\ at_ (f + 2)%Z = Ok nn /\ v = dcubic (dsub x (dofZ f)) pp p n nn.
Proof.
  intros E. set (at_ := fun i => match rpos with [] => get (i :: ind) | _ => dcubicRec get rpos (i :: ind) end).
  assert (E' : (f <- dfloor x ;; pp <- at_ (f - 1)%Z ;; p <- at_ f ;; n <- at_ (f + 1)%Z ;; nn <- at_ (f + 2)%Z ;; Ok (dcubic (dsub x (dofZ f)) pp p n nn)) = Ok v) by exact E.
  destruct (dfloor x) as [f| |]; try discriminate. cbn [bind] in E'. exists f.
  destruct (at_ (f - 1)%Z) as [pp| |] eqn:E1; try discriminate. cbn [bind] in E'. destruct (at_ f) as [p| |] eqn:E2; try discriminate. cbn [bind] in E'.
  destruct (at_ (f + 1)%Z) as [n| |] eqn:E3; try discriminate. cbn [bind] in E'. destruct (at_ (f + 2)%Z) as [nn| |] eqn:E4; try discriminate. cbn [bind] in E'.
  exists pp, p, n, nn. cbv zeta. repeat split; auto. congruence.
Qed.

(** The exact cubic interpolation along the last axis, from the index below the position or, at an integer, from that before. *)
Lemma weighted_cubic image x rpos ind f : f = Zfloor x \/ x = IZR (f + 1) ->
  let W i := weighted cubicTaps image rpos (i :: ind) in weighted cubicTaps image (x :: rpos) ind = cub (x - IZR f) (W (f - 1)%Z) (W f) (W (f + 1)%Z) (W (f + 2)%Z).
Proof.
  intros Hf W. cbn [weighted cubicTaps map fst snd sumR fold_right].
  change (weighted cubicTaps image rpos ((Zfloor x + -1)%Z :: ind)) with (W (Zfloor x + -1)%Z). change (weighted cubicTaps image rpos ((Zfloor x + 0)%Z :: ind)) with (W (Zfloor x + 0)%Z).
  change (weighted cubicTaps image rpos ((Zfloor x + 1)%Z :: ind)) with (W (Zfloor x + 1)%Z). change (weighted cubicTaps image rpos ((Zfloor x + 2)%Z :: ind)) with (W (Zfloor x + 2)%Z).
  clearbody W. rewrite Z.add_0_r. destruct Hf as [Hf|Hf]; rewrite Hf.
  - replace (Zfloor x + -1)%Z with (Zfloor x - 1)%Z by lia. unfold cub. field.
  - rewrite Zfloor_IZR. rewrite Rminus_eq_0. rewrite plus_IZR. replace (IZR f + 1 - IZR f) with 1 by ring. unfold cub. field.
Qed.

Lemma dcubicRec_error get image M rpos : 0 <= M -> Represents get image M -> Forall Placed rpos ->
  (5 / 4) ^ length rpos * M + cub_err M (length rpos) <= pow2 1000 ->
  forall ind v, dcubicRec get rpos ind = Ok v ->
  fin v = true /\ Rabs (val v - weighted cubicTaps image (map val rpos) ind) <= cub_err M (length rpos) /\ Rabs (weighted cubicTaps image (map val rpos) ind) <= (5 / 4) ^ length rpos * M.
Proof.
  intros PM G. induction rpos as [|x rpos IH]; intros Fx L ind v E; [discriminate|]. inversion_clear Fx as [|? ? Px Fr].
  destruct (dcubicRec_taps get x rpos ind v E) as (f & pp & p & n & nn & EF & Epp & Ep & En & Enn & ->).
  assert (Lm := cub_err_mono M (length rpos) (length (x :: rpos)) PM ltac:(cbn [length]; lia)).
  assert (Lg : (5 / 4) ^ length rpos * M <= (5 / 4) ^ length (x :: rpos) * M).
  { apply Rmult_le_compat_r; [exact PM|]. cbn [length pow]. assert (Q := pow_growth (length rpos)). lra. }
  assert (K : forall i w, match rpos with [] => get (i :: ind) | _ => dcubicRec get rpos (i :: ind) end = Ok w ->
    fin w = true /\ Rabs (val w - weighted cubicTaps image (map val rpos) (i :: ind)) <= cub_err M (length rpos) /\ Rabs (weighted cubicTaps image (map val rpos) (i :: ind)) <= (5 / 4) ^ length rpos * M).
  { intros i w Ew. destruct rpos as [|y r].
    - destruct (G _ _ Ew) as (F & V & B). unfold Finite, real in *. cbn [map weighted length pow]. rewrite Rmult_1_l. split; [exact F|]. split; [|exact B].
      rewrite V, Rminus_eq_0, Rabs_R0. now apply cub_err_pos.
    - apply IH; auto. lra. }
  destruct (K _ _ Epp) as (F0 & D0 & W0). destruct (K _ _ Ep) as (F1 & D1 & W1). destruct (K _ _ En) as (F2 & D2 & W2). destruct (K _ _ Enn) as (F3 & D3 & W3).
  clear IH K Epp Ep En Enn E.
  destruct (dfloor_placed x f Px EF) as (Fd & Bd & Bt & Ed & Ff). set (d := dsub x (dofZ f)) in *.
  cbn [map]. rewrite (weighted_cubic image (val x) (map val rpos) ind f ltac:(tauto)). cbv zeta.
  set (P0 := weighted cubicTaps image (map val rpos) ((f - 1)%Z :: ind)) in *. set (P1 := weighted cubicTaps image (map val rpos) (f :: ind)) in *.
  set (P2 := weighted cubicTaps image (map val rpos) ((f + 1)%Z :: ind)) in *. set (P3 := weighted cubicTaps image (map val rpos) ((f + 2)%Z :: ind)) in *.
  set (t := val x - IZR f) in *. set (e := cub_err M (length rpos)) in *. set (B := (5 / 4) ^ length rpos * M) in *. assert (Pe : 0 <= e) by now apply cub_err_pos.
  assert (PB : 0 <= B) by (apply Rmult_le_pos; [|exact PM]; assert (Q := pow_growth (length rpos)); lra).
  assert (T : forall y Y, Rabs (val y - Y) <= e -> Rabs Y <= B -> Rabs (val y) <= B + e).
  { intros y Y D W. replace (val y) with (Y + (val y - Y)) by ring. apply Rle_trans with (1 := Rabs_triang _ _). lra. }
  destruct (dcubic_approx (B + e) d t pp p n nn) as (Fv & Ev & _); eauto; [lra|split; [exact Fd|]; repeat split; try lra|].
  fold (cub t (val pp) (val p) (val n) (val nn)) in Ev.
  split; [exact Fv|]. assert (Gr : (5 / 4) ^ length (x :: rpos) * M = 5 / 4 * B) by (unfold B; cbn [length pow]; ring).
  split; [|rewrite Gr; now apply cub_bound].
  assert (C := cub_bound t (val pp - P0) (val p - P1) (val n - P2) (val nn - P3) e Bt D0 D1 D2 D3).
  replace (val (dcubic d pp p n nn) - cub t P0 P1 P2 P3) with ((val (dcubic d pp p n nn) - cub t (val pp) (val p) (val n) (val nn)) + cub t (val pp - P0) (val p - P1) (val n - P2) (val nn - P3)) by (unfold cub; ring).
  apply Rle_trans with (1 := Rabs_triang _ _).
  assert (S := cub_err_step M (length rpos) PM). fold e B in S. cbn [length] in *. lra.
Qed.

Lemma cub_err_bound M n : 0 <= M -> cub_err M n <= cubicBound n M.
Proof.
  intros PM. unfold cub_err, cubicBound. assert (U := uu_tiny). assert (T := hh_tiny). apply Rmult_le_compat_l; [apply Rmult_le_pos; [apply pos_INR|apply pow_le; lra]|].
  change (-45)%Z with (-53 + 8)%Z. rewrite (scaled_u 8) by lia. change (-1068)%Z with (-1075 + 7)%Z. rewrite (scaled_h 7) by lia.
  change (IZR (2 ^ 8)) with 256. change (IZR (2 ^ 7)) with 128. unfold cub_a. assert (0 <= uu * M) by (apply Rmult_le_pos; lra). lra.
Qed.

Theorem cubic_accuracy get image M pos v : Represents get image M -> 0 <= M -> (5 / 4) ^ length pos * M + cubicBound (length pos) M <= bpow radix2 1000 -> Forall Placed pos ->
  dcubicAt get pos = Ok v -> Finite v /\ Rabs (real v - interpolation cubicTaps image (map real pos)) <= cubicBound (length pos) M.
Proof.
  intros G PM H I E. unfold dcubicAt in E. assert (B := cub_err_bound M (length pos) PM).
  destruct (dcubicRec_error get image M (rev pos) PM G) with (ind := @nil Z) (v := v) as (F & D & _); auto.
  - apply Forall_rev. exact I.
  - rewrite rev_length. lra.
  - rewrite rev_length in D. rewrite map_rev in D. split; [exact F|]. apply Rle_trans with (2 := B). exact D.
Qed.

(** Affine images *)
Lemma affineR_shift a s : forall x b, affineR (a + b) s x = affineR a s x + b.
Proof. revert a. induction s as [|c s IH]; intros a x b; destruct x as [|y x]; cbn [affineR]; try ring. replace (a + b + c * y) with (a + c * y + b) by ring. apply IH. Qed.

Lemma affineR_at a s l r : exists A c, forall y, affineR a s (l ++ y :: r) = A + c * y.
Proof.
  revert a s. induction l as [|z l IH]; intros a s; destruct s as [|c s]; cbn [app affineR].
  - exists a, 0. intros. ring.
  - exists (affineR a s r), c. intros y. apply affineR_shift.
  - exists a, 0. intros. ring.
  - destruct (IH (a + c * z) s) as (A & d & H). exists A, d. exact H.
Qed.

Lemma weighted_affine a s rpos : forall ind, weighted cubicTaps (fun q => affineR a s (map IZR q)) rpos ind = affineR a s (rev rpos ++ map IZR ind).
Proof.
  induction rpos as [|x rpos IH]; intros ind; [reflexivity|]. cbn [weighted cubicTaps map fst snd sumR fold_right rev]. rewrite !IH. cbn [map].
  rewrite <- app_assoc. cbn [app]. destruct (affineR_at a s (rev rpos) (map IZR ind)) as (A & c & H). rewrite !H. rewrite !plus_IZR. field.
Qed.

Theorem cubic_affine get a s M pos v : Represents get (fun q => affineR a s (map IZR q)) M -> 0 <= M -> (5 / 4) ^ length pos * M + cubicBound (length pos) M <= bpow radix2 1000 ->
  Forall Placed pos -> dcubicAt get pos = Ok v -> Finite v /\ Rabs (real v - affineR a s (map real pos)) <= cubicBound (length pos) M.
Proof.
  intros G PM H I E. destruct (cubic_accuracy get _ M pos v G PM H I E) as [F D]. split; [exact F|].
  unfold interpolation in D. rewrite weighted_affine, rev_involutive, app_nil_r in D. exact D.
Qed.

(** Counterexamples *)
Lemma ramp_represents lo hi M : (- 2 ^ 53 <= lo)%Z -> (hi <= 2 ^ 53)%Z -> Rabs (IZR lo) <= M -> Rabs (IZR hi) <= M -> Represents (rampAt lo hi) ramp M.
Proof.
  intros Hl Hh Ml Mh i w. unfold rampAt, ramp. destruct (_ && _)%bool eqn:C; [|discriminate]. intros [= <-].
  destruct (dofZ_small (hd 0%Z i) ltac:(lia)) as [V F]. split; [exact F|]. split; [exact V|].
  assert (IZR lo <= IZR (hd 0%Z i) <= IZR hi) by (split; apply IZR_le; lia). apply Rabs_le. assert (A := Rabs_le_inv _ _ Ml). assert (B := Rabs_le_inv _ _ Mh). lra.
Qed.

Lemma step_represents k : Represents (stepAt k) (stepR k) 1.
Proof.
  intros i w. unfold stepAt, stepR. intros [= <-]. destruct (_ <? _)%Z; [destruct (dofZ_small 0 ltac:(lia)) as [V F]|destruct (dofZ_small 1 ltac:(lia)) as [V F]]; (split; [exact F|]); (split; [exact V|]);
    [rewrite Rabs_R0; lra|rewrite Rabs_R1; lra].
Qed.

Lemma floor_at x k : IZR k <= x < IZR k + 1 -> Zfloor x = k.
Proof. intros H. apply Zfloor_imp. rewrite plus_IZR. exact H. Qed.

Lemma value_of (x : double) z : B2SF x = B2SF (dofZ z) -> (Z.abs z <= 2 ^ 53)%Z -> fin x = true /\ val x = IZR z.
Proof.
  intros E H. destruct (dofZ_small z H) as [V F]. rewrite <- V. destruct x, (dofZ z); try discriminate; cbn in *; split; auto; congruence.
Qed.

Lemma quarters m : (Z.abs m < 2 ^ 53)%Z -> fin (dlit m (-2)) = true /\ val (dlit m (-2)) = IZR m / 4.
Proof. intros H. destruct (dlit_exact m (-2) H ltac:(lia)) as [F V]. split; [exact F|]. rewrite V. change (pow2 (-2)) with (/ 4). reflexivity. Qed.

Theorem linear_far : exists x v, Inside x /\ Represents (rampAt 0 1) ramp 1 /\ dlinearAt (rampAt 0 1) [x] = Ok v /\ Finite v /\ / 2 <= Rabs (real v - interpolation linearTaps ramp [real x]).
Proof.
  destruct (quarters 1 ltac:(lia)) as [Fx V]. destruct (quarters 3 ltac:(lia)) as [Fv Vv]. 
  assert (E : exists v, dlinearAt (rampAt 0 1) [dlit 1 (-2)] = Ok v /\ B2SF v = B2SF (dlit 3 (-2))) by (eexists; split; [reflexivity|vm_compute; reflexivity]).
  destruct E as (v & E & S). apply same_value in S. rewrite Vv in S.
  exists (dlit 1 (-2)), v. split; [split; [split; [exact Fx|unfold real; rewrite V; assert (P := bpow_gt_0 radix2 52); lra]|left; unfold real; rewrite V; lra]|].
  assert (G : Represents (rampAt 0 1) ramp 1) by (apply ramp_represents; try lia; unfold Rabs; repeat destruct Rcase_abs; lra).
  split; [exact G|]. split; [exact E|]. unfold Finite, real. rewrite V, S.
  split.
  { destruct (linear_accuracy (rampAt 0 1) ramp 1 [dlit 1 (-2)] v G) as [F _]; auto.
    - split; [lra|]. change 1 with (pow2 0). apply bpow_le. lia.
    - cbn; lia.
    - apply Forall_cons; [|constructor]. split; [split; [exact Fx|unfold real; rewrite V; assert (P := bpow_gt_0 radix2 52); lra]|left; unfold real; rewrite V; lra]. }
  unfold interpolation. cbn [rev app weighted linearTaps map sumR fold_right fst snd ramp hd]. rewrite (floor_at (1 / 4) 0) by lra. cbn [Z.add]. unfold ramp. cbn [hd].
  rewrite Rabs_pos_eq; lra.
Qed.

Theorem linear_negative_far : exists x v, Placed x /\ real x = -1 /\ Represents (rampAt (-2) 0) ramp 2 /\ dlinearAt (rampAt (-2) 0) [x] = Ok v /\ Finite v /\
  1 <= Rabs (real v - interpolation linearTaps ramp [real x]) /\ 1 <= Rabs (real v - interpolation mirrorTaps ramp [real x]).
Proof.
  destruct (dofZ_small (-1) ltac:(lia)) as [V Fx]. 
  assert (E : exists v, dlinearAt (rampAt (-2) 0) [dofZ (-1)] = Ok v /\ B2SF v = B2SF (dofZ (-2))) by (eexists; split; [reflexivity|vm_compute; reflexivity]).
  destruct E as (v & E & S). apply value_of in S; [|lia]. destruct S as [Fv Vv].
  exists (dofZ (-1)), v. unfold Placed, Finite, real. rewrite V, Vv. split; [split; [exact Fx|]|].
  { assert (pow2 1 <= pow2 52) by (apply bpow_le; lia). change (pow2 1) with 2 in H. lra. }
  split; [reflexivity|]. split; [apply ramp_represents; try lia; unfold Rabs; repeat destruct Rcase_abs; lra|]. split; [exact E|]. split; [exact Fv|].
  unfold interpolation. cbn [rev app weighted linearTaps mirrorTaps map sumR fold_right fst snd hd]. rewrite (floor_at (-1) (-1)) by lra. cbn [Z.add Z.pos_sub]. unfold ramp. cbn [hd].
  split; unfold Rabs; destruct Rcase_abs; lra.
Qed.

Theorem cubic_far : exists x v, Finite x /\ real x = IZR (- 2 ^ 53) /\ Represents (stepAt (- 2 ^ 53)) (stepR (- 2 ^ 53)) 1 /\ dcubicAt (stepAt (- 2 ^ 53)) [x] = Ok v /\ Finite v /\
  Rabs (real v - interpolation cubicTaps (stepR (- 2 ^ 53)) [real x]) = 1.
Proof.
  destruct (dofZ_small (- 2 ^ 53) ltac:(lia)) as [V Fx].
  assert (E : exists v, dcubicAt (stepAt (- 2 ^ 53)) [dofZ (- 2 ^ 53)] = Ok v /\ B2SF v = B2SF (dofZ 0)) by (eexists; split; [reflexivity|vm_compute; reflexivity]).
  destruct E as (v & E & S). apply value_of in S; [|lia]. destruct S as [Fv Vv].
  exists (dofZ (- 2 ^ 53)), v. split; [exact Fx|]. split; [exact V|]. split; [apply step_represents|]. split; [exact E|]. split; [exact Fv|].
  unfold real. rewrite V, Vv. unfold interpolation. cbn [rev app weighted cubicTaps map sumR fold_right fst snd]. rewrite Zfloor_IZR, Rminus_eq_0.
  assert (Sk : forall j, stepR (- 2 ^ 53) [(- 2 ^ 53 + j)%Z] = if (j <? 0)%Z then 0 else 1).
  { intros j. unfold stepR. cbn [hd]. destruct (Z.ltb_spec (- 2 ^ 53 + j) (- 2 ^ 53)), (Z.ltb_spec j 0); auto; lia. }
  rewrite !Sk. cbn [Z.ltb Z.compare]. replace (0 - _) with (-1) by field. unfold Rabs; destruct Rcase_abs; lra.
Qed.

(** Cases which meet the hypotheses *)
Lemma quarter_placed m : (Z.abs m < 2 ^ 53)%Z -> Placed (dlit m (-2)).
Proof.
  intros H. destruct (quarters m H) as [F V]. split; [exact F|]. unfold real. rewrite V. change (pow2 52) with (IZR (2 ^ 52)).
  assert (IZR (- 2 ^ 53) < IZR m) by (apply IZR_lt; lia). rewrite opp_IZR in H0. change (IZR (2 ^ 53)) with (2 * IZR (2 ^ 52)) in H0 || idtac.
  assert (IZR (2 ^ 53) = 2 * IZR (2 ^ 52)) by (rewrite <- mult_IZR; reflexivity). assert (0 < IZR (2 ^ 52)) by (apply IZR_lt; lia). lra.
Qed.

Lemma quarter_inside m : (Z.abs m < 2 ^ 53)%Z -> (0 <= m \/ m mod 4 <> 0)%Z -> Inside (dlit m (-2)).
Proof.
  intros H C. split; [now apply quarter_placed|]. destruct (quarters m H) as [F V]. unfold real. rewrite V. destruct C as [C|C].
  - left. apply IZR_le in C. lra.
  - right. intros z E. apply C. assert (IZR m = IZR (4 * z)) by (rewrite mult_IZR; lra). apply eq_IZR in H0. subst m. rewrite Z.mul_comm. apply Z_mod_mult.
Qed.

Lemma small_power z e : (0 <= e)%Z -> (z <= 2 ^ e)%Z -> IZR z <= pow2 e.
Proof. intros He Hz. rewrite <- (IZR_Zpower radix2) by exact He. now apply IZR_le. Qed.

Lemma cubic_met : let pos := [dlit 5 (-2); dlit (-8) (-2)] in
  Represents (rampAt (-4) 5) ramp 5 /\ (5 / 4) ^ length pos * 5 + cubicBound (length pos) 5 <= pow2 1000 /\ Forall Placed pos.
Proof.
  cbv zeta. split; [apply ramp_represents; try lia; unfold Rabs; repeat destruct Rcase_abs; lra|]. split.
  - unfold cubicBound. cbn [length pow INR]. assert (pow2 (-45) <= 1) by (change 1 with (pow2 0); apply bpow_le; lia). assert (pow2 (-1068) <= 1) by (change 1 with (pow2 0); apply bpow_le; lia).
    assert (B := small_power 100 1000 ltac:(lia) ltac:(apply Z.le_trans with (2 ^ 7)%Z; [lia|apply Z.pow_le_mono_r; lia])). lra.
  - repeat (apply Forall_cons; [apply quarter_placed; lia|]). constructor.
Qed.
