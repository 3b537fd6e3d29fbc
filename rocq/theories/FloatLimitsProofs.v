(** Proofs about the limits of floating-point types. *)
From Coq Require Import Reals Lra.
From Flocq Require Import Core IEEE754.BinarySingleNaN.
From Verif Require Import Res FloatLimitsModel FloatLimitsSpec.
Open Scope R_scope.

Section Format.
Variables prec emax : Z.
Context (hp : FLX.Prec_gt_0 prec) (hm : Prec_lt_emax prec emax).
Hypothesis two : (2 <= prec)%Z.
Local Existing Instance hp.
Local Existing Instance hm.
Notation float := (binary_float prec emax).
Notation fexp := (SpecFloat.fexp prec emax).
Notation rnd := (round radix2 fexp ZnearestE).
Notation pow2 := (bpow radix2).
Notation largest := (pow2 emax - pow2 (emax - prec)).

Lemma order : (2 <= prec)%Z /\ (prec < emax)%Z.
Proof. split; [exact two|exact hm]. Qed.
Local Instance valid_exp : Valid_exp fexp.
Proof. apply (fexp_correct prec emax). exact hp. Qed.

Lemma format_F2R m e : (Z.abs m <= 2 ^ prec)%Z -> (3 - emax - prec <= e)%Z -> generic_format radix2 fexp (IZR m * pow2 e).
Proof.
  assert (O := order). intros Hm He. destruct (Z.eq_dec (Z.abs m) (2 ^ prec)) as [E|E].
  - assert (H : generic_format radix2 fexp (pow2 (prec + e))).
    { apply (generic_format_FLT_bpow radix2 (3 - emax - prec) prec). lia. }
    assert (V : pow2 (prec + e) = IZR (2 ^ prec) * pow2 e) by (rewrite bpow_plus; f_equal; symmetry; apply (IZR_Zpower radix2); lia).
    rewrite V in H. destruct (Z.abs_eq_or_opp m) as [A|A]; rewrite A in E.
    + now rewrite E.
    + apply generic_format_opp in H. replace m with (- 2 ^ prec)%Z by lia. rewrite opp_IZR, Ropp_mult_distr_l_reverse. exact H.
  - apply (generic_format_FLT radix2 (3 - emax - prec) prec). exists (Float radix2 m e); cbn [Fnum Fexp]; [reflexivity| |lia].
    change (radix2 ^ prec)%Z with (2 ^ prec)%Z. lia.
Qed.

Lemma rnd_id x : generic_format radix2 fexp x -> rnd x = x.
Proof. intros H. apply round_generic; [apply valid_rnd_N|exact H]. Qed.

Lemma lt_true a b : a < b -> Rlt_bool a b = true.
Proof. intros H. now apply Rlt_bool_true. Qed.

Lemma normalize_ok m e : (Z.abs m <= 2 ^ prec)%Z -> (3 - emax - prec <= e)%Z -> Rabs (IZR m * pow2 e) < pow2 emax ->
  is_finite (binary_normalize prec emax hp hm mode_NE m e false) = true /\ B2R (binary_normalize prec emax hp hm mode_NE m e false) = IZR m * pow2 e.
Proof.
  intros Hm He B. assert (C := binary_normalize_correct prec emax hp hm mode_NE m e false). cbv zeta in C. cbn [round_mode] in C.
  change (F2R (Float radix2 m e)) with (IZR m * pow2 e) in C. rewrite rnd_id in C by now apply format_F2R. rewrite (lt_true _ _ B) in C. tauto.
Qed.

Lemma pow_order a b : (a <= b)%Z -> pow2 a <= pow2 b.
Proof. apply bpow_le. Qed.

Lemma four_le : (4 <= 2 ^ prec)%Z.
Proof. assert (O := order). change 4%Z with (2 ^ 2)%Z. apply Z.pow_le_mono_r; lia. Qed.

Lemma ofInt_ok z : (0 <= z <= 2)%Z -> is_finite (ofInt prec emax hp hm z) = true /\ B2R (ofInt prec emax hp hm z) = IZR z.
Proof.
  intros Hz. assert (O := order). assert (Q := four_le). destruct (normalize_ok z 0) as [F V]; [lia|lia| |].
  - change (pow2 0) with 1. rewrite Rmult_1_r, Rabs_pos_eq by (apply IZR_le; lia). apply Rle_lt_trans with 2; [apply IZR_le; lia|]. change 2 with (pow2 1). apply bpow_lt. lia.
  - split; [exact F|]. unfold ofInt. rewrite V. change (pow2 0) with 1. ring.
Qed.

Lemma eps_ok : is_finite (flEps prec emax hp hm) = true /\ B2R (flEps prec emax hp hm) = pow2 (1 - prec).
Proof.
  assert (O := order). assert (Q := four_le). destruct (normalize_ok 1 (1 - prec)) as [F V]; [lia|lia| |].
  - rewrite Rmult_1_l, Rabs_pos_eq by apply bpow_ge_0. apply bpow_lt. lia.
  - split; [exact F|]. unfold flEps, stdEps. rewrite V. ring.
Qed.

Lemma largest_F2R : largest = IZR (2 ^ prec - 1) * pow2 (emax - prec).
Proof.
  assert (O := order). rewrite minus_IZR. rewrite (IZR_Zpower radix2) by lia. rewrite Rmult_minus_distr_r, Rmult_1_l, <- bpow_plus. f_equal. f_equal. lia.
Qed.

Lemma max_ok : is_finite (flMax prec emax hp hm) = true /\ B2R (flMax prec emax hp hm) = largest.
Proof.
  assert (O := order). unfold flMax, stdMax, Bmax_float. split; [now rewrite is_finite_SF2B|]. rewrite B2R_SF2B, largest_F2R. cbn [SF2R]. unfold F2R. cbn [Fnum Fexp SpecFloat.cond_Zopp].
  f_equal. f_equal. rewrite Pos2Z.inj_sub.
  - rewrite shift_pos_correct, Z.mul_1_r, Z.pow_pos_fold, Z2Pos.id by lia. reflexivity.
  - change (Z.pos 1 < Z.pos (shift_pos (Z.to_pos prec) 1))%Z. rewrite shift_pos_correct, Z.mul_1_r, Z.pow_pos_fold, Z2Pos.id by lia. assert (Q := four_le). lia.
Qed.

Lemma min_ok : is_finite (flMin prec emax hp hm) = true /\ B2R (flMin prec emax hp hm) = - largest.
Proof.
  destruct max_ok as [F V]. unfold flMin, stdLowest. rewrite is_finite_Bopp, B2R_Bopp. unfold flMax in *. now rewrite V.
Qed.

Theorem limits_bounds : let lo := flMin prec emax hp hm in let hi := flMax prec emax hp hm in is_finite lo = true /\ is_finite hi = true /\
  (forall x : float, is_finite x = true -> B2R lo <= B2R x <= B2R hi) /\ flInf prec emax hp hm = B754_infinity false /\
  B2R (flZero prec emax hp hm) = 0 /\ B2R (flOne prec emax hp hm) = 1.
Proof.
  cbv zeta. destruct max_ok as [Fm Vm]. destruct min_ok as [Fn Vn]. split; [exact Fn|]. split; [exact Fm|]. split; [|split; [|split]].
  - intros x Fx. assert (B := abs_B2R_le_emax_minus_prec prec emax hp x). apply Rabs_le_inv in B. lra.
  - unfold flInf. destruct (ofInt_ok 0 ltac:(lia)) as [F0 V0]. unfold stdInf. destruct (ofInt prec emax hp hm 0) as [s| | |s m e B]; try discriminate F0; reflexivity.
  - apply ofInt_ok. lia.
  - apply ofInt_ok. lia.
Qed.

Lemma largest_pos : 0 < largest < pow2 emax.
Proof. assert (O := order). assert (pow2 (emax - prec) < pow2 emax) by (apply bpow_lt; lia). assert (P := bpow_gt_0 radix2 (emax - prec)). lra. Qed.

Lemma half_format : generic_format radix2 fexp (largest / 2).
Proof.
  assert (O := order). rewrite largest_F2R. replace (IZR (2 ^ prec - 1) * pow2 (emax - prec) / 2) with (IZR (2 ^ prec - 1) * pow2 (emax - prec + -1)) by (rewrite bpow_plus; change (pow2 (-1)) with (/ 2); field).
  apply format_F2R; [|lia]. assert (Q := four_le). lia.
Qed.

Theorem limits_half : let a := flHalfMin prec emax hp hm in let b := flHalfMax prec emax hp hm in is_finite a = true /\ is_finite b = true /\
  2 * B2R a = B2R (flMin prec emax hp hm) /\ 2 * B2R b = B2R (flMax prec emax hp hm).
Proof.
  cbv zeta. destruct max_ok as [Fm Vm]. destruct min_ok as [Fn Vn]. destruct (ofInt_ok 2 ltac:(lia)) as [F2 V2]. destruct (ofInt_ok 0 ltac:(lia)) as [F0 V0]. assert (L := largest_pos). assert (HF := half_format).
  assert (D := Bdiv_correct prec emax hp hm mode_NE (flMin prec emax hp hm) (ofInt prec emax hp hm 2)). rewrite V2, Vn in D. specialize (D ltac:(lra)). cbn [round_mode] in D.
  replace (- largest / 2) with (- (largest / 2)) in D by field. rewrite rnd_id in D by now apply generic_format_opp. rewrite lt_true in D by (rewrite Rabs_Ropp, Rabs_pos_eq; lra). destruct D as (D & FD & _).
  assert (E := Bdiv_correct prec emax hp hm mode_NE (flMax prec emax hp hm) (ofInt prec emax hp hm 2)). rewrite V2, Vm in E. specialize (E ltac:(lra)). cbn [round_mode] in E.
  rewrite rnd_id in E by exact HF. rewrite lt_true in E by (rewrite Rabs_pos_eq; lra). destruct E as (E & FE & _). rewrite Fm in FE.
  assert (P := Bplus_correct prec emax hp hm mode_NE _ _ FE F0). rewrite E, V0, Rplus_0_r in P. cbn [round_mode] in P. rewrite rnd_id in P by exact HF. rewrite lt_true in P by (rewrite Rabs_pos_eq; lra).
  destruct P as (P & FP & _). unfold flHalfMin, flHalfMax. rewrite D, P, Vn, Vm. split; [rewrite FD; exact Fn|]. split; [exact FP|]. split; field.
Qed.

Theorem uniform_parameters : UniformParameters (flHalfMin prec emax hp hm) (flHalfMax prec emax hp hm) (B2R (flMax prec emax hp hm)).
Proof.
  destruct limits_half as (Fa & Fb & Ha & Hb). destruct max_ok as [Fm Vm]. destruct min_ok as [Fn Vn]. assert (L := largest_pos). unfold UniformParameters. split; [exact Fa|]. split; [exact Fb|]. lra.
Qed.

Theorem uniform_noise (x d : float) : is_finite x = true -> is_finite d = true ->
  B2R (flHalfMin prec emax hp hm) <= B2R x <= B2R (flHalfMax prec emax hp hm) -> B2R (flHalfMin prec emax hp hm) <= B2R d <= B2R (flHalfMax prec emax hp hm) ->
  is_finite (flAdd prec emax hp hm x d) = true /\ B2R (flAdd prec emax hp hm x d) = rnd (B2R x + B2R d).
Proof.
  intros Fx Fd Bx Bd. destruct limits_half as (Fa & Fb & Ha & Hb). destruct max_ok as [Fm Vm]. destruct min_ok as [Fn Vn]. assert (L := largest_pos).
  assert (P := Bplus_correct prec emax hp hm mode_NE x d Fx Fd). cbn [round_mode] in P. rewrite lt_true in P; [unfold flAdd; tauto|].
  apply Rle_lt_trans with largest; [|lra]. apply abs_round_le_generic; [apply valid_exp|apply valid_rnd_N| |apply Rabs_le; lra].
  rewrite <- Vm. apply generic_format_B2R.
Qed.

(** The neighbours of the largest value are far more than epsilon apart. *)
Lemma near_largest f : generic_format radix2 fexp f -> largest - 2 * pow2 (1 - prec) <= f -> f < largest -> False.
Proof.
  intros Ff L H. assert (O := order).
  assert (M : mag radix2 largest = emax :> Z).
  { apply mag_unique. assert (LP := largest_pos). rewrite Rabs_pos_eq by lra. split; [|lra].
    assert (pow2 emax = 2 * pow2 (emax - 1)) by (change 2 with (pow2 1); rewrite <- bpow_plus; f_equal; lia).
    assert (pow2 (emax - prec) <= pow2 (emax - 1)) by (apply bpow_le; lia). lra. }
  assert (FL : generic_format radix2 fexp largest). { destruct max_ok as [_ V]. rewrite <- V. apply generic_format_B2R. }
  assert (G := pred_ge_gt radix2 fexp f largest Ff FL H). assert (LP := largest_pos). 
  assert (U : ulp radix2 fexp largest = pow2 (emax - prec)).
  { rewrite ulp_neq_0 by lra. f_equal. unfold cexp. rewrite M. unfold SpecFloat.fexp, SpecFloat.emin. lia. }
  assert (Pd : pred radix2 fexp largest <= largest - ulp radix2 fexp largest).
  { assert (N : largest <> pow2 (mag radix2 largest - 1)).
    { rewrite M. assert (pow2 emax = 2 * pow2 (emax - 1)) by (change 2 with (pow2 1); rewrite <- bpow_plus; f_equal; lia).
      assert (pow2 (emax - prec) < pow2 (emax - 1)) by (apply bpow_lt; lia). lra. }
    rewrite pred_eq_pos by lra. unfold pred_pos. rewrite Req_bool_false by exact N. lra. }
  rewrite U in Pd. assert (2 * pow2 (1 - prec) < pow2 (emax - prec)).
  { change 2 with (pow2 1). rewrite <- bpow_plus. apply bpow_lt. lia. }
  lra.
Qed.

Lemma absorbed x : generic_format radix2 fexp x -> x = largest -> rnd (x - pow2 (1 - prec)) = x.
Proof.
  intros Fx E. assert (P := bpow_gt_0 radix2 (1 - prec)). set (f := rnd (x - pow2 (1 - prec))).
  assert (Ff : generic_format radix2 fexp f) by (apply generic_format_round; [apply valid_exp|apply valid_rnd_N]).
  assert (U : f <= x). { unfold f. rewrite <- (rnd_id x Fx) at 2. apply round_le; [apply valid_exp|apply valid_rnd_N|lra]. }
  assert (N := proj2 (round_N_pt radix2 fexp (fun z => negb (Z.even z)) (x - pow2 (1 - prec))) x Fx). fold f in N.
  replace (x - (x - pow2 (1 - prec))) with (pow2 (1 - prec)) in N by ring. rewrite (Rabs_pos_eq (pow2 (1 - prec))) in N by lra. apply Rabs_le_inv in N.
  destruct (Rle_lt_or_eq_dec _ _ U) as [S|S]; [|exact S]. exfalso. rewrite E in *. apply (near_largest f Ff); lra.
Qed.

Theorem limits_almost : B2R (flAlmostMin prec emax hp hm) = B2R (flMin prec emax hp hm) /\ B2R (flAlmostMax prec emax hp hm) = B2R (flMax prec emax hp hm) /\
  0 < B2R (flEps prec emax hp hm).
Proof.
  destruct max_ok as [Fm Vm]. destruct min_ok as [Fn Vn]. destruct eps_ok as [Fe Ve]. assert (L := largest_pos). assert (P := bpow_gt_0 radix2 (1 - prec)).
  assert (FL : generic_format radix2 fexp largest) by (rewrite <- Vm; apply generic_format_B2R). assert (A := absorbed largest FL eq_refl).
  split; [|split].
  - assert (C := Bplus_correct prec emax hp hm mode_NE _ _ Fn Fe). rewrite Vn, Ve in C. cbn [round_mode] in C.
    replace (- largest + pow2 (1 - prec)) with (- (largest - pow2 (1 - prec))) in C by ring. rewrite round_NE_opp, A in C. rewrite lt_true in C by (rewrite Rabs_Ropp, Rabs_pos_eq; lra).
    unfold flAlmostMin. rewrite Vn. tauto.
  - assert (C := Bminus_correct prec emax hp hm mode_NE _ _ Fm Fe). rewrite Vm, Ve in C. cbn [round_mode] in C. rewrite A in C. rewrite lt_true in C by (rewrite Rabs_pos_eq; lra).
    unfold flAlmostMax. rewrite Vm. tauto.
  - rewrite Ve. exact P.
Qed.

(** Epsilon *)
Theorem epsilon_one : exists y : float, Consecutive (flOne prec emax hp hm) y /\ B2R y - B2R (flOne prec emax hp hm) = B2R (flEps prec emax hp hm).
Proof.
  assert (O := order). destruct (ofInt_ok 1 ltac:(lia)) as [F1 V1]. destruct eps_ok as [Fe Ve]. assert (Q := four_le).
  assert (P1 : pow2 (prec - 1) = IZR (2 ^ (prec - 1))) by (symmetry; apply (IZR_Zpower radix2); lia).
  assert (Hp : (2 ^ prec = 2 * 2 ^ (prec - 1))%Z) by (rewrite <- Z.pow_succ_r by lia; f_equal; lia).
  assert (One : pow2 (prec - 1) * pow2 (1 - prec) = 1) by (rewrite <- bpow_plus; replace (prec - 1 + (1 - prec))%Z with 0%Z by lia; reflexivity).
  assert (Small : pow2 (1 - prec) < 1) by (change 1 with (pow2 0); apply bpow_lt; lia).
  assert (V : IZR (2 ^ (prec - 1) + 1) * pow2 (1 - prec) = 1 + pow2 (1 - prec)) by (rewrite plus_IZR, <- P1, Rmult_plus_distr_r, One; ring).
  assert (Y : 1 + pow2 (1 - prec) < pow2 emax). { apply Rlt_le_trans with (pow2 1); [change (pow2 1) with 2; lra|]. apply bpow_le. lia. }
  assert (B0 := bpow_gt_0 radix2 (1 - prec)).
  destruct (normalize_ok (2 ^ (prec - 1) + 1) (1 - prec)) as [Fy Vy]; [lia|lia|rewrite V, Rabs_pos_eq; lra|].
  exists (binary_normalize prec emax hp hm mode_NE (2 ^ (prec - 1) + 1) (1 - prec) false). rewrite V in Vy. unfold Consecutive, flOne. rewrite Vy, V1, Ve. split; [|ring].
  split; [exact F1|]. split; [exact Fy|]. split; [lra|]. intros z Fz. destruct (Rle_or_lt (B2R z) 1) as [L|L]; [now left|right].
  assert (FO : generic_format radix2 fexp 1) by (rewrite <- V1; apply generic_format_B2R).
  assert (G := succ_le_lt radix2 fexp 1 (B2R z) FO (generic_format_B2R prec emax z) L). rewrite succ_eq_pos in G by lra.
  assert (U : ulp radix2 fexp 1 = pow2 (1 - prec)).
  { rewrite ulp_neq_0 by lra. f_equal. unfold cexp. replace 1 with (pow2 0) by reflexivity. rewrite mag_bpow. unfold SpecFloat.fexp, SpecFloat.emin. lia. }
  rewrite U in G. exact G.
Qed.

Theorem epsilon_zero : exists x y : float, Consecutive x y /\ B2R y - B2R x < B2R (flEps prec emax hp hm).
Proof.
  assert (O := order). destruct (ofInt_ok 0 ltac:(lia)) as [F0 V0]. destruct eps_ok as [Fe Ve]. assert (Q := four_le).
  destruct (normalize_ok 1 (3 - emax - prec)) as [Fy Vy]; [lia|lia|rewrite Rmult_1_l, Rabs_pos_eq by apply bpow_ge_0; apply bpow_lt; lia|]. rewrite Rmult_1_l in Vy.
  exists (ofInt prec emax hp hm 0), (binary_normalize prec emax hp hm mode_NE 1 (3 - emax - prec) false). unfold Consecutive. rewrite Vy, V0, Ve. split.
  - split; [exact F0|]. split; [exact Fy|]. split; [apply bpow_gt_0|]. intros z Fz. destruct (Rle_or_lt (B2R z) 0) as [L|L]; [now left|right].
    assert (G := generic_format_ge_bpow radix2 fexp (3 - emax - prec)%Z). apply G; [|exact L|apply generic_format_B2R].
    intros e. unfold SpecFloat.fexp, SpecFloat.emin. lia.
  - rewrite Rminus_0_r. apply bpow_lt. lia.
Qed.
End Format.
