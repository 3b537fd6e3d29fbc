(** Proofs of the conversion of colors in double precision. *)
From Coq Require Import Reals Lra Psatz QArith Qreals.
From Flocq Require Import Core IEEE754.BinarySingleNaN.
From Verif Require Import Res FloatModel QuantileModel HsvModel ChannelModel ChannelSpec FloatSpec FloatKernelSpec FloatProofs QuantileProofs FloatKernelProofs FloatSumProofs MathProofs AccuracyProofs.
Local Existing Instance hprec.
Local Existing Instance hmax.
Local Existing Instance valid64.
Open Scope R_scope.

Notation u := (pow2 (-53)).

Lemma u_small : 0 < u <= / 1000000000000000.
Proof. split; [apply bpow_gt_0|]. cbn -[Rinv]. apply Rinv_le; lra. Qed.

Lemma tiny : pow2 (-1075) <= u.
Proof. apply bpow_le. lia. Qed.

Lemma rnd_near x X e B : Rabs (x - X) <= e -> Rabs x <= B -> Rabs (rnd x - X) <= e + (B + 1) * u.
Proof.
  intros H HB. assert (E := rnd_error x). assert (T := tiny). assert (U := u_small).
  assert (u * Rabs x <= u * B) by (apply Rmult_le_compat_l; lra).
  replace (rnd x - X) with ((rnd x - x) + (x - X)) by ring. assert (A := Rabs_triang (rnd x - x) (x - X)). lra.
Qed.

Lemma fits x B : Rabs x <= B -> B <= 1000 -> Rabs (rnd x) < pow2 1024.
Proof. intros H HB. apply no_overflow. apply Rle_trans with (pow2 10); [|apply bpow_le; lia]. cbn; lra. Qed.

(** A finite double within [e] of [X] *)
Definition near (x : double) (X e : R) : Prop := fin x = true /\ Rabs (val x - X) <= e.

Ltac absr := repeat match goal with |- context [Rabs ?t] => unfold Rabs; destruct (Rcase_abs t) | H : context [Rabs ?t] |- _ => unfold Rabs in H; destruct (Rcase_abs t) end.

Lemma near_sub x y X Y e f B : near x X e -> near y Y f -> Rabs (val x - val y) <= B -> B <= 1000 -> near (dsub x y) (X - Y) (e + f + (B + 1) * u).
Proof.
  intros [Fx Nx] [Fy Ny] HB B1. destruct (dsub_ok x y Fx Fy) as [V F]; [now apply fits with B|]. split; [exact F|]. rewrite V. apply rnd_near; [|exact HB].
  replace (val x - val y - (X - Y)) with ((val x - X) - (val y - Y)) by ring. absr; lra.
Qed.

Lemma near_add x y X Y e f B : near x X e -> near y Y f -> Rabs (val x + val y) <= B -> B <= 1000 -> near (dadd x y) (X + Y) (e + f + (B + 1) * u).
Proof.
  intros [Fx Nx] [Fy Ny] HB B1. destruct (dadd_ok x y Fx Fy) as [V F]; [now apply fits with B|]. split; [exact F|]. rewrite V. apply rnd_near; [|exact HB].
  replace (val x + val y - (X + Y)) with ((val x - X) + (val y - Y)) by ring. absr; lra.
Qed.

Lemma near_scale z y Y f B : (0 <= z <= 1000)%Z -> near y Y f -> Rabs (IZR z * val y) <= B -> B <= 1000 -> near (dmul (dofZ z) y) (IZR z * Y) (IZR z * f + (B + 1) * u).
Proof.
  intros Hz [Fy Ny] HB B1. destruct (dofZ_small z ltac:(lia)) as [Vz Fz]. assert (Pz : 0 <= IZR z) by (apply IZR_le; lia).
  destruct (dmul_ok (dofZ z) y Fz Fy) as [V F]; [rewrite Vz; now apply fits with B|]. split; [exact F|]. rewrite V, Vz. apply rnd_near; [|exact HB].
  replace (IZR z * val y - IZR z * Y) with (IZR z * (val y - Y)) by ring. rewrite Rabs_mult, (Rabs_pos_eq (IZR z)) by exact Pz. now apply Rmult_le_compat_l.
Qed.

Lemma near_const z : (Z.abs z <= 1000)%Z -> near (dofZ z) (IZR z) 0.
Proof. intros H. destruct (dofZ_small z ltac:(lia)) as [V F]. split; [exact F|]. rewrite V, Rminus_diag_eq by reflexivity. rewrite Rabs_R0. lra. Qed.

(** A ratio of positive numbers *)
Lemma near_div x y X Y e f q B : near x X e -> near y Y f -> / 256 <= val y -> 0 < Y -> 0 <= X -> X <= q * Y -> 0 <= q -> 0 <= e -> 0 <= f -> Rabs (val x / val y) <= B -> B <= 1000 ->
  near (ddiv x y) (X / Y) (256 * (e + q * f) + (B + 1) * u).
Proof.
  intros [Fx Nx] [Fy Ny] L PY PX Hq Pq Pe Pf HB B1. destruct (ddiv_ok x y Fx ltac:(lra)) as [V F]; [now apply fits with B|]. split; [exact F|]. rewrite V. apply rnd_near; [|exact HB].
  replace (val x / val y - X / Y) with (((val x - X) - (X / Y) * (val y - Y)) / val y) by (field; lra).
  unfold Rdiv at 1. rewrite Rabs_mult. assert (I : Rabs (/ val y) <= 256).
  { rewrite Rabs_pos_eq by (left; apply Rinv_0_lt_compat; lra). replace 256 with (/ / 256) by field. apply Rinv_le; lra. }
  rewrite Rmult_comm. apply Rmult_le_compat; try apply Rabs_pos; [exact I|].
  apply Rle_trans with (Rabs (val x - X) + Rabs (X / Y * (val y - Y))).
  { replace (val x - X - X / Y * (val y - Y)) with ((val x - X) + - (X / Y * (val y - Y))) by ring. rewrite <- (Rabs_Ropp (X / Y * (val y - Y))). apply Rabs_triang. }
  apply Rplus_le_compat; [exact Nx|]. rewrite Rabs_mult. assert (Q : 0 <= X / Y <= q).
  { split; [apply Rmult_le_pos; [exact PX|left; now apply Rinv_0_lt_compat]|]. apply Rmult_le_reg_r with Y; [exact PY|]. unfold Rdiv. rewrite Rmult_assoc, Rinv_l by lra. lra. }
  rewrite (Rabs_pos_eq (X / Y)) by lra. apply Rmult_le_compat; try lra. apply Rabs_pos.
Qed.

(** Channels *)
Lemma channel_near c : (0 <= c <= 255)%Z -> near (dchannel c) (IZR c / 255) (4 * u).
Proof.
  intros H. assert (U := u_small). unfold dchannel. set (n := ddiv (dofZ 1) (dofZ 255)).
  destruct (dofZ_small 1 ltac:(lia)) as [V1 F1]. destruct (dofZ_small 255 ltac:(lia)) as [V2 F2]. destruct (dofZ_small c ltac:(lia)) as [Vc Fc].
  assert (E := rnd_error (1 / 255)). rewrite (Rabs_pos_eq (1 / 255)) in E by lra.
  assert (T : pow2 (-1075) <= u * / 1000).
  { apply Rle_trans with (pow2 (-53) * pow2 (-10)); [rewrite <- bpow_plus; apply bpow_le; lia|]. apply Rmult_le_compat_l; [lra|]. cbn -[Rinv]. apply Rinv_le; lra. }
  assert (C0 : 0 <= IZR c) by (apply IZR_le; lia). assert (C1 : IZR c <= 255) by (apply IZR_le; lia).
  destruct (ddiv_ok (dofZ 1) (dofZ 255) F1) as [Vn Fn]; [rewrite V2; lra|rewrite V1, V2; apply fits with 1; absr; lra|]. fold n in Vn, Fn. rewrite V1, V2 in Vn. rewrite <- Vn in E.
  assert (P0 : 0 <= val n) by (absr; lra). assert (P1 : val n <= 1 / 254) by (absr; lra).
  assert (M : 0 <= val n * IZR c <= 1.5) by nra.
  assert (D : Rabs (val n * IZR c - IZR c / 255) <= 255 * (u * (1 / 255) + u * / 1000)).
  { replace (val n * IZR c - IZR c / 255) with (IZR c * (val n - 1 / 255)) by field. rewrite Rabs_mult, (Rabs_pos_eq (IZR c)) by exact C0.
    apply Rmult_le_compat; try apply Rabs_pos; lra. }
  assert (AB : Rabs (val n * IZR c) <= 1.5) by (rewrite Rabs_pos_eq; lra).
  destruct (dmul_ok n (dofZ c) Fn Fc) as [V F]; [rewrite Vc; apply fits with 1.5; [exact AB|lra]|]. split; [exact F|]. rewrite V, Vc.
  apply Rle_trans with (255 * (u * (1 / 255) + u * / 1000) + (1.5 + 1) * u); [now apply rnd_near|lra].
Qed.

Lemma channel_255 : val (dchannel 255) = 1.
Proof. destruct (value_of (dchannel 255) 1 ltac:(vm_compute; reflexivity) ltac:(lia)) as [_ V]. exact V. Qed.
Lemma channel_0 : val (dchannel 0) = 0.
Proof. destruct (value_of (dchannel 0) 0 ltac:(vm_compute; reflexivity) ltac:(lia)) as [_ V]. exact V. Qed.

Lemma channel_lt a b : (0 <= a <= 255)%Z -> (0 <= b <= 255)%Z -> (a < b)%Z -> val (dchannel a) < val (dchannel b).
Proof.
  intros Ha Hb H. destruct (channel_near a Ha) as [_ Na]. destruct (channel_near b Hb) as [_ Nb]. assert (U := u_small).
  assert (IZR a + 1 <= IZR b) by (rewrite <- (plus_IZR a 1); apply IZR_le; lia). absr; lra.
Qed.

Lemma channel_unit c : (0 <= c <= 255)%Z -> 0 <= val (dchannel c) <= 1.
Proof.
  intros H. split.
  - rewrite <- channel_0. destruct (Z.eq_dec c 0) as [->|N]; [lra|]. left. apply channel_lt; lia.
  - rewrite <- channel_255. destruct (Z.eq_dec c 255) as [->|N]; [lra|]. left. apply channel_lt; lia.
Qed.

Lemma channel_fin c : (0 <= c <= 255)%Z -> fin (dchannel c) = true.
Proof. intros H. apply (channel_near c H). Qed.

Lemma dltb_val x y : fin x = true -> fin y = true -> dltb x y = if Rlt_dec (val x) (val y) then true else false.
Proof. intros Fx Fy. unfold dltb. rewrite (Bcompare_correct 53 1024 x y Fx Fy). destruct (Rcompare_spec (val x) (val y)), (Rlt_dec (val x) (val y)); auto; lra. Qed.
Lemma deqb_val x y : fin x = true -> fin y = true -> deqb x y = if Req_EM_T (val x) (val y) then true else false.
Proof. intros Fx Fy. unfold deqb. rewrite (Bcompare_correct 53 1024 x y Fx Fy). destruct (Rcompare_spec (val x) (val y)), (Req_EM_T (val x) (val y)); auto; lra. Qed.
Lemma dgeb_val x y : fin x = true -> fin y = true -> dgeb x y = if Rlt_dec (val x) (val y) then false else true.
Proof. intros Fx Fy. unfold dgeb. rewrite (Bcompare_correct 53 1024 x y Fx Fy). destruct (Rcompare_spec (val x) (val y)), (Rlt_dec (val x) (val y)); auto; lra. Qed.

Lemma channel_ltb a b : (0 <= a <= 255)%Z -> (0 <= b <= 255)%Z -> dltb (dchannel a) (dchannel b) = (a <? b)%Z.
Proof.
  intros Ha Hb. rewrite dltb_val by now apply channel_fin. destruct (Z.ltb_spec a b) as [L|L].
  - assert (H := channel_lt a b Ha Hb L). destruct (Rlt_dec _ _); [reflexivity|lra].
  - destruct (Rlt_dec _ _) as [L'|]; [|reflexivity]. destruct (Z.eq_dec a b) as [->|N]; [lra|]. assert (H := channel_lt b a Hb Ha ltac:(lia)). lra.
Qed.

Lemma channel_eqb a b : (0 <= a <= 255)%Z -> (0 <= b <= 255)%Z -> deqb (dchannel a) (dchannel b) = (a =? b)%Z.
Proof.
  intros Ha Hb. rewrite deqb_val by now apply channel_fin. destruct (Z.eqb_spec a b) as [->|L].
  - destruct (Req_EM_T _ _); [reflexivity|lra].
  - destruct (Req_EM_T _ _) as [L'|]; [|reflexivity]. assert (D : (a < b \/ b < a)%Z) by lia. destruct D as [D|D]; [assert (H := channel_lt a b Ha Hb D)|assert (H := channel_lt b a Hb Ha D)]; lra.
Qed.

Section Color.
Variables (cr cg cb lo hi : Z).
Hypothesis (Hr : (0 <= cr <= 255)%Z) (Hg : (0 <= cg <= 255)%Z) (Hb : (0 <= cb <= 255)%Z).
Hypothesis (Ehi : hi = Z.max cr (Z.max cg cb)) (Elo : lo = Z.min cr (Z.min cg cb)).

Lemma max_channel : dmax3 (dchannel cr) (dchannel cg) (dchannel cb) = dchannel hi.
Proof.
  unfold dmax3. rewrite (channel_ltb cr cg) by assumption. destruct (Z.ltb_spec cr cg); rewrite channel_ltb by assumption;
  [destruct (Z.ltb_spec cg cb)|destruct (Z.ltb_spec cr cb)]; f_equal; lia.
Qed.

Lemma min_channel : dmin3 (dchannel cr) (dchannel cg) (dchannel cb) = dchannel lo.
Proof.
  unfold dmin3. rewrite (channel_ltb cg cr) by assumption. destruct (Z.ltb_spec cg cr); rewrite channel_ltb by assumption;
  [destruct (Z.ltb_spec cb cg)|destruct (Z.ltb_spec cb cr)]; f_equal; lia.
Qed.

Notation M := (dchannel hi).
Notation D := (dsub M (dchannel lo)).

Lemma hi_range : (0 <= hi <= 255)%Z. Proof. lia. Qed.
Lemma lo_range : (0 <= lo <= 255)%Z. Proof. lia. Qed.

(** The difference to the greatest channel *)
Lemma gap_near c : (0 <= c <= hi)%Z -> near (dsub M (dchannel c)) (IZR (hi - c) / 255) (10 * u) /\ 0 <= val (dsub M (dchannel c)) <= 1 /\ val (dsub M (dchannel c)) <= val M /\
  val (dsub M (dchannel c)) = rnd (val M - val (dchannel c)).
Proof.
  intros H. assert (R := hi_range). assert (UM := channel_unit hi R). assert (UC := channel_unit c ltac:(lia)).
  assert (L : val (dchannel c) <= val M) by (destruct (Z.eq_dec c hi) as [->|N]; [lra|left; apply channel_lt; lia]).
  assert (B : Rabs (val M - val (dchannel c)) <= 1) by (rewrite Rabs_pos_eq; lra).
  destruct (near_sub M (dchannel c) _ _ _ _ 1 (channel_near hi R) (channel_near c ltac:(lia)) B ltac:(lra)) as [F N].
  destruct (dsub_ok M (dchannel c) (channel_fin hi R) (channel_fin c ltac:(lia))) as [V _]; [now apply fits with 1; [|lra]|].
  assert (P : 0 <= val (dsub M (dchannel c)) <= val M).
  { rewrite V. split; [apply round_nonneg; lra|]. apply Rle_trans with (rnd (val M)); [apply round_le; [apply valid64|apply valid_rnd_N|lra]|].
    rewrite round_generic; [lra|apply valid_rnd_N|apply F64_val]. }
  repeat split; try lra; [exact F|]. rewrite minus_IZR. replace ((IZR hi - IZR c) / 255) with (IZR hi / 255 - IZR c / 255) by field. lra.
Qed.

Lemma grey_iff : deqb D (dofZ 0) = (lo =? hi)%Z.
Proof.
  destruct (gap_near lo) as (N & _ & _ & V); [lia|]. destruct (dofZ_small 0 ltac:(lia)) as [V0 F0]. rewrite deqb_val by (auto; apply N). rewrite V0.
  destruct (Z.eqb_spec lo hi) as [E|E].
  - rewrite V, E, Rminus_diag_eq, round0 by reflexivity. destruct (Req_EM_T 0 0); [reflexivity|lra].
  - destruct (Req_EM_T _ _) as [E'|]; [|reflexivity]. exfalso. destruct N as [_ N]. rewrite E' in N. assert (U := u_small).
    assert (1 <= IZR (hi - lo)) by (apply (IZR_le 1); lia). absr; lra.
Qed.

Lemma black_iff : deqb M (dofZ 0) = (hi =? 0)%Z.
Proof.
  destruct (dofZ_small 0 ltac:(lia)) as [V0 F0]. assert (R := hi_range). rewrite deqb_val by (auto; now apply channel_fin). rewrite V0, <- channel_0.
  rewrite <- deqb_val by (apply channel_fin; lia). apply channel_eqb; lia.
Qed.

Hypothesis (Hlt : (lo < hi)%Z).

Lemma delta_facts : near D (IZR (hi - lo) / 255) (10 * u) /\ / 256 <= val D <= 1 /\ val D <= val M /\ 1 <= IZR (hi - lo) <= 255.
Proof.
  destruct (gap_near lo) as (N & P & Q & _); [lia|]. assert (1 <= IZR (hi - lo)) by (apply (IZR_le 1); lia). assert (IZR (hi - lo) <= 255) by (apply IZR_le; lia).
  assert (U := u_small). destruct N as [F N]. repeat split; try lra; [exact F|]. absr; lra.
Qed.

Lemma value_facts : / 256 <= val M <= 1 /\ 1 <= IZR hi <= 255.
Proof.
  assert (R := hi_range). destruct (channel_near hi R) as [_ N]. assert (P := channel_unit hi R). assert (U := u_small). assert (1 <= IZR hi) by (apply (IZR_le 1); lia).
  assert (IZR hi <= 255) by (apply IZR_le; lia). repeat split; try lra. absr; lra.
Qed.

Lemma saturation_near : near (ddiv D M) (IZR (hi - lo) / IZR hi) (4096 * u) /\ 0 < val (ddiv D M) <= 1 /\ val (ddiv D M) = rnd (val D / val M).
Proof.
  destruct delta_facts as (N & P & Q & A). destruct value_facts as [VM VH]. assert (U := u_small). assert (R := hi_range).
  assert (I : 0 < / val M) by (apply Rinv_0_lt_compat; lra).
  assert (B0 : 0 <= val D / val M <= 1).
  { split; [apply Rmult_le_pos; lra|]. apply Rmult_le_reg_r with (val M); [lra|]. unfold Rdiv. rewrite Rmult_assoc, Rinv_l by lra. lra. }
  assert (B : Rabs (val D / val M) <= 1) by (rewrite Rabs_pos_eq; lra).
  destruct (near_div D M (IZR (hi - lo) / 255) (IZR hi / 255) (10 * u) (4 * u) 1 1 N (channel_near hi R)) as [F E]; try lra.
  { assert (IZR (hi - lo) <= IZR hi) by (apply IZR_le; lia). lra. }
  destruct (ddiv_ok D M (proj1 N) ltac:(lra)) as [V _]; [apply fits with 1; [exact B|lra]|].
  replace (IZR (hi - lo) / 255 / (IZR hi / 255)) with (IZR (hi - lo) / IZR hi) in E by (field; lra).
  split; [split; [exact F|lra]|]. split; [|exact V]. rewrite V. assert (S := rnd_unit _ B0). split; [|apply S].
  apply Rlt_le_trans with (rnd (/ 256)).
  - rewrite round_generic; [lra|apply valid_rnd_N|]. change (/ 256) with (pow2 (-8)). apply generic_format_bpow. vm_compute. discriminate.
  - apply round_le; [apply valid64|apply valid_rnd_N|]. apply Rmult_le_reg_r with (val M); [lra|]. unfold Rdiv. rewrite Rmult_assoc, Rinv_l by lra. nra.
Qed.

Lemma term_near c : (lo <= c <= hi)%Z -> near (dhueTerm M D (dchannel c)) (60 * (IZR (hi - c) / IZR (hi - lo)) + 180) (1400000 * u).
Proof.
  intros Hc. destruct delta_facts as (N & P & Q & A). assert (U := u_small). destruct (gap_near c) as (Na & Pa & _ & _); [lia|].
  assert (C0 : 0 <= IZR (hi - c)) by (apply IZR_le; lia). assert (C1 : IZR (hi - c) <= IZR (hi - lo)) by (apply IZR_le; lia).
  unfold dhueTerm. set (a := dsub M (dchannel c)) in *. set (d := D) in *.
  assert (N1 : near (dmul (dofZ 60) a) (60 * (IZR (hi - c) / 255)) (661 * u)).
  { destruct (near_scale 60 a _ _ 60 ltac:(lia) Na) as [F E]; [rewrite Rabs_pos_eq; nra|lra|]. split; [exact F|]. lra. }
  assert (N2 : near (dmul (dofZ 180) d) (180 * (IZR (hi - lo) / 255)) (1981 * u)).
  { destruct (near_scale 180 d _ _ 180 ltac:(lia) N) as [F E]; [rewrite Rabs_pos_eq; nra|lra|]. split; [exact F|]. lra. }
  set (x := dmul (dofZ 60) a) in *. set (y := dmul (dofZ 180) d) in *.
  assert (N3 : near (dadd x y) (60 * (IZR (hi - c) / 255) + 180 * (IZR (hi - lo) / 255)) (2900 * u)).
  { destruct (near_add x y _ _ _ _ 250 N1 N2) as [F E]; [destruct N1 as [_ N1], N2 as [_ N2]; absr; lra|lra|]. split; [exact F|]. lra. }
  set (t := dadd x y) in *.
  assert (I : / val d <= 256) by (replace 256 with (/ / 256) by field; apply Rinv_le; lra).
  assert (I0 : 0 < / val d) by (apply Rinv_0_lt_compat; lra).
  assert (Tb : Rabs (val t / val d) <= 250).
  { destruct N3 as [_ N3], N as [_ N]. assert (T0 : 0 <= val t) by (absr; lra). rewrite Rabs_pos_eq; [|apply Rmult_le_pos; lra].
    apply Rmult_le_reg_r with (val d); [lra|]. unfold Rdiv. rewrite Rmult_assoc, Rinv_l by lra. absr; lra. }
  destruct (near_div t d _ _ (2900 * u) (10 * u) 240 250 N3 N) as [F E]; try lra.
  split; [exact F|].
  replace ((60 * (IZR (hi - c) / 255) + 180 * (IZR (hi - lo) / 255)) / (IZR (hi - lo) / 255)) with (60 * (IZR (hi - c) / IZR (hi - lo)) + 180) in E by (field; lra).
  lra.
Qed.

Lemma ratio_unit c : (lo <= c <= hi)%Z -> 0 <= IZR (hi - c) / IZR (hi - lo) <= 1.
Proof.
  intros Hc. destruct delta_facts as (_ & _ & _ & A). assert (0 <= IZR (hi - c)) by (apply IZR_le; lia). assert (IZR (hi - c) <= IZR (hi - lo)) by (apply IZR_le; lia).
  assert (0 < / IZR (hi - lo)) by (apply Rinv_0_lt_compat; lra). split; [apply Rmult_le_pos; lra|].
  apply Rmult_le_reg_r with (IZR (hi - lo)); [lra|]. unfold Rdiv. rewrite Rmult_assoc, Rinv_l by lra. lra.
Qed.

Notation T c := (dhueTerm M D (dchannel c)).
Notation Dz := (IZR (hi - lo)).

Lemma hue_difference x y : (lo <= x <= hi)%Z -> (lo <= y <= hi)%Z -> near (dsub (T x) (T y)) (60 * (IZR (y - x) / Dz)) (2810000 * u).
Proof.
  intros Hx Hy. assert (Nx := term_near x Hx). assert (Ny := term_near y Hy). assert (Rx := ratio_unit x Hx). assert (Ry := ratio_unit y Hy). assert (U := u_small).
  destruct delta_facts as (_ & _ & _ & A).
  destruct (near_sub _ _ _ _ _ _ 100 Nx Ny) as [F E]; [destruct Nx as [_ Nx], Ny as [_ Ny]; absr; lra|lra|]. split; [exact F|].
  replace (60 * (IZR (y - x) / Dz)) with (60 * (IZR (hi - x) / Dz) + 180 - (60 * (IZR (hi - y) / Dz) + 180)); [lra|]. rewrite !minus_IZR in *. field. lra.
Qed.

Lemma hue_shifted z x y : (z = 120 \/ z = 240)%Z -> (lo <= x <= hi)%Z -> (lo <= y <= hi)%Z ->
  near (dsub (dadd (dofZ z) (T x)) (T y)) (IZR z + 60 * (IZR (y - x) / Dz)) (2810000 * u).
Proof.
  intros Hz Hx Hy. assert (Nx := term_near x Hx). assert (Ny := term_near y Hy). assert (Rx := ratio_unit x Hx). assert (Ry := ratio_unit y Hy). assert (U := u_small).
  destruct delta_facts as (_ & _ & _ & A). assert (Bz : 120 <= IZR z <= 240) by (destruct Hz as [->| ->]; lra).
  assert (N1 : near (dadd (dofZ z) (T x)) (IZR z + (60 * (IZR (hi - x) / Dz) + 180)) (1400600 * u)).
  { assert (Nz := near_const z ltac:(destruct Hz; lia)).
    destruct (near_add _ _ _ _ _ _ 500 Nz Nx) as [F E]; [destruct Nx as [_ Nx], Nz as [_ Nz]; absr; lra|lra|]. split; [exact F|]. lra. }
  destruct (near_sub _ _ _ _ _ _ 400 N1 Ny) as [F E]; [destruct N1 as [_ N1], Ny as [_ Ny]; absr; lra|lra|]. split; [exact F|].
  replace (IZR z + 60 * (IZR (y - x) / Dz)) with (IZR z + (60 * (IZR (hi - x) / Dz) + 180) - (60 * (IZR (hi - y) / Dz) + 180)); [lra|]. rewrite !minus_IZR in *. field. lra.
Qed.

Lemma ratio_sym x y : (lo <= x <= hi)%Z -> (lo <= y <= hi)%Z -> -1 <= IZR (y - x) / Dz <= 1.
Proof.
  intros Hx Hy. destruct delta_facts as (_ & _ & _ & A). assert (I : 0 < / Dz) by (apply Rinv_0_lt_compat; lra).
  assert (IZR (y - x) <= Dz) by (apply IZR_le; lia). assert (- Dz <= IZR (y - x)) by (rewrite <- opp_IZR; apply IZR_le; lia).
  assert (Dz * / Dz = 1) by (apply Rinv_r; lra). unfold Rdiv. nra.
Qed.

Lemma ratio_negative x y : (lo <= x <= hi)%Z -> (lo <= y <= hi)%Z -> (y < x)%Z -> IZR (y - x) / Dz <= - / 255.
Proof.
  intros Hx Hy H. destruct delta_facts as (_ & _ & _ & A). assert (I : / 255 <= / Dz) by (apply Rinv_le; lra).
  assert (IZR (y - x) <= -1) by (apply IZR_le; lia). unfold Rdiv. nra.
Qed.

Lemma ratio_positive x y : (lo <= x <= hi)%Z -> (lo <= y <= hi)%Z -> (x < y)%Z -> / 255 <= IZR (y - x) / Dz.
Proof.
  intros Hx Hy H. destruct delta_facts as (_ & _ & _ & A). assert (I : / 255 <= / Dz) by (apply Rinv_le; lra).
  assert (1 <= IZR (y - x)) by (apply IZR_le; lia). unfold Rdiv. nra.
Qed.
End Color.

(** One turn *)
Lemma turn_keeps h : fin h = true -> 0 <= val h < 360 -> dturn h = h.
Proof.
  intros F H. destruct (dofZ_small 0 ltac:(lia)) as [V0 F0]. destruct (dofZ_small 360 ltac:(lia)) as [V1 F1]. unfold dturn.
  rewrite dltb_val, dgeb_val by assumption. rewrite V0, V1. destruct (Rlt_dec _ _); [lra|]. destruct (Rlt_dec _ _); [reflexivity|lra].
Qed.

Lemma turn_adds h : fin h = true -> val h < 0 -> dturn h = dadd h (dofZ 360).
Proof.
  intros F H. destruct (dofZ_small 0 ltac:(lia)) as [V0 F0]. unfold dturn. rewrite dltb_val by assumption. rewrite V0. destruct (Rlt_dec _ _); [reflexivity|lra].
Qed.

Lemma Q2R_Z z : Q2R (inject_Z z) = IZR z.
Proof. unfold Q2R. cbn. field. Qed.

Lemma Q2R_ratio a b : (0 < b)%Z -> Q2R (inject_Z a / inject_Z b) = IZR a / IZR b.
Proof.
  intros H. rewrite Q2R_div, !Q2R_Z; [reflexivity|]. intros E. unfold Qeq in E. cbn in E. lia.
Qed.

Lemma Q2R_60 : Q2R 60 = 60. Proof. exact (Q2R_Z 60). Qed.
Lemma Q2R_360 : Q2R 360 = 360. Proof. exact (Q2R_Z 360). Qed.
Lemma Q2R_2 : Q2R 2 = 2. Proof. exact (Q2R_Z 2). Qed.
Lemma Q2R_4 : Q2R 4 = 4. Proof. exact (Q2R_Z 4). Qed.
Lemma Q2R_0 : Q2R 0 = 0. Proof. exact (Q2R_Z 0). Qed.

Lemma Qbounds q : 0 <= Q2R q < 360 -> (0 <= q < 360)%Q.
Proof. intros [L H]. split; [apply Rle_Qle; rewrite Q2R_0; exact L|apply Rlt_Qlt; rewrite Q2R_360; exact H]. Qed.

(** The hue of a color, the greatest component of which is [hi] and the smallest [lo] *)
Definition hueOf cr cg cb hi lo : double :=
  let M := dchannel hi in let D := dsub M (dchannel lo) in
  let dr := dhueTerm M D (dchannel cr) in let dg := dhueTerm M D (dchannel cg) in let db := dhueTerm M D (dchannel cb) in
  dturn (if (cr =? hi)%Z then dsub db dg else if (cg =? hi)%Z then dsub (dadd (dofZ 120) dr) db else dsub (dadd (dofZ 240) dg) dr).

Lemma hsv_unfold cr cg cb lo hi : (0 <= cr <= 255)%Z -> (0 <= cg <= 255)%Z -> (0 <= cb <= 255)%Z -> hi = Z.max cr (Z.max cg cb) -> lo = Z.min cr (Z.min cg cb) ->
  drgbToHsv cr cg cb = if (hi =? 0)%Z then mkDhsv None None None else if (lo =? hi)%Z then mkDhsv None None (Some (dchannel hi))
    else mkDhsv (Some (hueOf cr cg cb hi lo)) (Some (ddiv (dsub (dchannel hi) (dchannel lo)) (dchannel hi))) (Some (dchannel hi)).
Proof.
  intros Hr Hg Hb Ehi Elo. unfold drgbToHsv. rewrite (max_channel cr cg cb hi), (min_channel cr cg cb lo) by assumption.
  rewrite (black_iff cr cg cb hi), (grey_iff cr cg cb lo hi) by assumption. rewrite !channel_eqb by lia. reflexivity.
Qed.

Lemma hue_near cr cg cb lo hi : (0 <= cr <= 255)%Z -> (0 <= cg <= 255)%Z -> (0 <= cb <= 255)%Z -> hi = Z.max cr (Z.max cg cb) -> lo = Z.min cr (Z.min cg cb) -> (lo < hi)%Z ->
  exists q, HueOf cr cg cb lo hi q /\ near (hueOf cr cg cb hi lo) (Q2R q) (2811000 * u) /\ 0 <= Q2R q < 360 /\ 0 <= val (hueOf cr cg cb hi lo) < 360 /\
    (val (hueOf cr cg cb hi lo) = 0 <-> cr = hi /\ cg = cb).
Proof.
  intros Hr Hg Hb Ehi Elo Hlt. assert (U := u_small). unfold hueOf. cbv zeta.
  destruct (Z.eqb_spec cr hi) as [Er|Er].
  - destruct (Z.lt_trichotomy cg cb) as [C|[C|C]].
    + exists (60 * (inject_Z (cg - cb) / inject_Z (hi - lo)) + 360 * inject_Z 1)%Q.
      assert (N := hue_difference cr cg cb lo hi Hr Hg Hb Ehi Elo Hlt cb cg ltac:(lia) ltac:(lia)).
      assert (S := ratio_sym cr cg cb lo hi Hr Hg Hb Ehi Elo Hlt cb cg ltac:(lia) ltac:(lia)).
      assert (P := ratio_negative cr cg cb lo hi Hr Hg Hb Ehi Elo Hlt cb cg ltac:(lia) ltac:(lia) C).
      rewrite Q2R_plus, !Q2R_mult, Q2R_60, Q2R_360, Q2R_Z, Q2R_ratio by lia.
      rewrite turn_adds; [|apply N|destruct N as [_ N]; absr; lra].
      destruct (near_add _ _ _ _ _ _ 400 N (near_const 360 ltac:(lia))) as [F E].
      { destruct N as [_ N]. destruct (dofZ_small 360 ltac:(lia)) as [-> _]. absr; lra. } { lra. }
      split; [exists 1%Z; left; split; [split; lia|reflexivity]|]. split; [split; [exact F|absr; lra]|]. split; [lra|]. split; [absr; lra|].
      split; [intros Z0; exfalso; absr; lra|lia].
    + exists (60 * (inject_Z (cg - cb) / inject_Z (hi - lo)) + 360 * inject_Z 0)%Q.
      rewrite Q2R_plus, !Q2R_mult, Q2R_60, Q2R_360, Q2R_Z, Q2R_ratio by lia. subst cb. replace (cg - cg)%Z with 0%Z by lia.
      assert (N := hue_difference cr cg cg lo hi Hr Hg Hb Ehi Elo Hlt cg cg ltac:(lia) ltac:(lia)).
      assert (T := term_near cr cg cg lo hi Hr Hg Hb Ehi Elo Hlt cg ltac:(lia)). set (t := dhueTerm _ _ _) in *.
      assert (V : val (dsub t t) = 0).
      { destruct (dsub_ok t t (proj1 T) (proj1 T)) as [-> _]; rewrite Rminus_diag_eq, round0 by reflexivity; [exact small0|reflexivity]. }
      rewrite turn_keeps; [|apply N|lra]. unfold Rdiv. rewrite Rmult_0_l. rewrite V.
      split; [exists 0%Z; left; split; [split; lia|]|]. { replace (cg - cg)%Z with 0%Z by lia. reflexivity. }
      split; [split; [apply N|]|]. { rewrite V. rewrite Rabs_pos_eq; lra. }
      split; [lra|]. split; [lra|]. tauto.
    + exists (60 * (inject_Z (cg - cb) / inject_Z (hi - lo)) + 360 * inject_Z 0)%Q.
      assert (N := hue_difference cr cg cb lo hi Hr Hg Hb Ehi Elo Hlt cb cg ltac:(lia) ltac:(lia)).
      assert (S := ratio_sym cr cg cb lo hi Hr Hg Hb Ehi Elo Hlt cb cg ltac:(lia) ltac:(lia)).
      assert (P := ratio_positive cr cg cb lo hi Hr Hg Hb Ehi Elo Hlt cb cg ltac:(lia) ltac:(lia) C).
      rewrite Q2R_plus, !Q2R_mult, Q2R_60, Q2R_360, Q2R_Z, Q2R_ratio by lia.
      destruct N as [F N]. rewrite turn_keeps; [|exact F|absr; lra].
      split; [exists 0%Z; left; split; [split; lia|reflexivity]|]. split; [split; [exact F|absr; lra]|]. split; [lra|]. split; [absr; lra|].
      split; [intros Z0; exfalso; absr; lra|lia].
  - destruct (Z.eqb_spec cg hi) as [Eg|Eg].
    + exists (60 * (2 + inject_Z (cb - cr) / inject_Z (hi - lo)) + 360 * inject_Z 0)%Q.
      assert (N := hue_shifted cr cg cb lo hi Hr Hg Hb Ehi Elo Hlt 120 cr cb ltac:(lia) ltac:(lia) ltac:(lia)).
      assert (S := ratio_sym cr cg cb lo hi Hr Hg Hb Ehi Elo Hlt cr cb ltac:(lia) ltac:(lia)).
      rewrite Q2R_plus, !Q2R_mult, Q2R_plus, Q2R_60, Q2R_360, Q2R_2, Q2R_Z, Q2R_ratio by lia.
      destruct N as [F N]. rewrite turn_keeps; [|exact F|absr; lra].
      split; [exists 0%Z; right; left; split; [split; lia|reflexivity]|]. split; [split; [exact F|absr; lra]|]. split; [lra|]. split; [absr; lra|].
      split; [intros Z0; exfalso; absr; lra|lia].
    + assert (Eb : cb = hi) by lia.
      exists (60 * (4 + inject_Z (cr - cg) / inject_Z (hi - lo)) + 360 * inject_Z 0)%Q.
      assert (N := hue_shifted cr cg cb lo hi Hr Hg Hb Ehi Elo Hlt 240 cg cr ltac:(lia) ltac:(lia) ltac:(lia)).
      assert (S := ratio_sym cr cg cb lo hi Hr Hg Hb Ehi Elo Hlt cg cr ltac:(lia) ltac:(lia)).
      rewrite Q2R_plus, !Q2R_mult, Q2R_plus, Q2R_60, Q2R_360, Q2R_4, Q2R_Z, Q2R_ratio by lia.
      destruct N as [F N]. rewrite turn_keeps; [|exact F|absr; lra].
      split; [exists 0%Z; right; right; split; [split; lia|reflexivity]|]. split; [split; [exact F|absr; lra]|]. split; [lra|]. split; [absr; lra|].
      split; [intros Z0; exfalso; absr; lra|lia].
Qed.

Theorem color_near r g b lo hi : (0 <= r <= 255)%Z -> (0 <= g <= 255)%Z -> (0 <= b <= 255)%Z -> hi = Z.max r (Z.max g b) -> lo = Z.min r (Z.min g b) -> (lo < hi)%Z ->
  exists h s v q, drgbToHsv r g b = mkDhsv (Some h) (Some s) (Some v) /\
    Finite h /\ Finite s /\ Finite v /\ 0 <= real h < 360 /\ 0 < real s <= 1 /\ 0 < real v <= 1 /\
    Rabs (real v - IZR hi / 255) <= pow2 (-51) /\ Rabs (real s - IZR (hi - lo) / IZR hi) <= pow2 (-41) /\
    HueOf r g b lo hi q /\ (0 <= q < 360)%Q /\ Rabs (real h - Q2R q) <= pow2 (-31).
Proof.
  intros Hr Hg Hb Ehi Elo Hlt. rewrite (hsv_unfold r g b lo hi) by assumption.
  destruct (Z.eqb_spec hi 0) as [E|_]; [lia|]. destruct (Z.eqb_spec lo hi) as [E|_]; [lia|].
  destruct (hue_near r g b lo hi Hr Hg Hb Ehi Elo Hlt) as (q & Hq & [Fh Nh] & Rq & Rh & _).
  destruct (saturation_near r g b lo hi Hr Hg Hb Ehi Elo Hlt) as ([Fs Ns] & Ps & _).
  destruct (channel_near hi ltac:(lia)) as [Fv Nv]. destruct (value_facts r g b lo hi Hr Hg Hb Ehi Elo Hlt) as [Pv _].
  do 3 eexists. exists q. split; [reflexivity|]. unfold real, Finite. repeat (split; [assumption || lra|]).
  assert (U := u_small). split; [|split; [|split; [exact Hq|split; [now apply Qbounds|]]]].
  - replace (pow2 (-51)) with (4 * u); [exact Nv|]. change 4 with (pow2 2). rewrite <- bpow_plus. reflexivity.
  - replace (pow2 (-41)) with (4096 * u); [exact Ns|]. change 4096 with (pow2 12). rewrite <- bpow_plus. reflexivity.
  - apply Rle_trans with (1 := Nh). apply Rle_trans with (4194304 * u); [lra|]. right. change 4194304 with (pow2 22). rewrite <- bpow_plus. reflexivity.
Qed.

Theorem color_grey r g b : (0 <= r <= 255)%Z -> (0 <= g <= 255)%Z -> (0 <= b <= 255)%Z ->
  (dhsvH (drgbToHsv r g b) = None <-> r = g /\ g = b) /\ (dhsvS (drgbToHsv r g b) = None <-> r = g /\ g = b) /\ (dhsvV (drgbToHsv r g b) = None <-> r = 0 /\ g = 0 /\ b = 0)%Z.
Proof.
  intros Hr Hg Hb. rewrite (hsv_unfold r g b _ _ Hr Hg Hb eq_refl eq_refl).
  destruct (Z.eqb_spec (Z.max r (Z.max g b)) 0); [cbn [dhsvH dhsvS dhsvV]; repeat split; intros; auto; lia|].
  destruct (Z.eqb_spec (Z.min r (Z.min g b)) (Z.max r (Z.max g b))); cbn [dhsvH dhsvS dhsvV]; repeat split; intros; auto; try lia; discriminate.
Qed.

Theorem color_exact r g b lo hi h s v : (0 <= r <= 255)%Z -> (0 <= g <= 255)%Z -> (0 <= b <= 255)%Z -> hi = Z.max r (Z.max g b) -> lo = Z.min r (Z.min g b) ->
  drgbToHsv r g b = mkDhsv (Some h) (Some s) (Some v) ->
  (real v = 1 <-> hi = 255%Z) /\ (real s = 1 <-> lo = 0%Z) /\ (real h = 0 <-> r = hi /\ g = b).
Proof.
  intros Hr Hg Hb Ehi Elo. rewrite (hsv_unfold r g b lo hi) by assumption.
  destruct (Z.eqb_spec hi 0) as [E|_]; [discriminate|]. destruct (Z.eqb_spec lo hi) as [E|Hne]; [discriminate|]. intros [= <- <- <-].
  assert (Hlt : (lo < hi)%Z) by lia. assert (U := u_small). unfold real. split; [|split].
  - split; [|intros ->; apply channel_255]. intros E. destruct (Z.eq_dec hi 255) as [|N]; [assumption|]. assert (L := channel_lt hi 255 ltac:(lia) ltac:(lia) ltac:(lia)).
    rewrite channel_255 in L. lra.
  - destruct (saturation_near r g b lo hi Hr Hg Hb Ehi Elo Hlt) as ([Fs Ns] & Ps & V). destruct (value_facts r g b lo hi Hr Hg Hb Ehi Elo Hlt) as [Pv Ph]. split.
    + intros E. rewrite E in Ns. destruct (Z.eq_dec lo 0) as [|N]; [assumption|]. exfalso. assert (1 <= IZR lo) by (apply (IZR_le 1); lia). rewrite minus_IZR in Ns.
      assert (I : / 255 <= / IZR hi) by (apply Rinv_le; lra). replace (1 - (IZR hi - IZR lo) / IZR hi) with (IZR lo * / IZR hi) in Ns by (field; lra).
      assert (1 * / 255 <= IZR lo * / IZR hi) by (apply Rmult_le_compat; lra). rewrite Rabs_pos_eq in Ns by lra. lra.
    + intros ->. rewrite V. destruct (gap_near r g b hi Hr Hg Hb Ehi 0 ltac:(lia)) as (_ & _ & _ & V'). rewrite V', channel_0, Rminus_0_r.
      rewrite (round_generic radix2 fexp64 ZnearestE (val (dchannel hi)) (F64_val _)). unfold Rdiv. rewrite Rinv_r by lra.
      rewrite round_generic; [reflexivity|apply valid_rnd_N|apply F64_one].
  - destruct (hue_near r g b lo hi Hr Hg Hb Ehi Elo Hlt) as (q & _ & _ & _ & _ & Z0). exact Z0.
Qed.

Theorem green_rounded : exists h s v, drgbToHsv 0 3 0 = mkDhsv (Some h) (Some s) (Some v) /\ HueOf 0 3 0 0 3 120 /\ 120 < real h.
Proof.
  exists (hueOf 0 3 0 3 0), (ddiv (dsub (dchannel 3) (dchannel 0)) (dchannel 3)), (dchannel 3).
  split; [apply (hsv_unfold 0 3 0 0 3); lia|]. split.
  { exists 0%Z. right. left. split; [split; lia|reflexivity]. }
  unfold real. rewrite (same_value (hueOf 0 3 0 3 0) (dlit 8444249301319682 (-46))) by (vm_compute; reflexivity).
  destruct (dlit_exact 8444249301319682 (-46) ltac:(lia) ltac:(lia)) as [_ ->]. replace (pow2 (-46)) with (/ 70368744177664) by (cbn; lra). lra.
Qed.

Theorem turquoise : exists h s v, drgbToHsv 64 224 208 = mkDhsv (Some h) (Some s) (Some v) /\ HueOf 64 224 208 64 224 174 /\ real h = 174.
Proof.
  exists (hueOf 64 224 208 224 64), (ddiv (dsub (dchannel 224) (dchannel 64)) (dchannel 224)), (dchannel 224).
  split; [apply (hsv_unfold 64 224 208 64 224); lia|]. split.
  { exists 0%Z. right. left. split; [split; lia|reflexivity]. }
  unfold real. destruct (value_of (hueOf 64 224 208 224 64) 174 ltac:(vm_compute; reflexivity) ltac:(lia)) as [_ V]. exact V.
Qed.
