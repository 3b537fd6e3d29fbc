(** Quantiles and median absolute deviation of doubles in any order, with rounding. *)
From Coq Require Import Reals Lra Permutation Sorted.
From Flocq Require Import Core Relative IEEE754.BinarySingleNaN.
From Verif Require Import Res Lemmas ContainerSpec DistModel DistSpec DistProofs FloatModel FloatSpec FloatProofs QuantileModel QuantileSpec QuantileProofs NanSpec NanProofs DistFloatModel DistFloatSpec OrderStatProofs.

Local Existing Instance hprec.
Local Existing Instance hmax.
Local Existing Instance valid64.
Open Scope R_scope.

Lemma finite_number x : Finite x -> x <> nan.
Proof. intros H ->. discriminate H. Qed.

Lemma finite_lt x y : Finite x -> Finite y -> tameLt x y = dltb x y.
Proof. intros Hx Hy. apply tame_lt; apply finite_number; assumption. Qed.

Lemma dltb_real x y : Finite x -> Finite y -> dltb x y = rltb (real x) (real y).
Proof.
  intros Hx Hy. unfold dltb. rewrite (compare_finite x y Hx Hy). unfold rltb. destruct (Rlt_dec (real x) (real y)) as [L|L].
  - rewrite Rcompare_Lt by exact L. reflexivity.
  - destruct (Rcompare_spec (real x) (real y)) as [C|C|C]; [contradiction|reflexivity|reflexivity].
Qed.

Lemma forall_get {A} (P : A -> Prop) l i x : Forall P l -> zget l i = Ok x -> P x.
Proof.
  intros F G. destruct (zget_In l i (zget_range _ _ _ G)) as (y & Gy & I). rewrite G in Gy. injection Gy as <-.
  rewrite Forall_forall in F. apply F, I.
Qed.

Lemma perm_forall {A} (P : A -> Prop) l s : Permutation l s -> Forall P l -> Forall P s.
Proof. intros H F. apply Forall_forall. intros x I. rewrite Forall_forall in F. apply F. eapply Permutation_in; [apply Permutation_sym, H|exact I]. Qed.

(** Without NaN, comparisons are those of a strict weak ordering. *)
Lemma sorting_tame l s : Forall Finite l -> Sorting dltb l s -> Sorting tameLt l s.
Proof.
  intros F [P H]. pose proof (perm_forall _ _ _ P F) as Fs. split; [exact P|]. intros i j x y Hi Hj Gx Gy.
  rewrite finite_lt by (eapply forall_get; eauto). eapply H; eauto.
Qed.

Lemma sorting_real l s : Forall Finite l -> Sorting dltb l s -> Sorting rltb (map real l) (map real s).
Proof.
  intros F [P H]. pose proof (perm_forall _ _ _ P F) as Fs. split; [apply Permutation_map, P|]. intros i j x y Hi Hj. rewrite !zget_map.
  destruct (zget s i) as [a| |] eqn:Ea; cbn [bind]; try discriminate. destruct (zget s j) as [b| |] eqn:Eb; cbn [bind]; try discriminate.
  intros [= <-] [= <-]. rewrite <- dltb_real by (eapply forall_get; eauto). eapply H; eauto.
Qed.

Lemma sorted_tame l : Forall Finite l -> SortedBy dltb l <-> SortedBy tameLt l.
Proof.
  unfold SortedBy. induction 1 as [|x l Fx Fl IH]; [split; constructor|].
  split; intros H; inversion H as [|? ? H1 H2]; subst; (constructor; [apply IH, H1|]).
  all: inversion H2 as [|y l' H3]; subst; constructor; inversion Fl; subst; rewrite finite_lt in * by assumption; assumption.
Qed.

Lemma sorting_exists l : Forall Finite l -> exists s, Sorting dltb l s.
Proof.
  intros F. destruct (Sorting_exists tameLt tame_order l) as (s & P & H). pose proof (perm_forall _ _ _ P F) as Fs.
  exists s. split; [exact P|]. intros i j x y Hi Hj Gx Gy. rewrite <- finite_lt by (eapply forall_get; eauto). eapply H; eauto.
Qed.

Lemma inv_tame l d : Forall Finite l -> Inv dltb l d -> Inv tameLt l d.
Proof. intros F [P H]. split; [exact P|]. intros E. apply sorted_tame; [eapply perm_forall; eauto|auto]. Qed.

Lemma nth_tame d n d' r : Forall Finite (dvalues d) -> nthCall dltb d n d' r -> nthCall tameLt d n d' r.
Proof.
  intros F [E|E L|l' E L [P H]]; [apply nth_sorted; auto|apply nth_out; auto|]. apply nth_unsorted; auto. split; [exact P|].
  pose proof (perm_forall _ _ _ P F) as Fs. intros i j x y Hi Hj Gx Gy. rewrite finite_lt by (eapply forall_get; eauto). eapply H; eauto.
Qed.

Lemma nthD l s d n d' r : Forall Finite l -> Inv dltb l d -> Sorting dltb l s -> (0 <= n < Z.of_nat (length l))%Z -> nthCall dltb d n d' r ->
  exists v w, r = Ok v /\ zget s n = Ok w /\ SameReal v w.
Proof.
  intros F I Hs Hn H. assert (Fd : Forall Finite (dvalues d)) by (eapply perm_forall; [apply I|exact F]).
  pose proof (Inv_nth _ _ _ _ _ _ I H) as [P' _].
  destruct (nthCall_value tameLt tame_order l s d n d' r (inv_tame _ _ F I) (sorting_tame _ _ F Hs) Hn (nth_tame _ _ _ _ Fd H)) as (v & w & -> & Hw & A & B).
  exists v, w. split; [reflexivity|]. split; [exact Hw|].
  assert (Fw : Finite w) by (eapply forall_get; [|exact Hw]; eapply perm_forall; [apply Hs|exact F]).
  assert (Fv : Finite v).
  { pose proof (perm_forall _ _ _ P' F) as F'. clear A B. remember (Ok v) as rv eqn:Er. destruct H as [E|E L|l' E L Nn]; [|discriminate|].
    - apply (forall_get _ _ _ _ Fd Er).
    - apply (forall_get _ _ _ _ F' Er). }
  rewrite finite_lt in A, B by assumption. rewrite dltb_real in A, B by assumption. apply rltb_false in A, B. repeat split; auto. lra.
Qed.

Lemma sortedD d n d' r : nthCall dltb d n d' r -> dsorted d = true -> d' = d /\ r = zget (dvalues d) n.
Proof. intros [E|E L|l' E R N] H; try congruence. split; reflexivity. Qed.

Lemma twoNthD o l s d f d' x y : Forall Finite l -> Inv dltb l d -> Sorting dltb l s -> (0 <= f)%Z -> (f + 1 < Z.of_nat (length l))%Z ->
  ReadBefore o \/ dsorted d = true -> dtwoNth o d f d' x y ->
  Inv dltb l d' /\
  exists vx vy wx wy, x = Ok vx /\ y = Ok vy /\ zget s f = Ok wx /\ zget s (f + 1) = Ok wy /\ SameReal vx wx /\ SameReal vy wy.
Proof.
  intros F I Hs Hf Hn Ho H.
  assert (C1 : forall d1 d2 a b, nthCall dltb d f d1 a -> nthCall dltb d1 (f + 1) d2 b -> Inv dltb l d2 /\
    exists vx vy wx wy, a = Ok vx /\ b = Ok vy /\ zget s f = Ok wx /\ zget s (f + 1) = Ok wy /\ SameReal vx wx /\ SameReal vy wy).
  { intros d1 d2 a b H1 H2. pose proof (Inv_nth _ _ _ _ _ _ I H1) as I1. pose proof (Inv_nth _ _ _ _ _ _ I1 H2) as I2.
    split; [exact I2|].
    destruct (nthD l s d f d1 a F I Hs ltac:(lia) H1) as (vx & wx & E1 & E2 & E3).
    destruct (nthD l s d1 (f + 1) d2 b F I1 Hs ltac:(lia) H2) as (vy & wy & E4 & E5 & E6).
    exists vx, vy, wx, wy. auto 10. }
  assert (C2 : forall d1 d2 a b, nthCall dltb d (f + 1) d1 b -> nthCall dltb d1 f d2 a -> Inv dltb l d2 /\
    exists vx vy wx wy, a = Ok vx /\ b = Ok vy /\ zget s f = Ok wx /\ zget s (f + 1) = Ok wy /\ SameReal vx wx /\ SameReal vy wy).
  { intros d1 d2 a b H1 H2. pose proof (Inv_nth _ _ _ _ _ _ I H1) as I1. pose proof (Inv_nth _ _ _ _ _ _ I1 H2) as I2.
    split; [exact I2|].
    destruct (nthD l s d (f + 1) d1 b F I Hs ltac:(lia) H1) as (vy & wy & E1 & E2 & E3).
    destruct (nthD l s d1 f d2 a F I1 Hs ltac:(lia) H2) as (vx & wx & E4 & E5 & E6).
    exists vx, vy, wx, wy. auto 10. }
  destruct H as [d1 d2 a b E H1 H2|d1 d2 a b E H1 H2|d1 d2 a b E H1 H2|d1 d2 a b E H1 H2].
  - eapply C1; eauto.
  - eapply C2; eauto.
  - destruct Ho as [[->| ->]|Ho]; try discriminate.
    destruct (sortedD _ _ _ _ H1 Ho) as [-> ->]. destruct (sortedD _ _ _ _ H2 Ho) as [-> ->].
    eapply C1; eauto.
  - destruct Ho as [[->| ->]|Ho]; try discriminate.
    destruct (sortedD _ _ _ _ H1 Ho) as [-> ->]. destruct (sortedD _ _ _ _ H2 Ho) as [-> ->].
    eapply C2; eauto.
Qed.

(** Doubles which are equal, up to the sign of zero. *)
Definition alike (x y : double) : Prop := x = y \/ exists s s', x = B754_zero s /\ y = B754_zero s'.

Lemma same_alike x y : SameReal x y -> alike x y.
Proof.
  intros (Fx & Fy & E). unfold Finite, real in *. destruct (Req_dec (B2R x) 0) as [Z0|N].
  - assert (Z : forall a : double, is_finite a = true -> B2R a = 0 -> exists s, a = B754_zero s).
    { clear. intros [s|s| |s m e B] F H; try discriminate; [eauto|]. exfalso. cbn [B2R] in H. destruct s.
      - assert (F2R (Float radix2 (SpecFloat.cond_Zopp true (Z.pos m)) e) < 0) by (apply F2R_lt_0; reflexivity). lra.
      - assert (0 < F2R (Float radix2 (SpecFloat.cond_Zopp false (Z.pos m)) e)) by (apply F2R_gt_0; reflexivity). lra. }
    right. destruct (Z x Fx Z0) as [s ->]. destruct (Z y Fy ltac:(congruence)) as [s' ->]. eauto.
  - left. apply B2R_inj; [apply is_finite_strict_B2R; exact N|apply is_finite_strict_B2R; congruence|exact E].
Qed.

Lemma alike_same x y : Finite y -> alike x y -> SameReal x y.
Proof. intros F [->|(s & s' & -> & ->)]; repeat split; auto. Qed.

Lemma alike_mul x y w : alike x y -> alike (dmul x w) (dmul y w).
Proof. intros [->|(s & s' & -> & ->)]; [left; reflexivity|]. destruct w; cbn; [right; eauto|left; reflexivity|left; reflexivity|right; eauto]. Qed.

Lemma alike_add x y z w : alike x y -> alike z w -> alike (dadd x z) (dadd y w).
Proof.
  intros H [->|(s & s' & -> & ->)].
  - destruct H as [->|(t & t' & -> & ->)]; [left; reflexivity|].
    destruct w as [b|b| |b m e B]; [|left; reflexivity|left; reflexivity|left; reflexivity].
    unfold dadd. cbn [Bplus]. destruct (Bool.eqb t b), (Bool.eqb t' b); right; eauto.
  - destruct H as [->|(t & t' & -> & ->)].
    + destruct y as [b|b| |b m e B]; [|left; reflexivity|left; reflexivity|left; reflexivity].
      unfold dadd. cbn [Bplus]. destruct (Bool.eqb b s), (Bool.eqb b s'); right; eauto.
    + unfold dadd. cbn [Bplus]. destruct (Bool.eqb t s), (Bool.eqb t' s'); right; eauto.
Qed.

(** Any history gives the quantile of sorted values. *)
Lemma quantile_history o l s d q d' r : l <> [] -> (Z.of_nat (length l) <= 2 ^ 53)%Z -> Forall Finite l -> Finite q -> 0 <= real q <= 1 ->
  Inv dltb l d -> Sorting dltb l s -> ReadBefore o \/ dsorted d = true -> dquantileCall o d q d' r ->
  Inv dltb l d' /\ exists v w, r = Ok v /\ dquantile s q = Ok w /\ SameReal v w.
Proof.
  intros N H F Fq Q I Hs Ho C. pose proof (Permutation_length (proj1 I)) as Ld. pose proof (Permutation_length (proj1 Hs)) as Ls.
  assert (Fs : Forall Finite s) by (eapply perm_forall; [apply Hs|exact F]).
  destruct (quantile_defined s q) as (w & W & Fw); auto; [destruct s; [destruct l; [congruence|discriminate]|discriminate]|lia|].
  assert (K : drank d q = dmul q (dofZ (u64 (Z.of_nat (length s) - 1)))) by (unfold drank; congruence).
  pose proof W as W'. unfold dquantile in W. cbv zeta in W. rewrite <- K in W. destruct C as [C|f d' r C D Hn|f d' x y C D Hn]; rewrite C in W; cbn [bind] in W; [discriminate| |].
  - rewrite D in W. pose proof (zget_range _ _ _ W) as Rw. split; [eapply Inv_nth; eauto|].
    destruct (nthD l s d f d' r F I Hs ltac:(lia) Hn) as (v & w' & -> & Hw & S). exists v, w. split; [reflexivity|]. split; [exact W'|]. congruence.
  - rewrite D in W. destruct (zget s f) as [wx| |] eqn:Ex; cbn [bind] in W; try discriminate. destruct (zget s (f + 1)) as [wy| |] eqn:Ey; cbn [bind] in W; try discriminate.
    pose proof (zget_range _ _ _ Ex) as Rx. pose proof (zget_range _ _ _ Ey) as Ry.
    destruct (twoNthD o l s d f d' x y F I Hs ltac:(lia) ltac:(lia) Ho Hn) as (I' & vx & vy & wx' & wy' & -> & -> & Gx & Gy & Sx & Sy).
    split; [exact I'|]. rewrite Ex in Gx. rewrite Ey in Gy. injection Gx as <-. injection Gy as <-. cbv zeta. cbn [bind]. eexists. exists w.
    split; [reflexivity|]. split; [exact W'|]. injection W as <-. apply alike_same; [exact Fw|].
    apply alike_add; apply alike_mul; apply same_alike; assumption.
Qed.

Lemma nth_totalD l d n : Forall Finite l -> Inv dltb l d -> (0 <= n < Z.of_nat (length l))%Z -> exists d' r, nthCall dltb d n d' r.
Proof.
  intros F [P _] Hn. pose proof (perm_forall _ _ _ P F) as Fd. destruct (dsorted d) eqn:E.
  - exists d. eexists. apply nth_sorted, E.
  - destruct (sorting_exists _ Fd) as (s & Ps & Hs). exists (mkDist s false). eexists. eapply (nth_unsorted dltb d n s); auto; [rewrite <- (Permutation_length P); exact Hn|].
    split; [exact Ps|]. intros i j x y Hi Hj. apply Hs; lia.
Qed.

Lemma quantile_total o l d q : l <> [] -> (Z.of_nat (length l) <= 2 ^ 53)%Z -> Forall Finite l -> Finite q -> 0 <= real q <= 1 ->
  Inv dltb l d -> exists d' r, dquantileCall o d q d' r.
Proof.
  intros N H F Fq Q I. destruct (sorting_exists _ F) as (s & Hs). pose proof (Permutation_length (proj1 I)) as Ld. pose proof (Permutation_length (proj1 Hs)) as Ls.
  assert (Fs : Forall Finite s) by (eapply perm_forall; [apply Hs|exact F]).
  destruct (quantile_defined s q) as (w & W & Fw); auto; [destruct s; [destruct l; [congruence|discriminate]|discriminate]|lia|].
  assert (K : drank d q = dmul q (dofZ (u64 (Z.of_nat (length s) - 1)))) by (unfold drank; congruence).
  unfold dquantile in W. cbv zeta in W. rewrite <- K in W. destruct (dtruncU (drank d q)) as [f| |] eqn:C; cbn [bind] in W; try discriminate.
  destruct (deqb (drank d q) (dofZ f)) eqn:D.
  - pose proof (zget_range _ _ _ W) as Rw. destruct (nth_totalD l d f F I ltac:(lia)) as (d' & r & Hn). exists d', r. eapply dquantile_exact; eauto.
  - destruct (zget s f) as [wx| |] eqn:Ex; cbn [bind] in W; try discriminate. destruct (zget s (f + 1)) as [wy| |] eqn:Ey; cbn [bind] in W; try discriminate.
    pose proof (zget_range _ _ _ Ex) as Rx. pose proof (zget_range _ _ _ Ey) as Ry.
    assert (T : exists d' x y, dtwoNth o d f d' x y).
    { destruct (nth_totalD l d f F I ltac:(lia)) as (d1 & a & H1). pose proof (Inv_nth _ _ _ _ _ _ I H1) as I1.
      destruct (nth_totalD l d1 (f + 1) F I1 ltac:(lia)) as (d2 & b & H2).
      destruct (nth_totalD l d (f + 1) F I ltac:(lia)) as (e1 & a' & H3). pose proof (Inv_nth _ _ _ _ _ _ I H3) as I3.
      destruct (nth_totalD l e1 f F I3 ltac:(lia)) as (e2 & b' & H4).
      destruct o; do 3 eexists; [eapply dtwo_left|eapply dtwo_right|eapply dtwo_call_left|eapply dtwo_call_right]; eauto. }
    destruct T as (d' & x & y & T). do 2 eexists. eapply dquantile_between; eauto.
Qed.
