(** Noises. *)
From Coq Require Import QArith Qabs Lqa.
From Verif Require Import Res Lemmas ArithModel ArithSpec ArithProofs RandomModel RandomSpec LcgProofs.
Open Scope Z_scope.

(** ** Stable Poisson noise *)

Lemma minstd_range x : 0 <= minstdNext x < 2147483647.
Proof. unfold minstdNext, minstdModulus. apply Z.mod_pos_bound. lia. Qed.

Lemma seed_range seed i : 0 <= seedAt seed i < 2147483647.
Proof. apply Z.mod_pos_bound. lia. Qed.

Lemma seedAt_0 seed : minstdNext (minstdSeed seed) = seedAt seed 0.
Proof.
  unfold minstdNext, minstdSeed, seedAt, firstState, minstdModulus. change (Z.of_nat 0 + 1) with 1. rewrite Z.pow_1_r. rewrite Z.mul_comm. reflexivity.
Qed.
Lemma seedAt_S seed i : minstdNext (seedAt seed i) = seedAt seed (S i).
Proof.
  unfold minstdNext, seedAt, minstdModulus. rewrite Z.mul_mod_idemp_r by lia.
  replace (Z.of_nat (S i) + 1) with (1 + (Z.of_nat i + 1)) by lia. rewrite (Z.pow_add_r 48271 1 (Z.of_nat i + 1)) by lia. rewrite Z.pow_1_r.
  rewrite !Z.mul_assoc, (Z.mul_comm 48271 (firstState seed)). reflexivity.
Qed.
Lemma firstState_range seed : 0 < firstState seed < 2147483647.
Proof. unfold firstState. pose proof (Z.mod_pos_bound seed 2147483647 ltac:(lia)). destruct (seed mod 2147483647 =? 0) eqn:E; lia. Qed.
Lemma seedAt_distinct seed i j : (i < j)%nat -> Z.of_nat j < Z.of_nat i + 2147483646 -> seedAt seed i <> seedAt seed j.
Proof. intros H1 H2. apply seeds_distinct; [apply firstState_range|lia|lia]. Qed.
Lemma seedAt_positive seed i : 0 < seedAt seed i < 2147483647.
Proof. apply seeds_range; [apply firstState_range|lia]. Qed.

Section Poisson.
Context {T E : Type}.
Variable engine : Z -> E.
Variable poisson : T -> E -> E * T.
Variable positive : T -> bool.
Notation stableApply := (stableApply engine poisson positive).

Definition noisy (seed : Z) (i : nat) (x : T) : T := snd (poisson x (engine (seedAt seed i))).

Fixpoint noisyFrom (seed : Z) (i : nat) (l : list T) : list T :=
  match l with [] => [] | x :: l' => noisy seed i x :: noisyFrom seed (S i) l' end.

Lemma noisyFrom_get seed l : forall i k x, zget l k = Ok x -> zget (noisyFrom seed i l) k = Ok (noisy seed (i + Z.to_nat k) x).
Proof.
  induction l as [|y l IH]; intros i k x H.
  - unfold zget in H. destruct (k <? 0); [discriminate|]. destruct (Z.to_nat k); discriminate.
  - cbn [noisyFrom]. destruct (Z.eq_dec k 0) as [->|N].
    + cbn in H |- *. rewrite Nat.add_0_r. congruence.
    + unfold zget in H |- *. destruct (Z.ltb_spec k 0); [discriminate|].
      assert (K : Z.to_nat k = S (Z.to_nat (k - 1))) by lia. rewrite K in H |- *. cbn [nth_error] in H |- *.
      specialize (IH (S i) (k - 1) x). unfold zget in IH. destruct (Z.ltb_spec (k - 1) 0); [lia|]. rewrite IH by exact H.
      do 2 f_equal. lia.
Qed.

Lemma stable_calls now seed l : Forall (fun x => positive x = true) l -> forall i st, minstdNext (fst st) = seedAt seed i ->
  exists st', calls (stableApply now) st (map (fun x => [x]) l) = Ok (st', noisyFrom seed i l).
Proof.
  induction 1 as [|x l Hx H IH]; intros i st S0; cbn [map calls noisyFrom]; [eauto|].
  unfold RandomModel.stableApply at 1. rewrite Hx. cbn [bind fst snd].
  destruct (IH (S i) (minstdNext (fst st), S (snd st))) as (st' & ->); [cbn [fst]; rewrite S0; apply seedAt_S|].
  cbn [bind fst snd]. exists st'. do 3 f_equal. unfold noisy, generatorNew. rewrite S0.
  pose proof (seed_range seed i). destruct (Z.eqb_spec (seedAt seed i) (2 ^ 64 - 1)); [lia|]. reflexivity.
Qed.

(** Reading a container *)
Lemma zget_slice (mem : list T) a n i : Allocated mem a n -> 0 <= i < Z.of_nat n -> zget (firstn n (skipn (Z.to_nat a) mem)) i = zget mem (a + i).
Proof.
  intros [H1 H2] Hi. unfold zget. destruct (Z.ltb_spec i 0); [lia|]. destruct (Z.ltb_spec (a + i) 0); [lia|].
  replace (Z.to_nat (a + i)) with (Z.to_nat a + Z.to_nat i)%nat by lia.
  rewrite <- (firstn_skipn n (skipn (Z.to_nat a) mem)) at 1.
  assert (E' : nth_error (firstn n (skipn (Z.to_nat a) mem)) (Z.to_nat i) = nth_error (skipn (Z.to_nat a) mem) (Z.to_nat i)).
  { rewrite <- (firstn_skipn n (skipn (Z.to_nat a) mem)) at 2. rewrite nth_error_app1; [reflexivity|].
    rewrite firstn_length, skipn_length. lia. }
  rewrite firstn_skipn. rewrite E'. assert (E2 : forall (l : list T) k j, nth_error (skipn k l) j = nth_error l (k + j)).
  { clear. intros l k. revert l. induction k as [|k IH]; intros l j; [reflexivity|]. destruct l; [cbn; destruct j; reflexivity|]. apply IH. }
  rewrite E2. reflexivity.
Qed.

Lemma stable_apply mean seed st0 now n mem a : Allocated mem a n -> stableNew positive mean seed = Ok st0 ->
  (forall i x, 0 <= i < Z.of_nat n -> zget mem (a + i) = Ok x -> positive x = true) ->
  exists st' mem', apply (stableApply now) n st0 mem a [] = Ok (st', mem') /\ Frame mem mem' a n /\
    forall i x, 0 <= i < Z.of_nat n -> zget mem (a + i) = Ok x -> zget mem' (a + i) = Ok (noisy seed (Z.to_nat i) x).
Proof.
  intros HA HN HP. set (l := firstn n (skipn (Z.to_nat a) mem)).
  assert (L : length l = n) by (unfold l; rewrite firstn_length, skipn_length; destruct HA; lia).
  assert (G : forall i, 0 <= i < Z.of_nat n -> zget l i = zget mem (a + i)) by (intros i Hi; apply zget_slice; assumption).
  assert (V : Forall (fun x => positive x = true) l).
  { apply Forall_forall. intros x Hx. apply In_nth_error in Hx. destruct Hx as [k Hk].
    assert (K : (k < n)%nat) by (rewrite <- L; apply nth_error_Some; congruence). apply (HP (Z.of_nat k) x); [lia|].
    rewrite <- G by lia. unfold zget. destruct (Z.ltb_spec (Z.of_nat k) 0); [lia|]. rewrite Nat2Z.id, Hk. reflexivity. }
  assert (S0 : minstdNext (fst st0) = seedAt seed 0) by (unfold stableNew in HN; destruct (positive mean); [|discriminate]; injection HN as <-; apply seedAt_0).
  destruct (stable_calls now seed l V O st0 S0) as (st' & C).
  destruct (apply_spec (stableApply now) n st0 mem a [] (map (fun x => [x]) l) st' (noisyFrom seed 0 l) HA) as (mem' & Em & F & P).
  - constructor.
  - rewrite map_length. exact L.
  - intros i Hi. cbn [shifted map readArgs bind]. rewrite <- G by exact Hi. unfold zget. destruct (Z.ltb_spec i 0); [lia|].
    rewrite nth_error_map. destruct (nth_error l (Z.to_nat i)); reflexivity.
  - exact C.
  - exists st', mem'. split; [exact Em|]. split; [exact F|]. intros i x Hi Hx. rewrite P by exact Hi. rewrite <- G in Hx by exact Hi.
    rewrite (noisyFrom_get seed l O i x Hx). reflexivity.
Qed.

(** Locality *)
Lemma stable_local seed mean mean' st0 st0' now now' n n' mem mem' a a' st1 st1' out out' :
  Allocated mem a n -> Allocated mem' a' n' ->
  stableNew positive mean seed = Ok st0 -> stableNew positive mean' seed = Ok st0' ->
  (forall i x, 0 <= i < Z.of_nat n -> zget mem (a + i) = Ok x -> positive x = true) ->
  (forall i x, 0 <= i < Z.of_nat n' -> zget mem' (a' + i) = Ok x -> positive x = true) ->
  apply (stableApply now) n st0 mem a [] = Ok (st1, out) -> apply (stableApply now') n' st0' mem' a' [] = Ok (st1', out') ->
  forall i, 0 <= i < Z.of_nat n -> i < Z.of_nat n' -> zget mem (a + i) = zget mem' (a' + i) -> zget out (a + i) = zget out' (a' + i).
Proof.
  intros A A' N N' P P' E1 E2 i Hi Hi' Eq.
  destruct (stable_apply mean seed st0 now n mem a A N P) as (s & o & Eo & _ & G). assert (o = out) by congruence. subst o.
  destruct (stable_apply mean' seed st0' now' n' mem' a' A' N' P') as (s' & o' & Eo' & _ & G'). assert (o' = out') by congruence. subst o'.
  destruct (zget_in_range mem (a + i)) as [x Hx]; [destruct A; lia|].
  rewrite (G i x Hi Hx). rewrite (G' i x); [reflexivity|lia|]. rewrite <- Eq. exact Hx.
Qed.

Lemma stable_nonpositive now st x : positive x = false -> stableApply now st [x] = UB.
Proof. intros H. unfold RandomModel.stableApply. rewrite H. reflexivity. Qed.
End Poisson.

(** The default mean, 0, and values 0 are refused. *)
Lemma stable_zero (E : Type) engine (poisson : Z -> E -> E * Z) now st : stableNew (fun m => 0 <? m) 0 0 = UB /\
  stableApply engine poisson (fun m => 0 <? m) now st [0] = UB.
Proof. split; reflexivity. Qed.

(** Unstable Poisson noise is not local. *)
Lemma poisson_not_local : exists (poisson : Z -> Z -> Z * Z) out out' st st',
  apply (poissonApply poisson (fun m => 0 <? m)) 2 7 [1; 5] 0 [] = Ok (st, out) /\
  apply (poissonApply poisson (fun m => 0 <? m)) 2 7 [2; 5] 0 [] = Ok (st', out') /\ zget out 1 <> zget out' 1.
Proof.
  exists (fun m e => (e + m, e)). do 4 eexists. split; [vm_compute; reflexivity|]. split; [vm_compute; reflexivity|]. vm_compute. discriminate.
Qed.

(** ** Impulse noise *)

Lemma fold_null m : forall a, (fold_left (fun n (vp : Z * Q) => n - snd vp) m a == a - sumOfProbabilities m)%Q.
Proof.
  induction m as [|[v p] m IH]; intros a; cbn [fold_left]; [unfold sumOfProbabilities; cbn; ring|]. rewrite IH. unfold sumOfProbabilities. cbn [map sumQ snd]. ring.
Qed.

Lemma fold_right_sum l : fold_right Qplus 0%Q l = sumQ l.
Proof. induction l; cbn [fold_right sumQ]; [reflexivity|]. rewrite IHl. reflexivity. Qed.

Lemma sumQ_app l m : (sumQ (l ++ m) == sumQ l + sumQ m)%Q.
Proof. induction l; cbn [app sumQ]; [ring|]. rewrite IHl. ring. Qed.

Lemma tolerance_epsilon (m : list (Z * Q)) : (epsilon * inject_Z (Z.of_nat (length m)) == tolerance m)%Q.
Proof. unfold tolerance, epsilon. ring. Qed.

Lemma discrete_ok w : Forall (fun x => 0 <= x)%Q w -> (0 < sumQ w)%Q -> discreteProbabilities w = Some (map (fun x => x / sumQ w)%Q w).
Proof.
  intros F S. unfold discreteProbabilities. rewrite fold_right_sum.
  replace (forallb (fun x => Qle_bool 0 x) w) with true.
  - replace (Qle_bool (sumQ w) 0) with false; [reflexivity|]. symmetry. destruct (Qle_bool (sumQ w) 0) eqn:E; [|reflexivity]. apply Qle_bool_iff in E. exfalso. lra.
  - symmetry. apply forallb_forall. intros x Hx. rewrite Forall_forall in F. apply Qle_bool_iff, F, Hx.
Qed.

Lemma map_div_one l s : (s == 1)%Q -> Forall2 Qeq (map (fun x => x / s)%Q l) l.
Proof. intros H. induction l; constructor; [rewrite H; field|exact IHl]. Qed.

Lemma impulse_low m : Forall (fun vp => 0 <= snd vp)%Q m -> (sumOfProbabilities m + tolerance m < 1)%Q ->
  exists ps, impulseDistribution m = Some ps /\ Forall2 Qeq ps (map snd m ++ [(1 - sumOfProbabilities m)%Q]).
Proof.
  intros F H. unfold impulseDistribution, impulseWeights.
  set (null := fold_left _ m 1%Q). assert (N : (null == 1 - sumOfProbabilities m)%Q) by apply fold_null.
  replace (Qle_bool null _) with false.
  2:{ symmetry. destruct (Qle_bool null _) eqn:E; [|reflexivity]. apply Qle_bool_iff in E. rewrite tolerance_epsilon in E. exfalso. lra. }
  assert (T0 : (0 <= tolerance m)%Q) by (unfold tolerance; apply Qmult_le_0_compat; [change 0%Q with (inject_Z 0); rewrite <- Zle_Qle; lia|vm_compute; discriminate]).
  assert (S1 : (sumQ (map snd m ++ [null]) == 1)%Q) by (rewrite sumQ_app; cbn [sumQ]; rewrite N; unfold sumOfProbabilities; ring).
  eexists. split; [apply discrete_ok; [|lra]|].
  - apply Forall_app. split; [apply Forall_map; exact F|]. constructor; [lra|constructor].
  - rewrite map_app. apply Forall2_app; [apply map_div_one; exact S1|]. constructor; [|constructor]. rewrite S1, N. field.
Qed.

Lemma tolerance_small (m : list (Z * Q)) : Z.of_nat (length m) < 2 ^ 52 -> (tolerance m < 1)%Q.
Proof.
  intros H. unfold tolerance. apply Qlt_le_trans with (inject_Z (2 ^ 52) * (1 # 2 ^ 52))%Q; [|vm_compute; discriminate].
  apply Qmult_lt_compat_r; [reflexivity|]. rewrite <- Zlt_Qlt. exact H.
Qed.

Lemma impulse_high m : Forall (fun vp => 0 <= snd vp)%Q m -> Z.of_nat (length m) < 2 ^ 52 -> (1 <= sumOfProbabilities m + tolerance m)%Q ->
  (0 < sumOfProbabilities m)%Q /\ impulseDistribution m = Some (map (fun vp => snd vp / sumOfProbabilities m)%Q m).
Proof.
  intros F C H. pose proof (tolerance_small m C) as T1. assert (P : (0 < sumOfProbabilities m)%Q) by lra. split; [exact P|].
  unfold impulseDistribution, impulseWeights.
  set (null := fold_left _ m 1%Q). assert (N : (null == 1 - sumOfProbabilities m)%Q) by apply fold_null.
  replace (Qle_bool null _) with true.
  2:{ symmetry. apply Qle_bool_iff. rewrite tolerance_epsilon. lra. }
  rewrite discrete_ok; [|apply Forall_map; exact F|exact P]. rewrite map_map. reflexivity.
Qed.

(** The index is less than the number of weights *)
Lemma impulse_output m ps index x : impulseDistribution m = Some ps -> (index < length ps)%nat ->
  (exists v p, nth_error m index = Some (v, p) /\ impulseApply m index x = v) \/
  (index = length m /\ length ps = S (length m) /\ impulseApply m index x = x).
Proof.
  intros D H. unfold impulseApply, impulseValues. rewrite nth_error_map. destruct (nth_error m index) as [[v p]|] eqn:E.
  - left. exists v, p. split; reflexivity.
  - right. apply nth_error_None in E. assert (L : (length ps <= S (length m))%nat).
    { unfold impulseDistribution, discreteProbabilities in D. destruct (_ && _); [|discriminate]. injection D as <-. rewrite map_length.
      unfold impulseWeights. destruct (Qle_bool _ _); rewrite ?app_length, map_length; cbn; lia. }
    split; [lia|]. split; [lia|reflexivity].
Qed.

Lemma sum_member l p : Forall (fun x => 0 <= x)%Q l -> In p l -> (0 <= p <= sumQ l)%Q.
Proof.
  induction 1 as [|x l Hx F IH]; intros H; [destruct H|]. cbn [sumQ].
  assert (S : (0 <= sumQ l)%Q) by (clear - F; induction F; cbn [sumQ]; lra). destruct H as [->|H]; [lra|]. specialize (IH H). lra.
Qed.

(** In between, the probabilities are those given up to the tolerance *)
Lemma impulse_close m v p : Forall (fun vp => 0 <= snd vp)%Q m -> Z.of_nat (length m) < 2 ^ 52 ->
  (1 <= sumOfProbabilities m + tolerance m)%Q -> (sumOfProbabilities m <= 1)%Q -> In (v, p) m -> (0 <= p / sumOfProbabilities m - p <= tolerance m)%Q.
Proof.
  intros F C H1 H2 Hi. destruct (impulse_high m F C H1) as [P _]. set (s := sumOfProbabilities m) in *.
  assert (B : (0 <= p <= s)%Q). { apply (sum_member (map snd m)); [apply Forall_map; exact F|]. apply in_map_iff. exists (v, p). auto. }
  assert (E : (p / s - p == p / s * (1 - s))%Q) by (field; lra). assert (R : (0 <= p / s <= 1)%Q).
  { split; [apply Qle_shift_div_l; [exact P|lra]|apply Qle_shift_div_r; [exact P|lra]]. }
  rewrite E. split.
  - apply Qmult_le_0_compat; lra.
  - apply Qle_trans with (1 * (1 - s))%Q; [apply Qmult_le_compat_r; lra|lra].
Qed.

Lemma impulse_refuted : exists m, Forall (fun vp => 0 <= snd vp)%Q m /\ (sumOfProbabilities m < 1)%Q /\
  exists ps, impulseDistribution m = Some ps /\ forall index x, (index < length ps)%nat -> impulseApply m index x = 7.
Proof.
  exists [(7, (1 - (1 # 2 ^ 53))%Q)]. split; [constructor; [vm_compute; discriminate|constructor]|]. split; [vm_compute; reflexivity|].
  eexists. split; [vm_compute; reflexivity|]. intros [|i] x H; [reflexivity|]. cbn in H. lia.
Qed.

(** Salt and pepper *)
Lemma salt_pepper pS pP s p : saltAndPepper pS pP s p = if s <? p then [(s, pS); (p, pP)] else if s =? p then [(s, pS)] else [(p, pP); (s, pS)].
Proof.
  unfold saltAndPepper. cbn [mapInsert]. destruct (Z.ltb_spec s p), (Z.ltb_spec p s), (Z.eqb_spec p s), (Z.eqb_spec s p); try lia; reflexivity.
Qed.
