(** The powers of 48271 modulo 2^31 - 1 take all the non null values: the period of std::minstd_rand. *)
From Coq Require Import Znumtheory Zpow_facts.
From Verif Require Import Res Lemmas.
Open Scope Z_scope.

Local Notation M := 2147483647.
Local Notation N := 2147483646.
Local Notation g := 48271.

Definition one (k : Z) : Prop := g ^ k mod M = 1.

Lemma one_power k : 0 <= k -> one k <-> Zpow_mod g k M = 1.
Proof. intros H. unfold one. rewrite Zpow_mod_correct by lia. tauto. Qed.

Lemma one_N : one N.
Proof. apply one_power; [lia|]. vm_compute. reflexivity. Qed.
Lemma not_one_quotients : Forall (fun p => ~ one (N / p)) [2; 3; 7; 11; 31; 151; 331].
Proof.
  repeat constructor; (rewrite one_power by (vm_compute; discriminate)); vm_compute; discriminate.
Qed.

Lemma one_add a b : 0 <= a -> 0 <= b -> one b -> g ^ (a + b) mod M = g ^ a mod M.
Proof. unfold one. intros Ha Hb H. rewrite Z.pow_add_r by lia. rewrite Z.mul_mod by lia. rewrite H, Z.mul_1_r. apply Z.mod_mod. lia. Qed.
Lemma one_sub a b : 0 <= b <= a -> one a -> one b -> one (a - b).
Proof. intros H Ha Hb. unfold one. rewrite <- (one_add (a - b) b) by (auto; lia). replace (a - b + b) with a by lia. exact Ha. Qed.
Lemma one_mul a k : 0 <= a -> 0 <= k -> one a -> one (a * k).
Proof.
  intros Ha Hk H. revert k Hk. apply natlike_ind; [rewrite Z.mul_0_r; reflexivity|]. intros k Hk IH.
  replace (a * Z.succ k) with (a * k + a) by lia. unfold one. rewrite one_add by (auto; nia). exact IH.
Qed.
Lemma one_gcd n : forall a b, 0 <= a -> 0 <= b -> a + b < Z.of_nat n -> one a -> one b -> one (Z.gcd a b).
Proof.
  induction n as [|n IH]; intros a b Ha Hb Hn Oa Ob; [lia|].
  destruct (Z.eq_dec a 0) as [->|Na]; [rewrite Z.gcd_0_l, Z.abs_eq by lia; exact Ob|].
  destruct (Z.eq_dec b 0) as [->|Nb]; [rewrite Z.gcd_0_r, Z.abs_eq by lia; exact Oa|].
  destruct (Z_le_gt_dec b a) as [H|H].
  - rewrite Z.gcd_comm. replace (Z.gcd b a) with (Z.gcd b (a - b)) by (apply Z.gcd_sub_diag_r). apply IH; try lia; auto. apply one_sub; auto.
  - replace (Z.gcd a b) with (Z.gcd a (b - a)) by (apply Z.gcd_sub_diag_r). apply IH; try lia; auto. apply one_sub; auto; lia.
Qed.

Definition small_prime (p : Z) : bool := (1 <? p) && forallb (fun n => Z.gcd n p =? 1) (zrange 1 (p - 1)).
Lemma small_primes : forallb small_prime [2; 3; 7; 11; 31; 151; 331] = true.
Proof. vm_compute. reflexivity. Qed.
Lemma small_prime_gcd p q : small_prime p = true -> Z.gcd q p <> 1 -> (p | q).
Proof.
  unfold small_prime. rewrite andb_true_iff. intros [H1 H2] H3. rewrite forallb_forall in H2.
  apply Z.mod_divide; [lia|]. destruct (Z.eq_dec (q mod p) 0) as [E|E]; [exact E|exfalso]. apply H3.
  assert (K : Z.gcd (q mod p) p = 1). { apply Z.eqb_eq, H2. apply In_zrange. pose proof (Z.mod_pos_bound q p). lia. }
  rewrite Z.gcd_mod in K by lia. rewrite Z.gcd_comm. exact K.
Qed.

Lemma factor_of q : 1 < q -> (q | N) -> exists p, In p [2; 3; 7; 11; 31; 151; 331] /\ (p | q).
Proof.
  intros Hq HN. pose proof small_primes as SP. rewrite forallb_forall in SP.
  destruct (Forall_Exists_dec (fun p => Z.gcd q p = 1) (fun p => Z.eq_dec (Z.gcd q p) 1) [2; 3; 7; 11; 31; 151; 331]) as [F|E].
  - exfalso. inversion F as [|? ? F2 G2]; subst. inversion G2 as [|? ? F3 G3]; subst. inversion G3 as [|? ? F7 G7]; subst. inversion G7 as [|? ? F11 G11]; subst.
    inversion G11 as [|? ? F31 G31]; subst. inversion G31 as [|? ? F151 G151]; subst. inversion G151 as [|? ? F331 _]; subst.
    replace N with (2 * (3 * (3 * (7 * (11 * (31 * (151 * (331 * 1)))))))) in HN by reflexivity.
    do 8 (apply Z.gauss in HN; [|assumption]). apply Z.divide_1_r_nonneg in HN; lia.
  - apply Exists_exists in E as (p & Hp & E). exists p. split; [exact Hp|]. apply small_prime_gcd; auto.
Qed.

Lemma order d : 0 < d < N -> ~ one d.
Proof.
  intros Hd O. set (e := Z.gcd d N).
  assert (Oe : one e) by (apply (one_gcd (Z.to_nat (d + N + 1))); try lia; [exact O|exact one_N]).
  assert (He : 0 < e) by (pose proof (Z.gcd_nonneg d N); destruct (Z.eq_dec e 0) as [E|E]; [apply Z.gcd_eq_0_r in E; lia|subst e; lia]).
  destruct (Z.gcd_divide_r d N) as [q Eq]. fold e in Eq. destruct (Z.gcd_divide_l d N) as [r Er]. fold e in Er. clearbody e.
  assert (0 < r) by (apply (Z.mul_pos_cancel_r r e); lia). assert (e <= d) by (rewrite Er; clear - He H; nia). assert (Hq : 1 < q). { destruct (Z_lt_le_dec 1 q) as [L|L]; [exact L|exfalso]. assert (q * e <= 1 * e) by (apply Z.mul_le_mono_nonneg_r; lia). lia. }
  destruct (factor_of q Hq) as (p & Hp & [t Et]); [exists e; lia|].
  pose proof not_one_quotients as NQ. rewrite Forall_forall in NQ. apply (NQ p Hp).
  assert (P1 : 1 < p) by (destruct Hp as [<-|[<-|[<-|[<-|[<-|[<-|[<-|[]]]]]]]]; lia).
  replace (N / p) with (e * t). { apply one_mul; [lia| |exact Oe]. clear - P1 Hq Et. nia. }
  apply Z.div_unique_exact; [lia|]. rewrite Eq, Et. ring.
Qed.

Lemma powers_distinct i j : 0 <= i < j -> j < i + N -> g ^ i mod M <> g ^ j mod M.
Proof.
  intros H1 H2 E.
  (* multiply both sides by the power which makes the first one 1 *)
  set (k := (- i) mod N). assert (Hk : 0 <= k < N) by (apply Z.mod_pos_bound; lia).
  assert (O : one (k + i)).
  { pose proof (Z.div_mod (- i) N ltac:(lia)) as D. fold k in D. replace (k + i) with (N * (- ((- i) / N))) by lia. apply one_mul; [lia|nia|exact one_N]. }
  assert (Oj : one (k + j)).
  { unfold one in *. rewrite Z.pow_add_r, Z.mul_mod, <- E, <- Z.mul_mod, <- Z.pow_add_r by lia. exact O. }
  apply (order (j - i)); [lia|]. replace (j - i) with (k + j - (k + i)) by lia. apply one_sub; auto. lia.
Qed.

Lemma power_range i : 0 <= i -> 0 < g ^ i mod M < M.
Proof.
  intros Hi. pose proof (Z.mod_pos_bound (g ^ i) M ltac:(lia)) as B. destruct (Z.eq_dec (g ^ i mod M) 0) as [E|E]; [exfalso|lia].
  pose proof (one_mul N (i / N + 1) ltac:(lia) ltac:(pose proof (Z.div_pos i N); lia) one_N) as O. unfold one in O.
  pose proof (Z.div_mod i N ltac:(lia)). pose proof (Z.mod_pos_bound i N ltac:(lia)).
  replace (N * (i / N + 1)) with ((N * (i / N + 1) - i) + i) in O by lia. rewrite Z.pow_add_r in O by lia. rewrite Z.mul_mod, E, Z.mul_0_r in O by lia. discriminate.
Qed.

(** All the non null values are powers, by counting. *)
Lemma all_powers_gen n x : n = N -> 0 < x < M -> exists i, 0 <= i < n /\ g ^ i mod M = x.
Proof.
  intros En Hx.
  assert (ND : NoDup (map (fun i => g ^ i mod M) (zrange 0 (n - 1)))).
  { assert (K : forall s, (forall i, In i s -> 0 <= i < n) -> NoDup s -> NoDup (map (fun i => g ^ i mod M) s)).
    { induction s as [|i s IH]; intros R D; cbn [map]; constructor; inversion D as [|? ? Nin D'].
      - intros HI. apply in_map_iff in HI as (j & E & Hj). assert (i <> j) by (intros ->; contradiction).
        pose proof (R i (or_introl eq_refl)). pose proof (R j (or_intror Hj)). destruct (Z_lt_ge_dec i j); [apply (powers_distinct i j); lia|apply (powers_distinct j i); lia].
      - apply IH; [intros j Hj; apply R; right; exact Hj|exact D']. }
    apply K; [intros i Hi; apply In_zrange in Hi; lia|apply zrange_NoDup]. }
  assert (IN : incl (map (fun i => g ^ i mod M) (zrange 0 (n - 1))) (zrange 1 n)).
  { intros y Hy. apply in_map_iff in Hy as (i & <- & Hi). apply In_zrange in Hi. apply In_zrange. pose proof (power_range i). lia. }
  assert (LEN : (length (zrange 1 n) <= length (map (fun i => (g ^ i mod M)%Z) (zrange 0 (n - 1))))%nat).
  { rewrite map_length. pose proof (zrange_length 0 (n - 1)). pose proof (zrange_length 1 n). lia. }
  pose proof (NoDup_length_incl ND LEN IN) as IN'.
  assert (HI : In x (zrange 1 n)) by (apply In_zrange; lia). apply IN' in HI. apply in_map_iff in HI as (i & E & Hi). apply In_zrange in Hi. exists i. split; [lia|exact E].
Qed.
Lemma all_powers x : 0 < x < M -> exists i, 0 <= i < N /\ g ^ i mod M = x.
Proof. exact (all_powers_gen N x eq_refl). Qed.

Lemma seeds_distinct s i j : 0 < s < M -> 0 <= i < j -> j < i + N -> s * g ^ i mod M <> s * g ^ j mod M.
Proof.
  intros Hs H1 H2. destruct (all_powers s Hs) as (a & Ha & <-). rewrite !Z.mul_mod_idemp_l by lia. rewrite <- !Z.pow_add_r by lia.
  apply powers_distinct; lia.
Qed.
Lemma seeds_period s i : 0 <= i -> s * g ^ (i + N) mod M = s * g ^ i mod M.
Proof. intros Hi. rewrite Z.mul_mod by lia. rewrite one_add by (auto using one_N; lia). rewrite <- Z.mul_mod by lia. reflexivity. Qed.
Lemma seeds_range s i : 0 < s < M -> 0 <= i -> 0 < s * g ^ i mod M < M.
Proof.
  intros Hs Hi. destruct (all_powers s Hs) as (a & Ha & <-). rewrite Z.mul_mod_idemp_l by lia. rewrite <- Z.pow_add_r by lia. apply power_range. lia.
Qed.
