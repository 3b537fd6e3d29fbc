From Coq Require Import Permutation.
From Verif Require Import Res Lemmas ArithModel SeqModel.

Lemma nth_replace {A} (l : list A) n m a : (n < length l)%nat -> nth_error (replace l n a) m = if Nat.eqb n m then Some a else nth_error l m.
Proof. intros H. destruct (Nat.eqb_spec n m) as [<-|N]; [now apply nth_error_replace_eq|now apply nth_error_replace_neq]. Qed.

Lemma list_ext {A} (l r : list A) : (forall k, nth_error l k = nth_error r k) -> l = r.
Proof.
  revert r. induction l as [|a l IH]; intros [|b r] H; auto.
  - specialize (H O). discriminate.
  - specialize (H O). discriminate.
  - assert (H0 := H O). cbn in H0. injection H0 as ->. f_equal. apply IH. intros k. exact (H (S k)).
Qed.

Section Tuple.
Context {A : Type} (mem : list A).

Lemma evalArgs_ok order : forall its args, NoDup order -> length args = length its ->
  (forall k, In k order -> exists it x, nth_error its k = Some it /\ zget mem it = Ok x) ->
  exists its' args', evalArgs mem order its args = Ok (its', args') /\ length its' = length its /\ length args' = length args /\
    (forall k, In k order -> exists it x, nth_error its k = Some it /\ zget mem it = Ok x /\ nth_error its' k = Some (it + 1) /\ nth_error args' k = Some (Some x)) /\
    (forall k, ~ In k order -> nth_error its' k = nth_error its k /\ nth_error args' k = nth_error args k).
Proof.
  induction order as [|k order IH]; intros its args ND L H; cbn [evalArgs].
  - exists its, args. repeat split; auto. intros k [].
  - inversion ND as [|? ? Nk ND']; subst. destruct (H k (or_introl eq_refl)) as (it & x & E & Ex). rewrite E, Ex. cbn [bind].
    assert (Bk : (k < length its)%nat) by (apply nth_error_Some; congruence).
    destruct (IH (replace its k (it + 1)) (replace args k (Some x)) ND') as (its' & args' & E' & L1 & L2 & P & Q).
    + now rewrite !replace_length.
    + intros j Hj. assert (k <> j) by (intros ->; tauto). rewrite nth_error_replace_neq by assumption. apply H. now right.
    + rewrite replace_length in L1. rewrite replace_length in L2. exists its', args'. split; [exact E'|]. split; [exact L1|]. split; [exact L2|]. split.
      * intros j [<-|Hj].
        -- exists it, x. destruct (Q k Nk) as [Q1 Q2]. rewrite Q1, Q2, !nth_error_replace_eq by lia. auto.
        -- destruct (P j Hj) as (it' & x' & P1 & P2 & P3 & P4). exists it', x'. assert (k <> j) by (intros ->; tauto). rewrite nth_error_replace_neq in P1 by assumption. auto.
      * intros j Hj. assert (k <> j) by (intros ->; apply Hj; now left). destruct (Q j) as [Q1 Q2]; [intros Hj'; apply Hj; now right|].
        rewrite Q1, Q2, !nth_error_replace_neq by assumption. auto.
Qed.

Lemma evalArgs_ub order : forall its args k it, NoDup order -> In k order -> nth_error its k = Some it -> zget mem it = UB -> evalArgs mem order its args = UB.
Proof.
  induction order as [|j order IH]; intros its args k it ND Hk E U; [destruct Hk|]. cbn [evalArgs]. inversion ND as [|? ? Nj ND']; subst.
  destruct (nth_error its j) as [it'|] eqn:Ej; [|reflexivity]. destruct Hk as [->|Hk].
  - assert (it' = it) as -> by congruence. now rewrite U.
  - unfold zget at 1. destruct (it' <? 0); [reflexivity|]. destruct (nth_error mem (Z.to_nat it')); cbn [bind]; [|reflexivity].
    apply (IH _ _ k it); auto. rewrite nth_error_replace_neq by (intros ->; tauto). exact E.
Qed.

Lemma readArgs_cases its : (exists xs, readArgs mem its = Ok xs /\ Forall2 (fun it x => zget mem it = Ok x) its xs) \/
  (readArgs mem its = UB /\ exists k it, nth_error its k = Some it /\ zget mem it = UB).
Proof.
  induction its as [|it its IH]; cbn [readArgs]; [left; exists []; auto|].
  assert (Z : (exists x, zget mem it = Ok x) \/ zget mem it = UB) by (unfold zget; destruct (it <? 0); auto; destruct (nth_error mem (Z.to_nat it)); eauto).
  destruct Z as [[x Ex]|U].
  - rewrite Ex. cbn [bind]. destruct IH as [(xs & E & F)|(E & k & it' & E1 & E2)]; rewrite E; cbn [bind].
    + left. exists (x :: xs). auto.
    + right. split; [reflexivity|]. exists (S k), it'. auto.
  - rewrite U. right. split; [reflexivity|]. exists O, it. auto.
Qed.

Lemma forall2_nth (its : list Z) xs : Forall2 (fun it x => zget mem it = Ok x) its xs -> length xs = length its /\
  forall k it, nth_error its k = Some it -> exists x, nth_error xs k = Some x /\ zget mem it = Ok x.
Proof.
  induction 1 as [|it x its xs H F [L IH]]; cbn [length]; [split; [reflexivity|intros [|k] it E; discriminate]|]. split; [lia|].
  intros [|k] it' E; cbn [nth_error] in *; [injection E as <-; eauto|apply IH; exact E].
Qed.

Lemma allSome_map (xs : list A) : allSome (map Some xs) = Some xs.
Proof. induction xs as [|x xs IH]; cbn [map allSome]; [reflexivity|]. now rewrite IH. Qed.

Theorem tupleRead_any order its : Permutation order (seq 0 (length its)) -> tupleRead order mem its = (xs <- readArgs mem its ;; Ok (xs, map (fun b => b + 1) its)).
Proof.
  intros P. assert (ND : NoDup order) by (apply (Permutation_NoDup (Permutation_sym P)), seq_NoDup).
  assert (I : forall k, In k order <-> (k < length its)%nat).
  { intros k. split; intros H; [apply (Permutation_in _ P), in_seq in H; lia|apply (Permutation_in _ (Permutation_sym P)), in_seq; lia]. }
  unfold tupleRead. destruct (readArgs_cases its) as [(xs & E & F)|(E & k & it & E1 & E2)]; rewrite E; cbn [bind].
  - destruct (forall2_nth its xs F) as [Lx N].
    destruct (evalArgs_ok order its (repeat None (length its)) ND) as (its' & args' & Ev & L1 & L2 & Q & _).
    + apply repeat_length.
    + intros k Hk. apply I in Hk. destruct (nth_error its k) as [it|] eqn:Ek; [|apply nth_error_None in Ek; lia]. destruct (N k it Ek) as (x & _ & Ex). eauto.
    + rewrite Ev. cbn [bind fst snd]. rewrite repeat_length in L2.
      assert (args' = map Some xs) as ->.
      { apply list_ext. intros k. rewrite nth_error_map. destruct (Nat.lt_ge_cases k (length its)) as [B|B].
        - destruct (Q k (proj2 (I k) B)) as (it & x & Q1 & Q2 & _ & Q4). rewrite Q4. destruct (N k it Q1) as (x' & Nx & Ex). rewrite Nx. cbn. congruence.
        - rewrite (proj2 (nth_error_None _ _)) by lia. rewrite (proj2 (nth_error_None xs k)) by lia. reflexivity. }
      assert (its' = map (fun b => b + 1) its) as ->.
      { apply list_ext. intros k. rewrite nth_error_map. destruct (Nat.lt_ge_cases k (length its)) as [B|B].
        - destruct (Q k (proj2 (I k) B)) as (it & x & Q1 & _ & Q3 & _). rewrite Q3, Q1. reflexivity.
        - rewrite (proj2 (nth_error_None _ _)) by lia. rewrite (proj2 (nth_error_None its k)) by lia. reflexivity. }
      rewrite allSome_map. reflexivity.
  - rewrite (evalArgs_ub order its _ k it ND); auto. apply I. apply nth_error_Some. congruence.
Qed.
End Tuple.

Theorem generate_any {A S} (func : S -> list A -> res (S * A)) orders : forall n st mem a its, (forall j, Permutation (orders j) (seq 0 (length its))) ->
  generateAny orders func n st mem a its = generate func n st mem a its.
Proof.
  induction n as [|n IH]; intros st mem a its H; [reflexivity|]. cbn [generateAny generate]. rewrite tupleRead_any by apply H.
  destruct (readArgs mem its) as [xs| |]; cbn [bind fst snd]; auto. destruct (func st xs) as [r| |]; cbn [bind fst snd]; auto.
  destruct (zset mem a (snd r)) as [m| |]; cbn [bind]; auto. apply IH. intros j. rewrite map_length. apply H.
Qed.

(** Transform *)
Lemma transformLoop_spec {A B} (f : A -> B) (l : list A) order : forall out, length out = length l -> (forall k, In k order -> (k < length l)%nat) ->
  exists out', transformLoop f l order out = Ok out' /\ length out' = length l /\
    forall k, nth_error out' k = if in_dec Nat.eq_dec k order then option_map f (nth_error l k) else nth_error out k.
Proof.
  induction order as [|j order IH]; intros out L H; cbn [transformLoop].
  - exists out. repeat split; auto.
  - assert (Bj : (j < length l)%nat) by (apply H; now left). rewrite zget_nat. destruct (nth_error l j) as [x|] eqn:Ex; [|apply nth_error_None in Ex; lia]. cbn [bind].
    rewrite zset_ok by lia. cbn [bind]. rewrite Nat2Z.id. destruct (IH (replace out j (f x))) as (out' & E & L' & Q).
    + now rewrite replace_length.
    + intros k Hk. apply H. now right.
    + exists out'. split; [exact E|]. split; [exact L'|]. intros k. rewrite Q. rewrite nth_replace by lia.
      destruct (in_dec Nat.eq_dec k order) as [I1|I1]; destruct (in_dec Nat.eq_dec k (j :: order)) as [I2|I2]; auto.
      * destruct I2. now right.
      * destruct I2 as [->|I2]; [|tauto]. rewrite Nat.eqb_refl, Ex. reflexivity.
      * destruct (Nat.eqb_spec j k) as [->|N]; [destruct I2; now left|reflexivity].
Qed.

Theorem seqTransform_any {A B} zero order (f : A -> B) l : Permutation order (seq 0 (length l)) -> seqTransform zero order f l = Ok (map f l).
Proof.
  intros P. unfold seqTransform. destruct (transformLoop_spec f l order (repeat zero (length l))) as (out & E & L & Q).
  - apply repeat_length.
  - intros k Hk. apply (Permutation_in _ P), in_seq in Hk. lia.
  - rewrite E. f_equal. apply list_ext. intros k. rewrite Q, nth_error_map. destruct (in_dec Nat.eq_dec k order) as [I|I]; [reflexivity|].
    assert (length l <= k)%nat. { destruct (Nat.lt_ge_cases k (length l)); auto. destruct I. apply (Permutation_in _ (Permutation_sym P)), in_seq. lia. }
    rewrite (proj2 (nth_error_None _ _)) by (rewrite repeat_length; lia). rewrite (proj2 (nth_error_None l k)) by lia. reflexivity.
Qed.
