From Verif Require Import Res Lemmas AlignedModel AlignedSpec.

(** Address arithmetic *)

Lemma u64_small z : 0 <= z < 2 ^ 64 -> u64 z = z.
Proof. apply Z.mod_small. Qed.

Lemma alignUp_pow2 p k : 0 <= k < 64 -> 0 <= p -> p + (2 ^ k - 1) < 2 ^ 64 ->
  alignUp p (2 ^ k) = (p + (2 ^ k - 1)) / 2 ^ k * 2 ^ k.
Proof.
  intros Hk Hp H. unfold alignUp. assert (0 < 2 ^ k) by (apply Z.pow_pos_nonneg; lia).
  rewrite u64_small by lia. set (x := p + (2 ^ k - 1)) in *. assert (Hx : 0 <= x < 2 ^ 64) by lia. clearbody x.
  unfold u64. rewrite <- Z.shiftl_mul_pow2, <- Z.shiftr_div_pow2 by lia.
  replace (2 ^ k - 1) with (Z.ones k) by (rewrite Z.ones_equiv; lia).
  apply Z.bits_inj'. intros n Hn. rewrite Z.land_spec, Z.shiftl_spec by lia.
  destruct (Z_lt_dec n 64).
  - rewrite Z.mod_pow2_bits_low by lia. rewrite Z.lnot_spec by lia.
    destruct (Z_lt_dec n k).
    + rewrite Z.ones_spec_low by lia. rewrite (Z.testbit_neg_r _ (n - k)) by lia. now rewrite andb_false_r.
    + rewrite Z.ones_spec_high by lia. rewrite Z.shiftr_spec by lia. replace (n - k + k) with n by lia.
      now rewrite andb_true_r.
  - rewrite Z.mod_pow2_bits_high by lia. rewrite andb_false_r. rewrite Z.shiftr_spec by lia.
    replace (n - k + k) with n by lia. symmetry. rewrite <- (Z.mod_small x (2 ^ 64)) by lia.
    apply Z.mod_pow2_bits_high. lia.
Qed.

Lemma alignUp_spec p k : 0 <= k < 64 -> 0 <= p -> p + (2 ^ k - 1) < 2 ^ 64 ->
  (2 ^ k | alignUp p (2 ^ k)) /\ p <= alignUp p (2 ^ k) < p + 2 ^ k.
Proof.
  intros Hk Hp H. rewrite alignUp_pow2 by lia. assert (0 < 2 ^ k) by (apply Z.pow_pos_nonneg; lia).
  split; [apply Z.divide_factor_r|].
  assert (E := Z.div_mod (p + (2 ^ k - 1)) (2 ^ k) ltac:(lia)).
  assert (M := Z.mod_pos_bound (p + (2 ^ k - 1)) (2 ^ k) ltac:(lia)). nia.
Qed.

Lemma alignUp_null k : 0 <= k < 64 -> alignUp 0 (2 ^ k) = 0.
Proof.
  intros Hk. assert (0 < 2 ^ k) by (apply Z.pow_pos_nonneg; lia).
  assert (2 ^ k < 2 ^ 64) by (apply Z.pow_lt_mono_r; lia).
  rewrite alignUp_pow2 by lia. rewrite Z.div_small by lia. reflexivity.
Qed.

Lemma alignAs_requirement data align a : 0 <= align < 2 ^ 64 ->
  Requirement (negb (data =? 0)) align a <-> alignAs data align = a.
Proof.
  intros H. unfold Requirement, alignAs. destruct (align =? 2 ^ 64 - 1) eqn:E1.
  - apply Z.eqb_eq in E1. subst. split; [|auto]. intros [[_ ->]|[[E _]|[E _]]]; lia.
  - apply Z.eqb_neq in E1. destruct (align =? 0) eqn:E2.
    + apply Z.eqb_eq in E2. subst. destruct (data =? 0); cbn [negb]; split; try intros [[? ?]|[[_ ->]|[? ?]]]; lia.
    + apply Z.eqb_neq in E2. split; [intros [[? ?]|[[? _]|[? ->]]]|]; lia.
Qed.

Lemma alignAs_nonzero data align : alignAs data align <> 0.
Proof. unfold alignAs. destruct (align =? 2 ^ 64 - 1) eqn:E; [lia|]. destruct (align =? 0) eqn:E2; [destruct (data =? 0)|]; lia. Qed.

Lemma construct_owning_spec elt l size align k r :
  0 < elt -> 0 <= size -> 0 <= align < 2 ^ 64 -> 0 <= k < 64 -> Requirement false align (2 ^ k) ->
  elt * size + 2 ^ k - 1 < 2 ^ 64 -> construct elt l size 0 align r ->
  exists b l', r = Ok (b, l') /\ bsize b = size /\ bas b = 2 ^ k /\
    ((bcont b = 0 /\ bdata b = 0 /\ l' = l) \/
     (exists n, l' = (bcont b, n) :: l /\ Fresh l n (bcont b) /\ (2 ^ k | bdata b) /\
        bcont b <= bdata b /\ bdata b + elt * size <= bcont b + n)).
Proof.
  intros He Hs Ha Hk HR Hov Hc. apply (alignAs_requirement 0) in HR; [|lia].
  inversion Hc; subst; [lia|]. rewrite HR in *. assert (0 < 2 ^ k) by (apply Z.pow_pos_nonneg; lia).
  eexists _, _. split; [reflexivity|]. cbn [bsize bas bcont bdata]. split; [reflexivity|]. split; [reflexivity|].
  inversion H0; subst.
  - left. split; [reflexivity|]. split; [|reflexivity]. apply alignUp_null; lia.
  - right. eexists. split; [reflexivity|]. split; [assumption|]. destruct H2 as (Hp & Hend & _).
    assert (E : blockSize elt size (2 ^ k) = elt * size + 2 ^ k - 1) by (apply u64_small; nia).
    rewrite E in *. assert (0 <= elt * size) by nia.
    destruct (alignUp_spec p k Hk ltac:(lia) ltac:(lia)) as [D B]. split; [exact D|]. lia.
Qed.

Lemma construct_shared_spec elt l size data align a r :
  0 < data < 2 ^ 64 -> 0 <= align < 2 ^ 64 -> Requirement true align a -> construct elt l size data align r ->
  ((a | data) /\ r = Ok (mkBuffer size a 0 data, l)) \/ (~ (a | data) /\ r = Throw EAlignment).
Proof.
  intros Hd Ha HR Hc. assert (HR' : Requirement (negb (data =? 0)) align a).
  { replace (data =? 0) with false by lia. exact HR. }
  apply alignAs_requirement in HR'; [|lia]. inversion Hc; subst; [|lia].
  assert (HN := alignAs_nonzero data align). set (a := alignAs data align) in *. clearbody a.
  unfold isAligned. replace (data =? 0) with false by lia. destruct (a =? 1) eqn:E1.
  - apply Z.eqb_eq in E1. subst. left. split; [apply Z.divide_1_l|reflexivity].
  - replace (a =? 0) with false by lia. cbn [bind]. destruct (data mod a =? 0) eqn:E.
    + left. split; [|reflexivity]. apply Z.mod_divide; lia.
    + right. split; [|reflexivity]. intros D. apply Z.mod_divide in D; lia.
Qed.

Lemma isAligned_spec ptr a : 0 < ptr -> 0 < a -> exists b, isAligned ptr a = Ok b /\ (b = true <-> (a | ptr)).
Proof.
  intros Hp Ha. unfold isAligned. replace (ptr =? 0) with false by lia. destruct (a =? 1) eqn:E1.
  - apply Z.eqb_eq in E1. subst. eexists. split; [reflexivity|]. split; auto. intros _. apply Z.divide_1_l.
  - replace (a =? 0) with false by lia. eexists. split; [reflexivity|]. rewrite Z.eqb_eq. apply Z.mod_divide. lia.
Qed.

(** alignment() *)

Lemma alignLoop_spec fuel ptr k : 0 < ptr < 2 ^ 64 -> ptr <> 2 ^ 63 -> 1 <= k <= 64 ->
  (2 ^ (k - 1) | ptr) -> (64 - Z.to_nat k < fuel)%nat -> k <> 64 ->
  exists j, alignLoop fuel ptr (2 ^ k) = Some (Ok (2 ^ j)) /\ 0 <= j < 63 /\ (2 ^ j | ptr) /\ ~ (2 ^ (j + 1) | ptr).
Proof.
  intros Hp Hn. revert k. induction fuel as [|fuel IH]; intros k Hk HD Hf H64; [lia|].
  cbn [alignLoop]. assert (0 < 2 ^ k) by (apply Z.pow_pos_nonneg; lia).
  replace (2 ^ k =? 0) with false by lia. destruct (ptr mod 2 ^ k =? 0) eqn:E.
  - apply Z.eqb_eq, Z.mod_divide in E; [|lia].
    assert (k <> 63). { intros ->. destruct E as [q Hq]. nia. }
    assert (2 ^ k * 2 = 2 ^ (k + 1)) by (rewrite Z.pow_add_r by lia; lia).
    assert (2 ^ (k + 1) < 2 ^ 64) by (apply Z.pow_lt_mono_r; lia).
    rewrite u64_small by lia. rewrite H1. apply IH; try lia. now replace (k + 1 - 1) with k by lia.
  - apply Z.eqb_neq in E. exists (k - 1).
    assert (H1 : 2 ^ k = 2 ^ (k - 1) * 2) by (replace k with (k - 1 + 1) at 1 by lia; rewrite Z.pow_add_r by lia; lia).
    split.
    { do 2 f_equal. rewrite H1. apply Z.div_mul. lia. }
    assert (k <> 64) by lia. split; [lia|]. split; [exact HD|]. replace (k - 1 + 1) with k by lia.
    intros D. apply Z.mod_divide in D; lia.
Qed.

Lemma alignment_spec ptr : 0 < ptr < 2 ^ 64 -> ptr <> 2 ^ 63 ->
  exists j, alignment 64 ptr = Some (Ok (2 ^ j)) /\ 0 <= j /\ (2 ^ j | ptr) /\ ~ (2 ^ (j + 1) | ptr).
Proof.
  intros Hp Hn. unfold alignment. replace (ptr =? 0) with false by lia.
  destruct (alignLoop_spec 64 ptr 1 Hp Hn ltac:(lia)) as (j & E & Hj & D & N); try lia.
  - apply Z.divide_1_l.
  - exists j. split; [exact E|]. split; [lia|]. auto.
Qed.

Lemma alignment_null ptr fuel : 0 <= ptr < 2 ^ 64 -> (alignment fuel ptr = Some (Throw ENullPtr) <-> ptr = 0) /\
  forall as_, isAligned ptr as_ = Throw ENullPtr <-> ptr = 0.
Proof.
  intros Hp. unfold alignment, isAligned. destruct (Z.eqb_spec ptr 0) as [->|n]; [tauto|].
  assert (K : forall f a, alignLoop f ptr a <> Some (Throw ENullPtr)).
  { induction f as [|f IH]; intros a; cbn [alignLoop]; [discriminate|].
    destruct (a =? 0); [discriminate|]. destruct (_ =? 0); [apply IH|discriminate]. }
  split; [split; [intros H; elim (K _ _ H)|lia]|].
  intros a. destruct (a =? 1); [split; [discriminate|lia]|].
  destruct (a =? 0); split; try discriminate; lia.
Qed.

Lemma alignment_overflow : alignment 64 (2 ^ 63) = Some UB.
Proof. vm_compute. reflexivity. Qed.

(** Histories *)

Lemma nth_error_snoc {A} (l : list A) x i y :
  nth_error (l ++ [x]) i = Some y -> nth_error l i = Some y \/ (i = length l /\ x = y).
Proof.
  intros H. destruct (Nat.lt_ge_cases i (length l)).
  - rewrite nth_error_app1 in H by lia. auto.
  - rewrite nth_error_app2 in H by lia. destruct (i - length l)%nat eqn:E.
    + right. split; [lia|]. now injection H.
    + destruct n; discriminate.
Qed.

Lemma nth_error_replace_inv {A} (l : list A) i x k y :
  nth_error (replace l i x) k = Some y -> (k = i /\ x = y /\ (i < length l)%nat) \/ (k <> i /\ nth_error l k = Some y).
Proof.
  intros H. destruct (Nat.eq_dec k i) as [->|N].
  - left. assert (L : (i < length l)%nat).
    { rewrite <- (replace_length l i x). apply nth_error_Some. congruence. }
    rewrite nth_error_replace_eq in H by lia. injection H as ->. auto.
  - right. rewrite nth_error_replace_neq in H by auto. auto.
Qed.

Lemma alive_lt s i b : alive s i b -> (i < length (bufs s))%nat.
Proof. intros H. apply nth_error_Some. unfold alive in H. congruence. Qed.

(** The invariant of the histories. *)
Record Inv (elt : Z) (s : state) : Prop := {
  inv_block : forall i b, alive s i b -> owns b = true ->
    In (bcont b, blockSize elt (bsize b) (bas b)) (live s) /\ bdata b = alignUp (bcont b) (bas b);
  inv_distinct : forall i j b c, alive s i b -> alive s j c -> i <> j -> owns b = true -> bcont b <> bcont c;
  inv_user : forall i b, alive s i b -> owns b = true -> ~ In (bcont b) (user s);
  inv_released : forall p, In p (user s) -> Allocated s p;
  inv_live : forall p n, In (p, n) (live s) -> 0 < p /\ p + Z.max 1 n < 2 ^ 64
}.

Lemma Inv_start elt : Inv elt start.
Proof. split; unfold alive, start; cbn; intros; try tauto; destruct i; discriminate. Qed.

Lemma Fresh_not_in l n p m : Fresh l n p -> ~ In (p, m) l.
Proof. intros (Hp & _ & H) HI. apply H in HI. lia. Qed.

Lemma malloc_spec l n p l' : malloc l n p l' ->
  (p = 0 /\ l' = l) \/ (p <> 0 /\ l' = (p, n) :: l /\ Fresh l n p).
Proof. intros []; auto. right. split; auto. destruct H. lia. Qed.

Lemma free_spec l p l' : free l p = Ok l' -> forall q n, In (q, n) l' <-> In (q, n) l /\ q <> p.
Proof.
  unfold free. destruct (existsb _ l); [|discriminate]. intros [= <-] q n. rewrite filter_In. cbn [fst].
  rewrite negb_true_iff, Z.eqb_neq. tauto.
Qed.

Lemma free_ok l p n : In (p, n) l -> exists l', free l p = Ok l'.
Proof.
  intros H. unfold free. replace (existsb _ l) with true; eauto.
  symmetry. apply existsb_exists. exists (p, n). split; auto. cbn. lia.
Qed.

Lemma owns_spec b : owns b = true <-> bcont b <> 0.
Proof. unfold owns. lia. Qed.
Lemma not_owns_spec b : owns b = false <-> bcont b = 0.
Proof. unfold owns. lia. Qed.

(** A buffer is added or replaced by one which owns nothing or a fresh block; blocks are added or are the same. *)
Lemma construct_inv elt l size data align r : construct elt l size data align r ->
  (exists e, r = Throw e) \/ exists b l', r = Ok (b, l') /\
    ((bcont b = 0 /\ l' = l) \/
     (bcont b <> 0 /\ l' = (bcont b, blockSize elt (bsize b) (bas b)) :: l /\
      Fresh l (blockSize elt (bsize b) (bas b)) (bcont b) /\ bdata b = alignUp (bcont b) (bas b))).
Proof.
  intros H. inversion H; subst.
  - assert (N := alignAs_nonzero data align). unfold isAligned.
    destruct (data =? 0); [left; eexists; reflexivity|].
    destruct (alignAs data align =? 1); [right; eexists _, _; cbn [bind]; eauto|].
    destruct (alignAs data align =? 0) eqn:E; [lia|]. cbn [bind].
    destruct (data mod alignAs data align =? 0); [right; eexists _, _; eauto|left; eexists; reflexivity].
  - right. eexists _, _. split; [reflexivity|]. cbn [bcont bsize bas bdata].
    apply malloc_spec in H1 as [[-> ->]|(N & -> & F)]; auto.
Qed.

(** Inductive steps of the invariant, for one buffer [k] which changes. *)
Definition SameOthers (s s' : state) (ks : list nat) : Prop :=
  forall i b, ~ In i ks -> alive s' i b -> alive s i b.

Lemma Inv_snoc elt s b l' : Inv elt s ->
  ((bcont b = 0 /\ l' = live s) \/
   (bcont b <> 0 /\ l' = (bcont b, blockSize elt (bsize b) (bas b)) :: live s /\
    Fresh (live s) (blockSize elt (bsize b) (bas b)) (bcont b) /\ bdata b = alignUp (bcont b) (bas b))) ->
  Inv elt (mkState l' (bufs s ++ [Some b]) (user s)).
Proof.
  intros HI [[H0 ->]|(H0 & -> & F & HD)]; split; unfold alive; cbn [bufs live user].
  - intros i c H Ho. apply nth_error_snoc in H as [H|[_ [= ->]]]; [eapply inv_block; eauto|].
    apply owns_spec in Ho. congruence.
  - intros i j c d Hi Hj N Ho. rewrite owns_spec in Ho.
    apply nth_error_snoc in Hi as [Hi|[Hi' [= ->]]]; apply nth_error_snoc in Hj as [Hj|[Hj' [= ->]]]; try congruence.
    eapply inv_distinct; eauto. now rewrite owns_spec.
  - intros i c H Ho. apply nth_error_snoc in H as [H|[_ [= ->]]]; [eapply inv_user; eauto|].
    apply owns_spec in Ho. congruence.
  - intros p Hp. apply (inv_released _ _ HI) in Hp. exact Hp.
  - apply (inv_live _ _ HI).
  - intros i c H Ho. apply nth_error_snoc in H as [H|[_ [= ->]]].
    + destruct (inv_block _ _ HI i c H Ho). split; auto. right; auto.
    + split; auto. left; auto.
  - intros i j c d Hi Hj N Ho.
    apply nth_error_snoc in Hi as [Hi|[Hi' [= ->]]]; apply nth_error_snoc in Hj as [Hj|[Hj' [= ->]]].
    + eapply inv_distinct; eauto.
    + destruct (inv_block _ _ HI i c Hi Ho) as [B _]. intros E. rewrite E in B. eapply Fresh_not_in; eauto.
    + intros E. assert (Ho' : owns d = true) by (apply owns_spec; congruence).
      destruct (inv_block _ _ HI j d Hj Ho') as [B _]. rewrite <- E in B. eapply Fresh_not_in; eauto.
    + congruence.
  - intros i c H Ho. apply nth_error_snoc in H as [H|[_ [= ->]]]; [eapply inv_user; eauto|].
    intros Hu. apply (inv_released _ _ HI) in Hu as [n Hn]. eapply Fresh_not_in; eauto.
  - intros p Hp. apply (inv_released _ _ HI) in Hp as [n Hn]. exists n. right; auto.
  - intros p n [[= <- <-]|H]; [|eapply inv_live; eauto]. destruct F as (? & ? & _). auto.
Qed.

(** Replacing a buffer by one which owns nothing, its block being freed, handed to the user or dropped. *)
Lemma Inv_drop elt s i ob l' u' : Inv elt s -> (forall b, ob = Some b -> bcont b = 0) ->
  (forall j c, alive s j c -> j <> i -> owns c = true -> forall n, In (bcont c, n) (live s) -> In (bcont c, n) l') ->
  (forall p n, In (p, n) l' -> In (p, n) (live s)) ->
  (forall j c, alive s j c -> j <> i -> owns c = true -> ~ In (bcont c) u') ->
  (forall p, In p u' -> exists n, In (p, n) l') ->
  Inv elt (mkState l' (replace (bufs s) i ob) u').
Proof.
  intros HI Hb Hl Hl' Hu Hu'. split; unfold alive; cbn [bufs live user].
  - intros k c H Ho. apply nth_error_replace_inv in H as [(_ & -> & _)|[N H]].
    + specialize (Hb c eq_refl). apply owns_spec in Ho. congruence.
    + destruct (inv_block _ _ HI k c H Ho). split; auto. eapply Hl; eauto.
  - intros k j c d Hk Hj N Ho. rewrite owns_spec in Ho.
    apply nth_error_replace_inv in Hk as [(_ & -> & _)|[Nk Hk]]; [specialize (Hb c eq_refl); congruence|].
    apply nth_error_replace_inv in Hj as [(_ & -> & _)|[Nj Hj]]; [specialize (Hb d eq_refl); congruence|].
    eapply inv_distinct; eauto. now rewrite owns_spec.
  - intros k c H Ho. apply nth_error_replace_inv in H as [(_ & -> & _)|[N H]].
    + specialize (Hb c eq_refl). apply owns_spec in Ho. congruence.
    + eapply Hu; eauto.
  - exact Hu'.
  - intros p n H. eapply inv_live; eauto.
Qed.

Lemma Inv_same elt s i ob : Inv elt s -> (forall b, ob = Some b -> bcont b = 0) ->
  Inv elt (mkState (live s) (replace (bufs s) i ob) (user s)).
Proof.
  intros HI Hb. apply Inv_drop; auto.
  - intros. eapply inv_user; eauto.
  - apply (inv_released _ _ HI).
Qed.

Lemma Inv_free elt s i b l' ob : Inv elt s -> alive s i b -> owns b = true -> free (live s) (bcont b) = Ok l' ->
  (forall c, ob = Some c -> bcont c = 0) -> Inv elt (mkState l' (replace (bufs s) i ob) (user s)).
Proof.
  intros HI Hi Ho Hf Hb. assert (F := free_spec _ _ _ Hf). apply Inv_drop; auto.
  - intros j c Hj N Hc n Hn. apply F. split; auto. eapply inv_distinct; eauto.
  - intros p n H. now apply F in H.
  - intros. eapply inv_user; eauto.
  - intros p Hp. destruct (inv_released _ _ HI p Hp) as [n Hn]. exists n. apply F. split; auto.
    intros ->. eapply inv_user; eauto.
Qed.

Lemma resetBuf_spec elt s i b : Inv elt s -> alive s i b ->
  exists l', resetBuf (live s) b = Ok (mkBuffer 0 1 0 0, l') /\
    ((owns b = false /\ l' = live s) \/ (owns b = true /\ free (live s) (bcont b) = Ok l')).
Proof.
  intros HI Hi. unfold resetBuf. destruct (owns b) eqn:Ho.
  - destruct (inv_block _ _ HI i b Hi Ho) as [B _]. destruct (free_ok _ _ _ B) as [l' E]. exists l'. rewrite E.
    cbn [bind]. auto.
  - exists (live s). cbn [bind]. auto.
Qed.

Lemma resetBuf_shared l b : bcont b = 0 -> resetBuf l b = Ok (mkBuffer 0 1 0 0, l).
Proof. intros H. unfold resetBuf, owns. rewrite H. reflexivity. Qed.

(** Replacing a buffer by one which owns a fresh block. *)
Lemma Inv_replace_fresh elt s i b l' : Inv elt s ->
  ((bcont b = 0 /\ l' = live s) \/
   (bcont b <> 0 /\ l' = (bcont b, blockSize elt (bsize b) (bas b)) :: live s /\
    Fresh (live s) (blockSize elt (bsize b) (bas b)) (bcont b) /\ bdata b = alignUp (bcont b) (bas b))) ->
  Inv elt (mkState l' (replace (bufs s) i (Some b)) (user s)).
Proof.
  intros HI [[H0 ->]|(H0 & -> & F & HD)].
  { apply Inv_same; auto. intros c [= <-]. auto. }
  split; unfold alive; cbn [bufs live user].
  - intros k c H Ho. apply nth_error_replace_inv in H as [(_ & [= ->] & _)|[N H]].
    + split; auto. left; auto.
    + destruct (inv_block _ _ HI k c H Ho). split; auto. right; auto.
  - intros k j c d Hk Hj N Ho.
    apply nth_error_replace_inv in Hk as [(Ek & [= ->] & _)|[Nk Hk]];
      apply nth_error_replace_inv in Hj as [(Ej & [= ->] & _)|[Nj Hj]]; try congruence.
    + intros E. assert (Ho' : owns d = true) by (apply owns_spec; congruence).
      destruct (inv_block _ _ HI j d Hj Ho') as [B _]. rewrite <- E in B. eapply Fresh_not_in; eauto.
    + destruct (inv_block _ _ HI k c Hk Ho) as [B _]. intros E. rewrite E in B. eapply Fresh_not_in; eauto.
    + eapply inv_distinct; eauto.
  - intros k c H Ho. apply nth_error_replace_inv in H as [(_ & [= ->] & _)|[N H]]; [|eapply inv_user; eauto].
    intros Hu. apply (inv_released _ _ HI) in Hu as [n Hn]. eapply Fresh_not_in; eauto.
  - intros p Hp. apply (inv_released _ _ HI) in Hp as [n Hn]. exists n. right; auto.
  - intros p n [[= <- <-]|H]; [|eapply inv_live; eauto]. destruct F as (? & ? & _). auto.
Qed.

(** Moving the block of buffer [j] to buffer [i]. *)
Lemma Inv_transfer elt s i j c e : Inv elt s -> i <> j -> alive s j c -> bcont e = 0 ->
  Inv elt (mkState (live s) (replace (replace (bufs s) i (Some c)) j (Some e)) (user s)).
Proof.
  intros HI N Hj He.
  assert (A : forall k d, nth_error (replace (replace (bufs s) i (Some c)) j (Some e)) k = Some (Some d) ->
            owns d = true -> (k = i /\ d = c) \/ (k <> i /\ k <> j /\ alive s k d)).
  { intros k d H Ho. rewrite owns_spec in Ho.
    apply nth_error_replace_inv in H as [(_ & [= ->] & _)|[Nj H]]; [congruence|].
    apply nth_error_replace_inv in H as [(-> & [= ->] & _)|[Ni H]]; auto. }
  split; unfold alive; cbn [bufs live user].
  - intros k d H Ho. destruct (A k d H Ho) as [[-> ->]|(? & ? & H')]; eapply inv_block; eauto.
  - intros k m d f Hk Hm Nkm Ho E.
    assert (Hf : owns f = true) by (rewrite owns_spec in *; congruence).
    destruct (A k d Hk Ho) as [[-> ->]|(Hk1 & Hk2 & Hk')]; destruct (A m f Hm Hf) as [[-> ->]|(Hm1 & Hm2 & Hm')]; try congruence.
    + revert E. apply (inv_distinct _ _ HI j m); auto.
    + revert E. apply (inv_distinct _ _ HI k j); auto.
    + revert E. apply (inv_distinct _ _ HI k m); auto.
  - intros k d H Ho. destruct (A k d H Ho) as [[-> ->]|(? & ? & H')]; eapply inv_user; eauto.
  - apply (inv_released _ _ HI).
  - apply (inv_live _ _ HI).
Qed.

Lemma replace_snoc_swap elt s i b e : Inv elt s -> alive s i b -> bcont e = 0 -> 
  Inv elt (mkState (live s) (replace (bufs s) i (Some e) ++ [Some (mkBuffer (bsize b) (bas b) 0 (bdata b))]) (user s)).
Proof.
  intros HI Hi He.
  apply (Inv_snoc elt (mkState (live s) (replace (bufs s) i (Some e)) (user s))).
  - apply Inv_same; auto. intros c [= <-]. auto.
  - left. auto.
Qed.

Lemma step_inv elt s o r : Inv elt s -> step elt s o r -> exists s', r = Ok s' /\ Inv elt s'.
Proof.
  intros HI H. inversion H; subst; clear H.
  - destruct (construct_inv _ _ _ _ _ _ H0) as [[e ->]|(b & l' & -> & HB)]; eauto.
    eexists. split; [reflexivity|]. apply Inv_snoc; auto.
  - destruct (construct_inv _ _ _ _ _ _ H1) as [[e ->]|(b' & l' & -> & HB)]; eauto.
    eexists. split; [reflexivity|]. apply Inv_snoc; auto.
  - rewrite resetBuf_shared by reflexivity. eexists. split; [reflexivity|]. cbn [fst snd]. apply replace_snoc_swap; auto.
  - eauto.
  - eexists. split; [reflexivity|]. apply Inv_replace_fresh; auto. cbn [bcont bsize bas bdata].
    apply malloc_spec in H4 as [[-> ->]|(N & -> & F)]; auto.
  - eexists. split; [reflexivity|]. apply Inv_same; auto. intros d [= <-]. cbn [bcont]. now apply not_owns_spec.
  - eauto.
  - rewrite resetBuf_shared by reflexivity. eexists. split; [reflexivity|]. cbn [fst snd]. apply Inv_transfer; auto.
  - eexists. split; [reflexivity|]. destruct (owns b) eqn:Ho; cbn [releaseBuf fst snd].
    + destruct (inv_block _ _ HI i b H0 Ho) as [B _]. apply Inv_drop; auto.
      * intros c [= <-]. reflexivity.
      * intros j c Hj N Hc [E|E]; [|revert E; eapply inv_user; eauto].
        symmetry in E. revert E. eapply inv_distinct; eauto.
      * intros p [<-|Hp]; eauto. apply (inv_released _ _ HI p Hp).
    + apply Inv_same; auto. intros c [= <-]. reflexivity.
  - destruct (resetBuf_spec elt s i b HI H0) as (l' & -> & [[Ho ->]|[Ho Hf]]); cbn [bind fst snd];
      eexists; (split; [reflexivity|]); [apply Inv_same|eapply Inv_free]; eauto; intros c [= <-]; reflexivity.
  - destruct (resetBuf_spec elt s i b HI H0) as (l' & -> & [[Ho ->]|[Ho Hf]]); cbn [bind fst snd];
      eexists; (split; [reflexivity|]); [apply Inv_same|eapply Inv_free]; eauto; intros c [= ].
  - destruct (inv_released _ _ HI p H0) as [n Hn]. destruct (free_ok _ _ _ Hn) as [l' E]. rewrite E. cbn [bind].
    eexists. split; [reflexivity|]. assert (F := free_spec _ _ _ E). split; unfold alive; cbn [bufs live user].
    + intros i b Hi Ho. destruct (inv_block _ _ HI i b Hi Ho). split; auto. apply F. split; auto.
      intros <-. eapply inv_user; eauto.
    + apply (inv_distinct _ _ HI).
    + intros i b Hi Ho Hu. apply in_remove in Hu as [Hu _]. revert Hu. eapply inv_user; eauto.
    + intros q Hq. apply in_remove in Hq as [Hq N]. destruct (inv_released _ _ HI q Hq) as [m Hm]. exists m.
      cbn [live]. apply F. auto.
    + intros q m Hq. apply F in Hq as [Hq _]. eapply inv_live; eauto.
Qed.

Lemma run_inv elt ops : forall s r, Inv elt s -> run elt s ops r -> exists s', r = Ok s' /\ Inv elt s'.
Proof.
  induction ops as [|o ops IH]; intros s r HI H; inversion H; subst.
  - eauto.
  - destruct (step_inv _ _ _ _ HI H2) as (s1 & [= <-] & HI1). eauto.
  - destruct (step_inv _ _ _ _ HI H2) as (s1 & -> & _). destruct (H4 s1 eq_refl).
Qed.

Lemma no_double_free elt ops r : run elt start ops r ->
  exists s, r = Ok s /\
    (forall i p, Owns s i p -> Allocated s p /\ ~ In p (user s)) /\
    (forall i j p, Owns s i p -> Owns s j p -> i = j) /\
    (forall p, In p (user s) -> Allocated s p).
Proof.
  intros H. destruct (run_inv _ _ _ _ (Inv_start elt) H) as (s & -> & HI). exists s. split; [reflexivity|].
  split; [|split].
  - intros i p (b & Hi & Ho & <-). split; [|eapply inv_user; eauto].
    destruct (inv_block _ _ HI i b Hi Ho). eexists; eauto.
  - intros i j p (b & Hi & Ho & <-) (c & Hj & Hc & E). destruct (Nat.eq_dec i j); auto.
    symmetry in E. destruct (inv_distinct _ _ HI i j b c Hi Hj n Ho E).
  - apply (inv_released _ _ HI).
Qed.

Lemma history_aligned elt ops s i b k : run elt start ops (Ok s) -> alive s i b -> owns b = true ->
  0 < elt -> 0 <= bsize b -> 0 <= k < 64 -> bas b = 2 ^ k -> elt * bsize b + 2 ^ k - 1 < 2 ^ 64 ->
  exists n, In (bcont b, n) (live s) /\ (2 ^ k | bdata b) /\
    bcont b <= bdata b /\ bdata b + elt * bsize b <= bcont b + n.
Proof.
  intros H Hi Ho He Hs Hk Ha Hov. destruct (run_inv _ _ _ _ (Inv_start elt) H) as (s' & [= <-] & HI).
  destruct (inv_block _ _ HI i b Hi Ho) as [B D]. rewrite Ha in *. assert (0 < 2 ^ k) by (apply Z.pow_pos_nonneg; lia).
  assert (E : blockSize elt (bsize b) (2 ^ k) = elt * bsize b + 2 ^ k - 1) by (apply u64_small; nia).
  rewrite E in B. eexists. split; [exact B|]. apply (inv_live _ _ HI) in B as [Hp Hend]. assert (0 <= elt * bsize b) by nia.
  rewrite D. destruct (alignUp_spec (bcont b) k Hk ltac:(lia) ltac:(lia)) as [Dv Bd]. split; [exact Dv|]. lia.
Qed.

(** Frame and progress *)

Lemma nth_error_snoc_l {A} (l : list A) x i y : nth_error l i = Some y -> nth_error (l ++ [x]) i = Some y.
Proof. intros H. rewrite nth_error_app1; auto. apply nth_error_Some. congruence. Qed.

Lemma step_frame elt s o s' k b : step elt s o (Ok s') -> alive s k b -> ~ Touches s o k -> alive s' k b.
Proof.
  intros H Hk T. assert (Hl := alive_lt _ _ _ Hk). unfold alive in *.
  remember (Ok s') as r0 eqn:Er. destruct H as [size data align r Hc|i b0 r Hi Hc|i b0 Hi|i b0 Hi|i j b0 c p0 l' N Hi Hj Ho HM|i j b0 c N Hi Hj Ho|i b0 Hi|i j b0 c N Hi Hj|i b0 Hi|i b0 Hi|i b0 Hi|p0 Hp]; cbn [Touches] in T.
  - destruct r as [[b' l']| |]; try discriminate; injection Er as <-; cbn [bufs]; auto using nth_error_snoc_l.
  - destruct r as [[b' l']| |]; try discriminate; injection Er as <-; cbn [bufs]; auto using nth_error_snoc_l.
  - rewrite resetBuf_shared in Er by reflexivity. injection Er as <-. cbn [bufs]. apply nth_error_snoc_l.
    rewrite nth_error_replace_neq; auto.
  - congruence.
  - injection Er as <-. cbn [bufs]. rewrite nth_error_replace_neq; auto.
  - injection Er as <-. cbn [bufs]. rewrite nth_error_replace_neq; auto.
  - congruence.
  - rewrite resetBuf_shared in Er by reflexivity. injection Er as <-. cbn [bufs]. rewrite !nth_error_replace_neq; auto.
  - injection Er as <-. cbn [bufs]. rewrite nth_error_replace_neq; auto.
  - destruct (resetBuf (live s) b0); try discriminate. injection Er as <-. cbn [bufs]. rewrite nth_error_replace_neq; auto.
  - destruct (resetBuf (live s) b0); try discriminate. injection Er as <-. cbn [bufs]. rewrite nth_error_replace_neq; auto.
  - destruct (free (live s) p0); try discriminate. injection Er as <-. exact Hk.
Qed.

Lemma construct_total elt l size data align : exists r, construct elt l size data align r.
Proof.
  destruct (Z.eq_dec data 0).
  - eexists. eapply construct_owning; [exact e|constructor].
  - eexists. now apply construct_shared.
Qed.

Lemma step_total elt s o : Valid s o -> exists r, step elt s o r.
Proof.
  intros V. destruct o; cbn [Valid] in V.
  - destruct (construct_total elt (live s) size data align) as [r H]. eexists. eapply step_new, H.
  - destruct V as [b Hb]. destruct (construct_total elt (live s) (bsize b) (if owns b then 0 else bdata b) (bas b)) as [r H].
    eexists. eapply step_copy; eauto.
  - destruct V as [b Hb]. eexists. eapply step_move; eauto.
  - destruct V as [[b Hb] [c Hc]]. destruct (Nat.eq_dec i j) as [<-|N].
    + eexists. eapply step_copy_assign_self; eauto.
    + destruct (owns c) eqn:E; eexists.
      * eapply step_copy_assign_owner; eauto. constructor.
      * eapply step_copy_assign_shared; eauto.
  - destruct V as [[b Hb] [c Hc]]. destruct (Nat.eq_dec i j) as [<-|N]; eexists.
    + eapply step_move_assign_self; eauto.
    + eapply step_move_assign; eauto.
  - destruct V as [b Hb]. eexists. eapply step_release; eauto.
  - destruct V as [b Hb]. eexists. eapply step_reset; eauto.
  - destruct V as [b Hb]. eexists. eapply step_destroy; eauto.
  - eexists. eapply step_user_free; eauto.
Qed.

Lemma history_step elt ops s o : run elt start ops (Ok s) -> Valid s o ->
  (exists r, step elt s o r) /\
  forall r, step elt s o r -> exists s', r = Ok s' /\
    forall k b, alive s k b -> ~ Touches s o k ->
      alive s' k b /\ (owns b = true -> Allocated s' (bcont b)).
Proof.
  intros H V. destruct (run_inv _ _ _ _ (Inv_start elt) H) as (s1 & [= <-] & HI).
  split; [now apply step_total|]. intros r Hr. destruct (step_inv _ _ _ _ HI Hr) as (s' & -> & HI').
  exists s'. split; [reflexivity|]. intros k b Hk T. assert (Hk' := step_frame _ _ _ _ _ _ Hr Hk T).
  split; [exact Hk'|]. intros Ho. destruct (inv_block _ _ HI' k b Hk' Ho). eexists; eauto.
Qed.

(** Leaks *)

Lemma in_remove_neq p q (l : list Z) : In q l -> q <> p -> In q (remove Z.eq_dec p l).
Proof. intros. now apply in_in_remove. Qed.

(** Without careless operations, each allocated block is owned or released. *)
Definition Tidy (s : state) : Prop := forall p n, In (p, n) (live s) -> In p (user s) \/ exists i, Owns s i p.

Lemma Owns_ext s s' p : (forall i b, alive s i b -> owns b = true -> bcont b = p -> exists j, alive s' j b) ->
  (exists i, Owns s i p) -> exists i, Owns s' i p.
Proof. intros H (i & b & Hi & Ho & E). destruct (H i b Hi Ho E) as [j Hj]. exists j, b. auto. Qed.

Lemma alive_snoc_last l bs b u : alive (mkState l (bs ++ [Some b]) u) (length bs) b.
Proof. unfold alive. cbn [bufs]. rewrite nth_error_app2 by lia. now rewrite Nat.sub_diag. Qed.

Lemma Tidy_snoc s b l' : Tidy s ->
  (l' = live s \/ (exists n, bcont b <> 0 /\ l' = (bcont b, n) :: live s)) ->
  Tidy (mkState l' (bufs s ++ [Some b]) (user s)).
Proof.
  intros HT HL p n Hp. cbn [live user] in *.
  assert (HO : (exists i, Owns s i p) -> exists i, Owns (mkState l' (bufs s ++ [Some b]) (user s)) i p).
  { apply Owns_ext. intros i c Hi _ _. exists i. unfold alive. cbn [bufs]. now apply nth_error_snoc_l. }
  destruct HL as [->|(m & H0 & ->)].
  - destruct (HT p n Hp); auto.
  - destruct Hp as [[= <- <-]|Hp].
    + right. exists (length (bufs s)), b. split; [apply alive_snoc_last|]. split; auto. now apply owns_spec.
    + destruct (HT p n Hp); auto.
Qed.

Lemma Tidy_replace s i b x l' u' : Tidy s -> alive s i b -> (forall p n, In (p, n) l' -> In (p, n) (live s) \/
    exists c, x = Some c /\ owns c = true /\ bcont c = p) ->
  (forall p, In p (user s) -> In p u') -> (owns b = true -> forall n, In (bcont b, n) l' -> In (bcont b) u') ->
  Tidy (mkState l' (replace (bufs s) i x) u').
Proof.
  intros HT Hi Hl Hu Hb p n Hp. cbn [live user] in *. destruct (Hl p n Hp) as [Hp'|(c & -> & Hc & <-)].
  - destruct (HT p n Hp') as [H|(j & c & Hj & Hc & <-)]; auto.
    destruct (Nat.eq_dec j i) as [->|N].
    + unfold alive in *. rewrite Hi in Hj. injection Hj as <-. left. eapply Hb; eauto.
    + right. exists j, c. split; auto. unfold alive. cbn [bufs]. now rewrite nth_error_replace_neq by auto.
  - right. exists i, c. split; auto. unfold alive. cbn [bufs]. apply nth_error_replace_eq. eapply alive_lt; eauto.
Qed.

Lemma alive_fun s i b c : alive s i b -> alive s i c -> b = c.
Proof. unfold alive. congruence. Qed.

Lemma not_owned s i b : alive s i b -> ~ (exists p, Owns s i p) -> owns b = false.
Proof. intros Hi H. destruct (owns b) eqn:E; auto. destruct H. exists (bcont b), b. auto. Qed.

Ltac outcome := match goal with H : _ = Ok ?s |- _ => injection H as <- end.

Lemma step_tidy elt s o s' : Inv elt s -> Tidy s -> step elt s o (Ok s') -> ~ Careless s o -> Tidy s'.
Proof.
  intros HI HT H C. remember (Ok s') as r0 eqn:Er. destruct H as [size data align r Hc|i b r Hi Hc|i b Hi|i b Hi|i j b c p0 l' N Hi Hj Ho HM|i j b c N Hi Hj Ho|i b Hi|i j b c N Hi Hj|i b Hi|i b Hi|i b Hi|p0 Hp]; cbn [Careless] in C.
  - destruct (construct_inv _ _ _ _ _ _ Hc) as [[e ->]|(b & l' & -> & HB)]; outcome; auto.
    apply Tidy_snoc; auto. destruct HB as [[_ ->]|(? & -> & _)]; eauto.
  - destruct (construct_inv _ _ _ _ _ _ Hc) as [[e ->]|(b' & l' & -> & HB)]; outcome; auto.
    apply Tidy_snoc; auto. destruct HB as [[_ ->]|(? & -> & _)]; eauto.
  - rewrite resetBuf_shared in Er by reflexivity. outcome. cbn [fst snd].
    assert (Ho := not_owned _ _ _ Hi C).
    apply (Tidy_snoc (mkState (live s) (replace (bufs s) i (Some (mkBuffer 0 1 0 0))) (user s))); auto.
    eapply Tidy_replace; eauto. congruence.
  - outcome. auto.
  - outcome. assert (Hb : owns b = false). { apply (not_owned s i); auto. }
    eapply Tidy_replace; eauto; [|congruence].
    intros q n Hq. apply malloc_spec in HM as [[-> ->]|(N' & -> & F)]; auto.
    destruct Hq as [[= <- <-]|Hq]; auto. right. eexists. split; [reflexivity|]. cbn [bcont]. split; auto. now apply owns_spec.
  - outcome. assert (Hb : owns b = false). { apply (not_owned s i); auto. }
    eapply Tidy_replace; eauto. congruence.
  - outcome. auto.
  - assert (Ho : owns b = false). { apply (not_owned s i); auto. }
    rewrite resetBuf_shared in Er by reflexivity. outcome. cbn [fst snd].
    intros q n Hq. cbn [live user] in *. destruct (HT q n Hq) as [Hu|(k & d & Hk & Hd & <-)]; auto.
    assert (Nk : k <> i). { intros ->. rewrite (alive_fun _ _ _ _ Hk Hi) in Hd. congruence. }
    right. destruct (Nat.eq_dec k j) as [->|Nj].
    + rewrite (alive_fun _ _ _ _ Hk Hj) in *. exists i, c. split; auto. unfold alive. cbn [bufs].
      rewrite nth_error_replace_neq by auto. apply nth_error_replace_eq. eapply alive_lt; eauto.
    + exists k, d. split; auto. unfold alive. cbn [bufs]. now rewrite !nth_error_replace_neq by auto.
  - outcome. cbn [releaseBuf fst snd]. eapply Tidy_replace; eauto.
    + intros q Hq. destruct (owns b); auto. right; auto.
    + intros Ho _ _. rewrite Ho. left; auto.
  - destruct (resetBuf_spec elt s i b HI Hi) as (l' & E & HF). rewrite E in Er. outcome. cbn [fst snd].
    eapply Tidy_replace; eauto.
    + intros q n Hq. destruct HF as [[_ ->]|[_ HF]]; auto. apply (free_spec _ _ _ HF) in Hq. tauto.
    + intros Ho n Hq. destruct HF as [[? _]|[_ HF]]; [congruence|]. apply (free_spec _ _ _ HF) in Hq. tauto.
  - destruct (resetBuf_spec elt s i b HI Hi) as (l' & E & HF). rewrite E in Er. outcome. cbn [fst snd].
    eapply Tidy_replace; eauto.
    + intros q n Hq. destruct HF as [[_ ->]|[_ HF]]; auto. apply (free_spec _ _ _ HF) in Hq. tauto.
    + intros Ho n Hq. destruct HF as [[? _]|[_ HF]]; [congruence|]. apply (free_spec _ _ _ HF) in Hq. tauto.
  - destruct (free (live s) p0) eqn:E; try discriminate. outcome. intros q n Hq. cbn [live user] in *.
    apply (free_spec _ _ _ E) in Hq as [Hq N]. destruct (HT q n Hq) as [Hu|Hown].
    + left. now apply in_remove_neq.
    + right. revert Hown. apply Owns_ext. eauto.
Qed.

Lemma careful_run elt ops : forall s s', Inv elt s -> carefulRun elt s ops s' -> run elt s ops (Ok s').
Proof.
  induction ops; intros s s' HI H; inversion H; subst; [constructor|]. eapply run_ok; eauto. apply IHops; auto.
  destruct (step_inv _ _ _ _ HI H2) as (? & [= <-] & ?). auto.
Qed.

Lemma careful_tidy elt ops : forall s s', Inv elt s -> Tidy s -> carefulRun elt s ops s' -> Tidy s'.
Proof.
  induction ops; intros s s' HI HT H; inversion H; subst; auto.
  destruct (step_inv _ _ _ _ HI H2) as (? & [= <-] & HI1). eapply IHops; [exact HI1| |eassumption].
  eapply step_tidy; [exact HI|exact HT|eassumption|eassumption].
Qed.

(** A careless operation leaks a block, and a leaked block stays so. *)
Lemma careless_leaks elt s o s' : Inv elt s -> step elt s o (Ok s') -> Careless s o -> exists p, Leaked s' p.
Proof.
  intros HI H C. remember (Ok s') as r0 eqn:Er. destruct H as [size data align r Hc|i b r Hi Hc|i b Hi|i b Hi|i j b c p0 l' N Hi Hj Ho HM|i j b c N Hi Hj Ho|i b Hi|i j b c N Hi Hj|i b Hi|i b Hi|i b Hi|p0 Hp];
    cbn [Careless] in C; try tauto; try (destruct C; congruence).
  - rewrite resetBuf_shared in Er by reflexivity. outcome. cbn [fst snd].
    destruct C as (p & b' & Hb & Ho & <-). rewrite (alive_fun _ _ _ _ Hb Hi) in *. clear Hb b'.
    destruct (inv_block _ _ HI i b Hi Ho) as [B _]. exists (bcont b). split; [eexists; exact B|].
    split; [cbn [user]; eapply inv_user; eauto|]. intros k (c & Hk & Hc & E). unfold alive in Hk. cbn [bufs] in Hk.
    rewrite owns_spec in Hc. apply nth_error_snoc in Hk as [Hk|[_ [= <-]]]; [|cbn [bcont] in *; congruence].
    apply nth_error_replace_inv in Hk as [(_ & [= <-] & _)|[N Hk]]; [cbn [bcont] in Hc; congruence|].
    symmetry in E. revert E. eapply inv_distinct; eauto.
  - outcome. destruct C as (_ & q & b' & Hb & Hob & <-). rewrite (alive_fun _ _ _ _ Hb Hi) in *. clear Hb b'.
    destruct (inv_block _ _ HI i b Hi Hob) as [B _]. exists (bcont b).
    assert (Hp : p0 <> bcont b /\ forall n, In (bcont b, n) (live s) -> In (bcont b, n) l').
    { apply malloc_spec in HM as [[-> ->]|(N' & -> & F)].
      - split; auto. apply owns_spec in Hob. congruence.
      - split; [|intros; right; auto]. intros ->. eapply Fresh_not_in; eauto. }
    destruct Hp as [Hp HL]. split; [eexists; apply HL, B|]. split; [cbn [user]; eapply inv_user; eauto|].
    intros k (d & Hk & Hd & E). unfold alive in Hk. cbn [bufs] in Hk.
    apply nth_error_replace_inv in Hk as [(_ & [= <-] & _)|[Nk Hk]]; [cbn [bcont] in E; congruence|].
    symmetry in E. revert E. eapply inv_distinct; eauto.
  - outcome. destruct C as (_ & q & b' & Hb & Hob & <-). rewrite (alive_fun _ _ _ _ Hb Hi) in *. clear Hb b'.
    destruct (inv_block _ _ HI i b Hi Hob) as [B _]. exists (bcont b). split; [eexists; exact B|].
    split; [cbn [user]; eapply inv_user; eauto|]. intros k (d & Hk & Hd & E). unfold alive in Hk. cbn [bufs] in Hk.
    rewrite owns_spec in Hd.
    apply nth_error_replace_inv in Hk as [(_ & [= <-] & _)|[Nk Hk]].
    + cbn [bcont] in *. apply not_owns_spec in Ho. congruence.
    + symmetry in E. revert E. eapply inv_distinct; eauto.
  - rewrite resetBuf_shared in Er by reflexivity. outcome. cbn [fst snd].
    destruct C as (_ & q & b' & Hb & Ho & <-). rewrite (alive_fun _ _ _ _ Hb Hi) in *. clear Hb b'.
    destruct (inv_block _ _ HI i b Hi Ho) as [B _]. exists (bcont b). split; [eexists; exact B|].
    split; [cbn [user]; eapply inv_user; eauto|]. intros k (d & Hk & Hd & E). unfold alive in Hk. cbn [bufs] in Hk.
    rewrite owns_spec in Hd.
    apply nth_error_replace_inv in Hk as [(_ & [= <-] & _)|[Nj Hk]]; [cbn [bcont] in Hd; congruence|].
    symmetry in E. revert E.
    apply nth_error_replace_inv in Hk as [(_ & [= <-] & _)|[Nk Hk]]; eapply inv_distinct; eauto.
Qed.

Lemma leaked_forever elt s o s' p : Inv elt s -> step elt s o (Ok s') -> Leaked s p -> Leaked s' p.
Proof.
  intros HI H (HA & HU & HO). destruct HA as [n Hn].
  assert (Hp0 : 0 < p) by (eapply inv_live; eauto).
  assert (HO' : forall i b, alive s i b -> bcont b <> p).
  { intros i b Hi E. apply (HO i). exists b. split; auto. split; auto. apply owns_spec. lia. }
  remember (Ok s') as r0 eqn:Er. destruct H as [size data align r Hc|i b r Hi Hc|i b Hi|i b Hi|i j b c p0 l' N Hi Hj Ho HM|i j b c N Hi Hj Ho|i b Hi|i j b c N Hi Hj|i b Hi|i b Hi|i b Hi|p0 Hp].
  - destruct (construct_inv _ _ _ _ _ _ Hc) as [[e ->]|(b & l' & -> & HB)]; outcome; [repeat split; eauto; eexists; eauto|].
    split; [|split].
    + exists n. cbn [live]. destruct HB as [[_ ->]|(? & -> & _)]; auto. right; auto.
    + exact HU.
    + intros i (c & Hi & Hco & E). unfold alive in Hi. cbn [bufs] in Hi.
      apply nth_error_snoc in Hi as [Hi|[_ [= <-]]]; [eapply HO'; eauto|].
      destruct HB as [[H0 ->]|(? & -> & F & _)]; [lia|]. rewrite E in F. eapply Fresh_not_in; eauto.
  - destruct (construct_inv _ _ _ _ _ _ Hc) as [[e ->]|(b' & l' & -> & HB)]; outcome; [repeat split; eauto; eexists; eauto|].
    split; [|split].
    + exists n. cbn [live]. destruct HB as [[_ ->]|(? & -> & _)]; auto. right; auto.
    + exact HU.
    + intros k (c & Hk & Hco & E). unfold alive in Hk. cbn [bufs] in Hk.
      apply nth_error_snoc in Hk as [Hk|[_ [= <-]]]; [eapply HO'; eauto|].
      destruct HB as [[H0 ->]|(? & -> & F & _)]; [lia|]. rewrite E in F. eapply Fresh_not_in; eauto.
  - rewrite resetBuf_shared in Er by reflexivity. outcome. cbn [fst snd].
    split; [exists n; exact Hn|]. split; [exact HU|]. intros k (c & Hk & Hc & E). unfold alive in Hk. cbn [bufs] in Hk.
    apply nth_error_snoc in Hk as [Hk|[_ [= <-]]]; [|cbn [bcont] in E; lia].
    apply nth_error_replace_inv in Hk as [(_ & [= <-] & _)|[N Hk]]; [cbn [bcont] in E; lia|]. eapply HO'; eauto.
  - outcome. split; [eexists; eauto|]. auto.
  - outcome. split; [|split; [exact HU|]].
    + exists n. cbn [live]. apply malloc_spec in HM as [[-> ->]|(N' & -> & F)]; auto. right; auto.
    + intros k (d & Hk & Hd & E). unfold alive in Hk. cbn [bufs] in Hk.
      apply nth_error_replace_inv in Hk as [(_ & [= <-] & _)|[Nk Hk]]; [|eapply HO'; eauto].
      cbn [bcont] in E. subst p0. apply malloc_spec in HM as [[-> ->]|(N' & -> & F)]; [lia|]. eapply Fresh_not_in; eauto.
  - outcome. split; [eexists; exact Hn|]. split; [exact HU|]. intros k (d & Hk & Hd & E). unfold alive in Hk. cbn [bufs] in Hk.
    apply nth_error_replace_inv in Hk as [(_ & [= <-] & _)|[Nk Hk]]; [|eapply HO'; eauto].
    cbn [bcont] in E. eapply (HO' j); eauto.
  - outcome. split; [eexists; eauto|]. auto.
  - rewrite resetBuf_shared in Er by reflexivity. outcome. cbn [fst snd].
    split; [exists n; exact Hn|]. split; [exact HU|]. intros k (d & Hk & Hd & E). unfold alive in Hk. cbn [bufs] in Hk.
    apply nth_error_replace_inv in Hk as [(_ & [= <-] & _)|[Nj Hk]]; [cbn [bcont] in E; lia|].
    apply nth_error_replace_inv in Hk as [(_ & [= <-] & _)|[Nk Hk]]; eapply HO'; eauto.
  - outcome. split; [eexists; exact Hn|]. split.
    + cbn [user releaseBuf fst]. destruct (owns b); auto. intros [E|E]; auto. eapply HO'; eauto.
    + intros k (d & Hk & Hd & E). unfold alive in Hk. cbn [bufs] in Hk.
      apply nth_error_replace_inv in Hk as [(_ & [= <-] & _)|[Nj Hk]]; [cbn [bcont] in E; lia|]. eapply HO'; eauto.
  - destruct (resetBuf_spec elt s i b HI Hi) as (l' & E & HF). rewrite E in Er. outcome. cbn [fst snd].
    split; [|split; [exact HU|]].
    + exists n. cbn [live]. destruct HF as [[_ ->]|[_ HF]]; auto. apply (free_spec _ _ _ HF). split; auto.
      intros E'. symmetry in E'. revert E'. eapply HO'; eauto.
    + intros k (d & Hk & Hd & E'). unfold alive in Hk. cbn [bufs] in Hk.
      apply nth_error_replace_inv in Hk as [(_ & [= <-] & _)|[Nj Hk]]; [cbn [bcont] in E'; lia|]. eapply HO'; eauto.
  - destruct (resetBuf_spec elt s i b HI Hi) as (l' & E & HF). rewrite E in Er. outcome. cbn [fst snd].
    split; [|split; [exact HU|]].
    + exists n. cbn [live]. destruct HF as [[_ ->]|[_ HF]]; auto. apply (free_spec _ _ _ HF). split; auto.
      intros E'. symmetry in E'. revert E'. eapply HO'; eauto.
    + intros k (d & Hk & Hd & E'). unfold alive in Hk. cbn [bufs] in Hk.
      apply nth_error_replace_inv in Hk as [(_ & [= ] & _)|[Nj Hk]]. eapply HO'; eauto.
  - destruct (free (live s) p0) eqn:E; try discriminate. outcome. split; [|split].
    + exists n. cbn [live]. apply (free_spec _ _ _ E). split; auto. intros <-. auto.
    + cbn [user]. intros Hq. apply in_remove in Hq as [Hq _]. auto.
    + intros k (d & Hk & Hd & E'). eapply HO'; eauto.
Qed.

Lemma run_leaked elt ops : forall s s' p, Inv elt s -> run elt s ops (Ok s') -> Leaked s p -> Leaked s' p.
Proof.
  induction ops as [|o ops IH]; intros s s' p HI H HL.
  - inversion H. now subst.
  - inversion H as [|o' s1 ops' r Hs Hr|o' ops' r Hs Hr]; subst.
    + destruct (step_inv _ _ _ _ HI Hs) as (? & [= <-] & HI1). apply (IH s1); auto. apply (leaked_forever elt s o); auto.
    + destruct (Hr s' eq_refl).
Qed.

Lemma careless_run_leaks elt ops : forall s s', Inv elt s -> carelessRun elt s ops s' -> exists p, Leaked s' p.
Proof.
  induction ops as [|o ops IH]; intros s s' HI H; [inversion H|].
  inversion H as [o' s1 ops' s2 Hs HC Hr|o' s1 ops' s2 Hs Hr]; subst;
    destruct (step_inv _ _ _ _ HI Hs) as (? & [= <-] & HI1); [|eauto].
  destruct (careless_leaks _ _ _ _ HI Hs HC) as [p Hp]. exists p. eapply run_leaked; eauto.
Qed.

Lemma alive_dec s i : (exists b, alive s i b) \/ forall b, ~ alive s i b.
Proof. unfold alive. destruct (nth_error (bufs s) i) as [[b|]|]; [left; eauto|right; congruence|right; congruence]. Qed.
Lemma Owns_dec s i : (exists p, Owns s i p) \/ ~ exists p, Owns s i p.
Proof.
  destruct (alive_dec s i) as [[b Hb]|H].
  - destruct (owns b) eqn:E.
    + left. exists (bcont b), b. auto.
    + right. intros (p & c & Hc & Ho & _). rewrite (alive_fun _ _ _ _ Hc Hb) in Ho. congruence.
  - right. intros (p & c & Hc & _). eapply H; eauto.
Qed.
Lemma Careless_dec s o : Careless s o \/ ~ Careless s o.
Proof.
  destruct o; cbn [Careless]; auto; try apply Owns_dec; destruct (Owns_dec s i); destruct (Nat.eq_dec i j);
    intuition congruence.
Qed.

Lemma run_split elt ops : forall s s', run elt s ops (Ok s') -> carefulRun elt s ops s' \/ carelessRun elt s ops s'.
Proof.
  induction ops as [|o ops IH]; intros s s' H; inversion H; subst.
  - left. constructor.
  - destruct (Careless_dec s o).
    + right. eapply careless_here; eauto.
    + destruct (IH _ _ H4); [left; econstructor; eauto|right; eapply careless_later; eauto].
  - destruct (H4 s' eq_refl).
Qed.

Lemma careful_no_leak elt ops s : carefulRun elt start ops s ->
  run elt start ops (Ok s) /\ (forall p, ~ Leaked s p) /\ (AllDestroyed s -> forall p, Allocated s p -> In p (user s)).
Proof.
  intros H. assert (HT : Tidy s). { eapply careful_tidy; [apply Inv_start| |exact H]. intros p n []. }
  split; [eapply careful_run; eauto; apply Inv_start|]. split.
  - intros p ([n Hn] & HU & HO). destruct (HT p n Hn) as [|[i Hi]]; auto. eapply HO; eauto.
  - intros HD p [n Hn]. destruct (HT p n Hn) as [|(i & b & Hi & _)]; auto. destruct (HD i b Hi).
Qed.

Lemma leak_iff elt ops s : run elt start ops (Ok s) ->
  (exists p, Leaked s p) <-> carelessRun elt start ops s.
Proof.
  intros H. split.
  - intros [p Hp]. destruct (run_split _ _ _ _ H) as [Hc|]; auto.
    destruct (careful_no_leak _ _ _ Hc) as (_ & N & _). destruct (N p Hp).
  - apply careless_run_leaks, Inv_start.
Qed.

(** Concrete histories *)

Lemma Fresh_cons l n p q m : Fresh l n p -> p + Z.max 1 n <= q \/ q + Z.max 1 m <= p -> Fresh ((q, m) :: l) n p.
Proof. intros (H1 & H2 & H3) H. split; [auto|]. split; [auto|]. intros q' m' [[= <- <-]|Hi]; auto. Qed.
Lemma Fresh_nil n p : 0 < p -> p + Z.max 1 n < 2 ^ 64 -> Fresh [] n p.
Proof. intros. split; [auto|]. split; [auto|]. intros ? ? []. Qed.

Lemma new_step elt s size p : Fresh (live s) (blockSize elt size 64) p ->
  step elt s (ONew size 0 0)
    (Ok (mkState ((p, blockSize elt size 64) :: live s)
           (bufs s ++ [Some (mkBuffer size 64 p (alignUp p 64))]) (user s))).
Proof.
  intros H.
  exact (step_new elt s size 0 0 _ (construct_owning elt (live s) size 0 0 p _ eq_refl
           (malloc_block _ (blockSize elt size (alignAs 0 0)) p H))).
Qed.

(** Two buffers of 4 elements of 8 bytes, at addresses 4104 and 8200. *)
Definition twoBuffers : state := mkState [(8200, 95); (4104, 95)]
  [Some (mkBuffer 4 64 4104 4160); Some (mkBuffer 4 64 8200 8256)] [].

Lemma run_two ops r : run 8 twoBuffers ops r -> run 8 start (ONew 4 0 0 :: ONew 4 0 0 :: ops) r.
Proof.
  intros H. eapply run_ok; [apply (new_step 8 start 4 4104); apply Fresh_nil; vm_compute; reflexivity|].
  eapply run_ok; [apply (new_step 8 _ 4 8200)|exact H].
  apply Fresh_cons; [apply Fresh_nil; vm_compute; reflexivity|]. right. vm_compute. discriminate.
Qed.

Lemma careful_two ops s : carefulRun 8 twoBuffers ops s -> carefulRun 8 start (ONew 4 0 0 :: ONew 4 0 0 :: ops) s.
Proof.
  intros H. eapply careful_cons; [apply (new_step 8 start 4 4104); apply Fresh_nil; vm_compute; reflexivity|cbn; tauto|].
  eapply careful_cons; [apply (new_step 8 _ 4 8200)|cbn; tauto|exact H].
  apply Fresh_cons; [apply Fresh_nil; vm_compute; reflexivity|]. right. vm_compute. discriminate.
Qed.

Lemma run_step elt s o r1 s' ops r : step elt s o r1 -> r1 = Ok s' -> run elt s' ops r -> run elt s (o :: ops) r.
Proof. intros H ->. now apply run_ok. Qed.
Lemma careful_step elt s o r1 s' ops s2 : step elt s o r1 -> r1 = Ok s' -> ~ Careless s o -> carefulRun elt s' ops s2 ->
  carefulRun elt s (o :: ops) s2.
Proof. intros H -> N. now apply careful_cons. Qed.

Lemma all_destroyed s : bufs s = map (fun _ => None) (bufs s) -> AllDestroyed s.
Proof.
  intros E i b H. unfold alive in H. rewrite E, nth_error_map in H. destruct (nth_error (bufs s) i); discriminate.
Qed.

Lemma leak_move : exists s, run 8 start [ONew 4 0 0; ONew 4 0 0; OMove 0; ODestroy 0; ODestroy 1; ODestroy 2] (Ok s) /\
  AllDestroyed s /\ live s = [(4104, 95)] /\ user s = [].
Proof.
  exists (mkState [(4104, 95)] [None; None; None] []). split; [|split; [apply all_destroyed; reflexivity|auto]].
  apply run_two.
  eapply run_step; [apply (step_move 8 twoBuffers 0 (mkBuffer 4 64 4104 4160)); reflexivity|cbv; reflexivity|].
  eapply run_step; [apply (step_destroy 8 _ 0 (mkBuffer 0 1 0 0)); reflexivity|cbv; reflexivity|].
  eapply run_step; [apply (step_destroy 8 _ 1 (mkBuffer 4 64 8200 8256)); reflexivity|cbv; reflexivity|].
  eapply run_step; [apply (step_destroy 8 _ 2 (mkBuffer 4 64 0 4160)); reflexivity|cbv; reflexivity|].
  apply run_nil.
Qed.

Lemma leak_move_assign : exists s, run 8 start [ONew 4 0 0; ONew 4 0 0; OMoveAssign 0 1; ODestroy 0; ODestroy 1] (Ok s) /\
  AllDestroyed s /\ live s = [(4104, 95)] /\ user s = [].
Proof.
  exists (mkState [(4104, 95)] [None; None] []). split; [|split; [apply all_destroyed; reflexivity|auto]].
  apply run_two.
  eapply run_step; [apply (step_move_assign 8 twoBuffers 0 1 (mkBuffer 4 64 4104 4160) (mkBuffer 4 64 8200 8256)); [lia|reflexivity|reflexivity]|cbv; reflexivity|].
  eapply run_step; [apply (step_destroy 8 _ 0 (mkBuffer 4 64 8200 8256)); reflexivity|cbv; reflexivity|].
  eapply run_step; [apply (step_destroy 8 _ 1 (mkBuffer 0 1 0 0)); reflexivity|cbv; reflexivity|].
  apply run_nil.
Qed.

Lemma leak_copy_assign : exists s, run 8 start [ONew 4 0 0; ONew 4 0 0; OCopyAssign 0 1; ODestroy 0; ODestroy 1] (Ok s) /\
  AllDestroyed s /\ live s = [(4104, 95)] /\ user s = [].
Proof.
  exists (mkState [(4104, 95)] [None; None] []). split; [|split; [apply all_destroyed; reflexivity|auto]].
  apply run_two.
  eapply run_step.
  { apply (step_copy_assign_owner 8 twoBuffers 0 1 (mkBuffer 4 64 4104 4160) (mkBuffer 4 64 8200 8256) 12296
      ((12296, 95) :: live twoBuffers)); [lia|reflexivity|reflexivity|reflexivity|].
    apply malloc_block. apply Fresh_cons; [apply Fresh_cons; [apply Fresh_nil; vm_compute; reflexivity|]|];
      right; vm_compute; discriminate. }
  { cbv; reflexivity. }
  eapply run_step; [apply (step_destroy 8 _ 0 (mkBuffer 4 64 12296 (alignUp 12296 64))); reflexivity|cbv; reflexivity|].
  eapply run_step; [apply (step_destroy 8 _ 1 (mkBuffer 4 64 8200 8256)); reflexivity|cbv; reflexivity|].
  apply run_nil.
Qed.

(** A careful history: sharing copy, release to the user, destruction, free by the user. *)
Lemma careful_history : exists s,
  carefulRun 8 start [ONew 4 0 0; ONew 4 0 0; ORelease 0; OCopy 0; ODestroy 0; ODestroy 1; ODestroy 2] s /\
  AllDestroyed s /\ live s = [(4104, 95)] /\ user s = [4104].
Proof.
  exists (mkState [(4104, 95)] [None; None; None] [4104]). split; [|split; [apply all_destroyed; reflexivity|auto]].
  apply careful_two.
  eapply careful_step; [apply (step_release 8 twoBuffers 0 (mkBuffer 4 64 4104 4160)); reflexivity|cbv; reflexivity|cbn; tauto|].
  eapply careful_step.
  { refine (step_copy 8 _ 0 (mkBuffer 4 64 0 4160) _ _ (construct_shared 8 _ 4 4160 64 _)); [reflexivity|lia]. }
  { cbv; reflexivity. }
  { cbn; tauto. }
  eapply careful_step; [apply (step_destroy 8 _ 0 (mkBuffer 4 64 0 4160)); reflexivity|cbv; reflexivity|cbn; tauto|].
  eapply careful_step; [apply (step_destroy 8 _ 1 (mkBuffer 4 64 8200 8256)); reflexivity|cbv; reflexivity|cbn; tauto|].
  eapply careful_step; [apply (step_destroy 8 _ 2 (mkBuffer 4 64 0 4160)); reflexivity|cbv; reflexivity|cbn; tauto|].
  apply careful_nil.
Qed.

Lemma not_power_of_two : exists r b l', construct 1 [] 5 0 3 r /\ r = Ok (b, l') /\
  bas b = 3 /\ bcont b <> 0 /\ ~ (3 | bdata b).
Proof.
  eexists _, _, _. split; [eapply construct_owning; [reflexivity|]|split; [reflexivity|]].
  - apply malloc_block, (Fresh_nil _ 17); reflexivity.
  - split; [reflexivity|]. split; [discriminate|]. intros D. apply Z.mod_divide in D; [discriminate|lia].
Qed.
