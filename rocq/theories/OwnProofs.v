(** Ownership of pixels. *)
From Verif Require Import Res Lemmas VecModel RasterModel ArithModel AlignedProofs OwnModel OwnSpec.

Section Own.
Context {A : Type}.
Variable zero : A.
Implicit Types s : state A.

Record Inv s : Prop := mkInv {
  inv_bound : forall i o, Alive s i o -> (hblock (oholder o) < length (heap s))%nat;
  inv_alloc : forall i o b, Alive s i o -> oholder o = Owned b -> exists l, nth_error (heap s) b = Some (Some l);
  inv_once : forall i j o p b, Alive s i o -> Alive s j p -> oholder o = Owned b -> oholder p = Owned b -> i = j;
  inv_vecs : forall i o b, Alive s i o -> oholder o = Owned b -> ~ In b (vecs s);
  inv_vecsOnce : NoDup (vecs s);
  inv_vecsAlloc : forall b, In b (vecs s) -> exists l, nth_error (heap s) b = Some (Some l) }.

Lemma obj_alive s i o : obj s i = Some o <-> Alive s i o.
Proof. unfold obj, Alive. destruct (nth_error (objs s) i) as [[x|]|]; split; intros H; congruence. Qed.

Lemma alive_lt s i o : Alive s i o -> (i < length (objs s))%nat.
Proof. intros H. apply nth_error_Some. unfold Alive in H. congruence. Qed.

Lemma nth_app_end {X} (l : list X) x k y : nth_error (l ++ [x]) k = Some y -> nth_error l k = Some y \/ (k = length l /\ y = x).
Proof.
  intros H. destruct (Nat.lt_ge_cases k (length l)) as [L|L]; [left; rewrite nth_error_app1 in H by lia; exact H|].
  right. rewrite nth_error_app2 in H by lia. destruct (k - length l)%nat as [|m] eqn:E; [|destruct m; discriminate]. cbn in H. injection H as <-. split; [lia|reflexivity].
Qed.

Lemma nth_app_here {X} (l : list X) x : nth_error (l ++ [x]) (length l) = Some x.
Proof. rewrite nth_error_app2 by lia. rewrite Nat.sub_diag. reflexivity. Qed.

Lemma nth_app_old {X} (l : list X) x k y : nth_error l k = Some y -> nth_error (l ++ [x]) k = Some y.
Proof. intros H. rewrite nth_error_app1; [exact H|]. apply nth_error_Some. congruence. Qed.

Lemma nth_lt {X} (l : list X) k y : nth_error l k = Some y -> (k < length l)%nat.
Proof. intros H. apply nth_error_Some. congruence. Qed.

Lemma pixels_same s s' h : nth_error (heap s') (hblock h) = nth_error (heap s) (hblock h) -> pixels s' h = pixels s h.
Proof. intros H. unfold pixels, hsize, block. destruct h; cbn [hblock] in *; rewrite H; reflexivity. Qed.

Lemma pixels_owned s b l : nth_error (heap s) b = Some (Some l) -> pixels s (Owned b) = Ok l.
Proof.
  intros H. unfold pixels, hsize, block. cbn [hblock hoffset]. rewrite H. cbn [bind]. rewrite Nat2Z.id.
  clear H. assert (G : forall l0 l1 : list A, zgetN (length l1) (l0 ++ l1) (Z.of_nat (length l0)) = Ok l1).
  { intros l0 l1. revert l0. induction l1 as [|x l1 IH]; intros l0; cbn [length zgetN]; [reflexivity|].
    rewrite zget_app_r by lia. rewrite Z.sub_diag, zget_cons_0. cbn [bind].
    specialize (IH (l0 ++ [x])). rewrite <- app_assoc in IH. cbn [app] in IH. rewrite app_length in IH. cbn [length] in IH.
    replace (Z.of_nat (length l0 + 1)) with (Z.of_nat (length l0) + 1) in IH by lia. rewrite IH. reflexivity. }
  exact (G [] l).
Qed.

(** ** Invariant *)

Lemma inv_start : Inv start.
Proof. constructor; cbn; unfold Alive; cbn; try (intros [|?]; discriminate); try tauto; try constructor. all: intros; destruct i; discriminate. Qed.

Lemma alive_app s i o (h : list (option (list A))) x vs : Alive (mkState h (objs s ++ [Some x]) vs) i o -> Alive s i o \/ (i = length (objs s) /\ o = x).
Proof. unfold Alive. cbn. intros H. apply nth_app_end in H as [H|[-> H]]; [left; exact H|right]. split; congruence. Qed.

Lemma alive_replace s i o (h : list (option (list A))) x vs k : Alive (mkState h (replace (objs s) k x) vs) i o -> (i <> k /\ Alive s i o) \/ (i = k /\ x = Some o).
Proof.
  unfold Alive. cbn. intros H. destruct (Nat.eq_dec k i) as [->|N].
  - right. split; [reflexivity|]. apply nth_lt in H as L. rewrite replace_length in L. rewrite nth_error_replace_eq in H by exact L. congruence.
  - left. rewrite nth_error_replace_neq in H by exact N. auto.
Qed.

Lemma inv_new s n shape s' : Inv s -> newRaster zero s n shape = Ok s' -> Inv s'.
Proof.
  intros I. unfold newRaster. destruct (_ <? 0); [discriminate|]. intros E. injection E as <-. constructor; cbn [heap vecs].
  - intros i o H. rewrite app_length. cbn. apply alive_app in H as [H|[-> ->]]; [apply (inv_bound s I) in H; lia|]. cbn. lia.
  - intros i o b H Hb. apply alive_app in H as [H|[-> ->]].
    + destruct (inv_alloc s I i o b H Hb) as [l Hl]. exists l. apply nth_app_old. exact Hl.
    + cbn in Hb. injection Hb as <-. eexists. apply nth_app_here.
  - intros i j o p b Hi Hj Ho Hp. apply alive_app in Hi as [Hi|[-> ->]]; apply alive_app in Hj as [Hj|[-> ->]].
    + exact (inv_once s I i j o p b Hi Hj Ho Hp).
    + cbn in Hp. injection Hp as <-. apply (inv_bound s I) in Hi. rewrite Ho in Hi. cbn in Hi. lia.
    + cbn in Ho. injection Ho as <-. apply (inv_bound s I) in Hj. rewrite Hp in Hj. cbn in Hj. lia.
    + reflexivity.
  - intros i o b H Hb. apply alive_app in H as [H|[-> ->]]; [exact (inv_vecs s I i o b H Hb)|].
    cbn in Hb. injection Hb as <-. intros V. destruct (inv_vecsAlloc s I _ V) as [l Hl]. apply nth_lt in Hl. lia.
  - apply I.
  - intros b V. destruct (inv_vecsAlloc s I _ V) as [l Hl]. exists l. apply nth_app_old. exact Hl.
Qed.

Lemma inv_copy s i o s' : Inv s -> Alive s i o -> copyNew s o = Ok s' -> Inv s'.
Proof.
  intros I Hi. unfold copyNew, block. destruct (oholder o) as [b|b off n] eqn:Ho.
  - destruct (inv_alloc s I i o b Hi Ho) as [l Hl]. rewrite Hl. cbn [bind]. intros E. injection E as <-. constructor; cbn [heap vecs].
    + intros k p H. rewrite app_length. cbn. apply alive_app in H as [H|[-> ->]]; [apply (inv_bound s I) in H; lia|]. cbn. lia.
    + intros k p c H Hb. apply alive_app in H as [H|[-> ->]].
      * destruct (inv_alloc s I k p c H Hb) as [l' Hl']. exists l'. apply nth_app_old. exact Hl'.
      * cbn in Hb. injection Hb as <-. eexists. apply nth_app_here.
    + intros k j q p c Hk Hj Hq Hp. apply alive_app in Hk as [Hk|[-> ->]]; apply alive_app in Hj as [Hj|[-> ->]].
      * exact (inv_once s I k j q p c Hk Hj Hq Hp).
      * cbn in Hp. injection Hp as <-. apply (inv_bound s I) in Hk. rewrite Hq in Hk. cbn in Hk. lia.
      * cbn in Hq. injection Hq as <-. apply (inv_bound s I) in Hj. rewrite Hp in Hj. cbn in Hj. lia.
      * reflexivity.
    + intros k p c H Hb. apply alive_app in H as [H|[-> ->]]; [exact (inv_vecs s I k p c H Hb)|].
      cbn in Hb. injection Hb as <-. intros V. destruct (inv_vecsAlloc s I _ V) as [l' Hl']. apply nth_lt in Hl'. lia.
    + apply I.
    + intros c V. destruct (inv_vecsAlloc s I _ V) as [l' Hl']. exists l'. apply nth_app_old. exact Hl'.
  - intros E. injection E as <-. constructor; cbn [heap vecs].
    + intros k p H. apply alive_app in H as [H|[-> ->]]; [exact (inv_bound s I k p H)|]. exact (inv_bound s I i o Hi).
    + intros k p c H Hb. apply alive_app in H as [H|[-> ->]]; [exact (inv_alloc s I k p c H Hb)|congruence].
    + intros k j q p c Hk Hj Hq Hp. apply alive_app in Hk as [Hk|[-> ->]]; apply alive_app in Hj as [Hj|[-> ->]]; [exact (inv_once s I k j q p c Hk Hj Hq Hp)|congruence..].
    + intros k p c H Hb. apply alive_app in H as [H|[-> ->]]; [exact (inv_vecs s I k p c H Hb)|congruence].
    + apply I.
    + apply I.
Qed.

Lemma inv_view s i o offset n shape : Inv s -> Alive s i o -> Inv (newView s o offset n shape).
Proof.
  intros I Hi. constructor; cbn [newView heap vecs].
  - intros k p H. apply alive_app in H as [H|[-> ->]]; [exact (inv_bound s I k p H)|]. cbn. exact (inv_bound s I i o Hi).
  - intros k p c H Hb. apply alive_app in H as [H|[-> ->]]; [exact (inv_alloc s I k p c H Hb)|discriminate].
  - intros k j q p c Hk Hj Hq Hp. apply alive_app in Hk as [Hk|[-> ->]]; apply alive_app in Hj as [Hj|[-> ->]]; [exact (inv_once s I k j q p c Hk Hj Hq Hp)|discriminate..].
  - intros k p c H Hb. apply alive_app in H as [H|[-> ->]]; [exact (inv_vecs s I k p c H Hb)|discriminate].
  - apply I.
  - apply I.
Qed.

Lemma alive_move s i o (h : list (option (list A))) k p : Alive (mkState h (replace (objs s) i (Some (movedObj s o)) ++ [Some o]) (vecs s)) k p ->
  (k <> i /\ Alive s k p) \/ (k = i /\ p = movedObj s o) \/ (k = length (objs s) /\ p = o).
Proof.
  unfold Alive. cbn. intros H. apply nth_app_end in H as [H|[-> H]].
  - destruct (Nat.eq_dec i k) as [->|N].
    + right. left. split; [reflexivity|]. apply nth_lt in H as L. rewrite replace_length in L. rewrite nth_error_replace_eq in H by exact L. congruence.
    + left. rewrite nth_error_replace_neq in H by exact N. auto.
  - right. right. rewrite replace_length. split; congruence.
Qed.

Lemma inv_move s i o : Inv s -> Alive s i o -> Inv (moveNew s i o).
Proof.
  intros I Hi. unfold moveNew. pose proof (inv_bound s I i o Hi) as Bi. pose proof (alive_lt s i o Hi) as Li.
  assert (M : oholder (movedObj s o) = fst (movedHolder s (oholder o))) by reflexivity.
  destruct (oholder o) as [b|b off n] eqn:Ho; cbn [movedHolder fst snd] in *.
  - constructor; cbn [heap vecs].
    + intros k p H. rewrite app_length. cbn [length]. apply alive_move in H as [[_ H]|[[-> ->]|[-> ->]]].
      * apply (inv_bound s I) in H. lia.
      * rewrite M. cbn. lia.
      * rewrite Ho. cbn in *. lia.
    + intros k p c H Hb. apply alive_move in H as [[_ H]|[[-> ->]|[-> ->]]].
      * destruct (inv_alloc s I k p c H Hb) as [l Hl]. exists l. apply nth_app_old. exact Hl.
      * rewrite M in Hb. injection Hb as <-. eexists. apply nth_app_here.
      * destruct (inv_alloc s I i o c Hi Hb) as [l Hl]. exists l. apply nth_app_old. exact Hl.
    + intros k j q p c Hk Hj Hq Hp.
      assert (Old : forall x y, Alive s x y -> oholder y = Owned (length (heap s)) -> False).
      { intros x y Hx Hy. apply (inv_bound s I) in Hx. rewrite Hy in Hx. cbn in Hx. lia. }
      apply alive_move in Hk as [[Nk Hk]|[[-> ->]|[-> ->]]]; apply alive_move in Hj as [[Nj Hj]|[[-> ->]|[-> ->]]]; try reflexivity.
      * exact (inv_once s I k j q p c Hk Hj Hq Hp).
      * rewrite M in Hp. injection Hp as <-. exfalso. eauto.
      * exfalso. apply Nk. exact (inv_once s I k i q o c Hk Hi Hq Hp).
      * rewrite M in Hq. injection Hq as <-. exfalso. eauto.
      * rewrite M in Hq. injection Hq as <-. exfalso. eauto.
      * exfalso. apply Nj. symmetry. exact (inv_once s I i j o p c Hi Hj Hq Hp).
      * rewrite M in Hp. injection Hp as <-. exfalso. eauto.
    + intros k p c H Hb. apply alive_move in H as [[_ H]|[[-> ->]|[-> ->]]].
      * exact (inv_vecs s I k p c H Hb).
      * rewrite M in Hb. injection Hb as <-. intros V. destruct (inv_vecsAlloc s I _ V) as [l' Hl']. apply nth_lt in Hl'. lia.
      * exact (inv_vecs s I i o c Hi Hb).
    + apply I.
    + intros c V. destruct (inv_vecsAlloc s I _ V) as [l' Hl']. exists l'. apply nth_app_old. exact Hl'.
  - assert (Vw : forall p, p = movedObj s o \/ p = o -> oholder p = View b off n) by (intros p [->| ->]; [exact M|exact Ho]).
    constructor; cbn [heap vecs].
    + intros k p H. apply alive_move in H as [[_ H]|[[-> ->]|[-> ->]]].
      * exact (inv_bound s I k p H).
      * rewrite Vw by auto. exact Bi.
      * rewrite Vw by auto. exact Bi.
    + intros k p c H Hb. apply alive_move in H as [[_ H]|[[-> ->]|[-> ->]]]; [exact (inv_alloc s I k p c H Hb)|rewrite Vw in Hb by auto; discriminate..].
    + intros k j q p c Hk Hj Hq Hp.
      apply alive_move in Hk as [[_ Hk]|[[-> ->]|[-> ->]]]; [|rewrite Vw in Hq by auto; discriminate..].
      apply alive_move in Hj as [[_ Hj]|[[-> ->]|[-> ->]]]; [|rewrite Vw in Hp by auto; discriminate..].
      exact (inv_once s I k j q p c Hk Hj Hq Hp).
    + intros k p c H Hb. apply alive_move in H as [[_ H]|[[-> ->]|[-> ->]]]; [exact (inv_vecs s I k p c H Hb)|rewrite Vw in Hb by auto; discriminate..].
    + apply I.
    + apply I.
Qed.

Lemma free_length h (m : list (option (list A))) : length (freeHolder h m) = length m.
Proof. destruct h; cbn; [apply replace_length|reflexivity]. Qed.

Lemma free_other h (m : list (option (list A))) b : h <> Owned b -> nth_error (freeHolder h m) b = nth_error m b.
Proof. destruct h as [c|]; cbn; intros N; [|reflexivity]. apply nth_error_replace_neq. congruence. Qed.

Lemma inv_copyAssign s i j d o s' : Inv s -> i <> j -> Alive s i d -> Alive s j o -> sameType d o = true -> copyAssign s i d o = Ok s' -> Inv s'.
Proof.
  intros I N Hi Hj T. pose proof (inv_bound s I j o Hj) as Bj. pose proof (alive_lt s i d Hi) as Li. unfold copyAssign, block. unfold sameType in T. apply andb_prop in T as [_ T].
  assert (Old : forall x y, Alive s x y -> oholder y = Owned (length (heap s)) -> False).
  { intros x y Hx Hy. apply (inv_bound s I) in Hx. rewrite Hy in Hx. cbn in Hx. lia. }
  destruct (oholder d) as [bd|bd od nd] eqn:Hd; destruct (oholder o) as [b|b off n] eqn:Ho; try discriminate.
  - destruct (inv_alloc s I j o b Hj Ho) as [l Hl]. rewrite Hl. cbn [bind]. intros E. injection E as <-.
    assert (Keep : forall k p c, k <> i -> Alive s k p -> oholder p = Owned c -> nth_error (freeHolder (Owned bd) (heap s)) c = nth_error (heap s) c).
    { intros k p c Nk Hk Hc. apply free_other. intros E. injection E as ->. apply Nk. exact (inv_once s I k i p d c Hk Hi Hc Hd). }
    constructor; cbn [heap vecs]; try change (replace (heap s) bd None) with (freeHolder (Owned bd) (heap s)).
    + intros k p H. rewrite app_length, free_length. cbn [length]. apply alive_replace in H as [[_ H]|[-> E]]; [apply (inv_bound s I) in H; lia|]. injection E as <-. cbn. lia.
    + intros k p c H Hb. apply alive_replace in H as [[Nk H]|[-> E]].
      * destruct (inv_alloc s I k p c H Hb) as [l' Hl']. exists l'. apply nth_app_old. rewrite (Keep k p c) by assumption. exact Hl'.
      * injection E as <-. cbn in Hb. injection Hb as <-. exists l. rewrite <- (free_length (Owned bd) (heap s)). apply nth_app_here.
    + intros k j' q p c Hk Hj' Hq Hp. apply alive_replace in Hk as [[Nk Hk]|[-> E]]; apply alive_replace in Hj' as [[Nj Hj']|[-> E']]; try reflexivity.
      * exact (inv_once s I k j' q p c Hk Hj' Hq Hp).
      * injection E' as <-. cbn in Hp. injection Hp as <-. exfalso. eauto.
      * injection E as <-. cbn in Hq. injection Hq as <-. exfalso. eauto.
    + intros k p c H Hb. apply alive_replace in H as [[Nk H]|[-> E]]; [exact (inv_vecs s I k p c H Hb)|]. injection E as <-. cbn in Hb. injection Hb as <-.
      intros V. destruct (inv_vecsAlloc s I _ V) as [l' Hl']. apply nth_lt in Hl'. lia.
    + apply I.
    + intros c V. destruct (inv_vecsAlloc s I _ V) as [l' Hl']. exists l'. apply nth_app_old. rewrite free_other; [exact Hl'|].
      intros E. injection E as ->. exact (inv_vecs s I i d c Hi Hd V).
  - intros E. injection E as <-. constructor; cbn [heap vecs].
    + intros k p H. apply alive_replace in H as [[_ H]|[-> E]]; [exact (inv_bound s I k p H)|]. injection E as <-. rewrite Ho. exact Bj.
    + intros k p c H Hb. apply alive_replace in H as [[_ H]|[-> E]]; [exact (inv_alloc s I k p c H Hb)|congruence].
    + intros k j' q p c Hk Hj' Hq Hp. apply alive_replace in Hk as [[Nk Hk]|[-> E]]; apply alive_replace in Hj' as [[Nj Hj']|[-> E']]; [exact (inv_once s I k j' q p c Hk Hj' Hq Hp)|congruence..].
    + intros k p c H Hb. apply alive_replace in H as [[_ H]|[-> E]]; [exact (inv_vecs s I k p c H Hb)|congruence].
    + apply I.
    + apply I.
Qed.

Lemma alive_replace2 s i j o (h : list (option (list A))) k p vs x y : Alive (mkState h (replace (replace (objs s) i (Some x)) j (Some y)) vs) k p -> i <> j -> Alive s i o ->
  (k <> i /\ k <> j /\ Alive s k p) \/ (k = j /\ p = y) \/ (k = i /\ p = x).
Proof.
  unfold Alive. cbn. intros H N Hi. destruct (Nat.eq_dec j k) as [->|Nj].
  - right. left. split; [reflexivity|]. apply nth_lt in H as L. rewrite replace_length in L. rewrite nth_error_replace_eq in H by exact L. congruence.
  - rewrite nth_error_replace_neq in H by exact Nj. destruct (Nat.eq_dec i k) as [->|Ni].
    + right. right. split; [reflexivity|]. apply nth_lt in H as L. rewrite replace_length in L. rewrite nth_error_replace_eq in H by exact L. congruence.
    + left. rewrite nth_error_replace_neq in H by exact Ni. auto.
Qed.

Lemma inv_moveAssign s i j d o : Inv s -> i <> j -> Alive s i d -> Alive s j o -> sameType d o = true -> Inv (moveAssign s i j d o).
Proof.
  intros I N Hi Hj T. pose proof (inv_bound s I j o Hj) as Bj. unfold moveAssign. unfold sameType in T. apply andb_prop in T as [_ T].
  assert (M : oholder (movedObj s o) = fst (movedHolder s (oholder o))) by reflexivity.
  assert (Old : forall x y, Alive s x y -> oholder y = Owned (length (heap s)) -> False).
  { intros x y Hx Hy. apply (inv_bound s I) in Hx. rewrite Hy in Hx. cbn in Hx. lia. }
  destruct (oholder d) as [bd|bd od nd] eqn:Hd; destruct (oholder o) as [b|b off n] eqn:Ho; try discriminate; cbn [movedHolder fst snd] in *.
  - assert (Keep : forall k p c, k <> i -> Alive s k p -> oholder p = Owned c -> nth_error (freeHolder (Owned bd) (heap s ++ [Some []])) c = nth_error (heap s) c).
    { intros k p c Nk Hk Hc. rewrite free_other; [|intros E; injection E as ->; apply Nk; exact (inv_once s I k i p d c Hk Hi Hc Hd)].
      apply nth_error_app1. apply (inv_bound s I) in Hk. rewrite Hc in Hk. exact Hk. }
    constructor; cbn [heap vecs].
    + intros k p H. rewrite free_length, app_length. cbn [length]. apply (alive_replace2 s i j d) in H as [[_ [_ H]]|[[-> ->]|[-> ->]]]; auto.
      * apply (inv_bound s I) in H. lia.
      * rewrite M. cbn. lia.
      * rewrite Ho. cbn in *. lia.
    + intros k p c H Hb. apply (alive_replace2 s i j d) in H as [[Nk [_ H]]|[[-> ->]|[-> ->]]]; auto.
      * destruct (inv_alloc s I k p c H Hb) as [l Hl]. exists l. rewrite (Keep k p c) by assumption. exact Hl.
      * rewrite M in Hb. injection Hb as <-. eexists. rewrite free_other; [apply nth_app_here|]. intros E. injection E as E. apply (Old i d Hi). congruence.
      * destruct (inv_alloc s I j o c Hj Hb) as [l Hl]. exists l. rewrite (Keep j o c) by auto. exact Hl.
    + intros k j' q p c Hk Hj' Hq Hp.
      apply (alive_replace2 s i j d) in Hk as [[Nk [Nk' Hk]]|[[-> ->]|[-> ->]]]; auto; apply (alive_replace2 s i j d) in Hj' as [[Nj [Nj' Hj']]|[[-> ->]|[-> ->]]]; auto.
      * exact (inv_once s I k j' q p c Hk Hj' Hq Hp).
      * rewrite M in Hp. injection Hp as <-. exfalso. eauto.
      * exfalso. apply Nk'. exact (inv_once s I k j q o c Hk Hj Hq Hp).
      * rewrite M in Hq. injection Hq as <-. exfalso. eauto.
      * rewrite M in Hq. injection Hq as <-. exfalso. eauto.
      * exfalso. apply Nj'. symmetry. exact (inv_once s I j j' o p c Hj Hj' Hq Hp).
      * rewrite M in Hp. injection Hp as <-. exfalso. eauto.
    + intros k p c H Hb. apply (alive_replace2 s i j d) in H as [[Nk [_ H]]|[[-> ->]|[-> ->]]]; auto.
      * exact (inv_vecs s I k p c H Hb).
      * rewrite M in Hb. injection Hb as <-. intros V. destruct (inv_vecsAlloc s I _ V) as [l' Hl']. apply nth_lt in Hl'. lia.
      * exact (inv_vecs s I j o c Hj Hb).
    + apply I.
    + intros c V. destruct (inv_vecsAlloc s I _ V) as [l' Hl']. exists l'. rewrite free_other; [apply nth_app_old; exact Hl'|].
      intros E. injection E as ->. exact (inv_vecs s I i d c Hi Hd V).
  - assert (Vw : forall p, p = movedObj s o \/ p = o -> oholder p = View b off n) by (intros p [->| ->]; [exact M|exact Ho]).
    constructor; cbn [heap vecs freeHolder].
    + intros k p H. apply (alive_replace2 s i j d) in H as [[_ [_ H]]|[[-> ->]|[-> ->]]]; auto; [exact (inv_bound s I k p H)|rewrite Vw by auto; exact Bj..].
    + intros k p c H Hb. apply (alive_replace2 s i j d) in H as [[_ [_ H]]|[[-> ->]|[-> ->]]]; auto; [exact (inv_alloc s I k p c H Hb)|rewrite Vw in Hb by auto; discriminate..].
    + intros k j' q p c Hk Hj' Hq Hp.
      apply (alive_replace2 s i j d) in Hk as [[_ [_ Hk]]|[[-> ->]|[-> ->]]]; auto; [|rewrite Vw in Hq by auto; discriminate..].
      apply (alive_replace2 s i j d) in Hj' as [[_ [_ Hj']]|[[-> ->]|[-> ->]]]; auto; [|rewrite Vw in Hp by auto; discriminate..].
      exact (inv_once s I k j' q p c Hk Hj' Hq Hp).
    + intros k p c H Hb. apply (alive_replace2 s i j d) in H as [[_ [_ H]]|[[-> ->]|[-> ->]]]; auto; [exact (inv_vecs s I k p c H Hb)|rewrite Vw in Hb by auto; discriminate..].
    + apply I.
    + apply I.
Qed.

Lemma inv_moveTo s i o s' : Inv s -> Alive s i o -> moveTo s i o = Some s' -> Inv s'.
Proof.
  intros I Hi. unfold moveTo. destruct (oholder o) as [b|] eqn:Ho; [|discriminate]. intros E. injection E as <-.
  assert (Old : forall x y, Alive s x y -> oholder y = Owned (length (heap s)) -> False).
  { intros x y Hx Hy. apply (inv_bound s I) in Hx. rewrite Hy in Hx. cbn in Hx. lia. }
  destruct (inv_alloc s I i o b Hi Ho) as [l Hl].
  constructor; cbn [heap vecs].
  - intros k p H. rewrite app_length. cbn [length]. apply alive_replace in H as [[_ H]|[-> E]]; [apply (inv_bound s I) in H; lia|]. injection E as <-. cbn. lia.
  - intros k p c H Hb. apply alive_replace in H as [[_ H]|[-> E]].
    + destruct (inv_alloc s I k p c H Hb) as [l' Hl']. exists l'. apply nth_app_old. exact Hl'.
    + injection E as <-. cbn in Hb. injection Hb as <-. eexists. apply nth_app_here.
  - intros k j' q p c Hk Hj' Hq Hp. apply alive_replace in Hk as [[Nk Hk]|[-> E]]; apply alive_replace in Hj' as [[Nj Hj']|[-> E']]; try reflexivity.
    + exact (inv_once s I k j' q p c Hk Hj' Hq Hp).
    + injection E' as <-. cbn in Hp. injection Hp as <-. exfalso. eauto.
    + injection E as <-. cbn in Hq. injection Hq as <-. exfalso. eauto.
  - intros k p c H Hb V. apply in_app_iff in V as [V|[<-|[]]].
    + apply alive_replace in H as [[Nk H]|[-> E]]; [exact (inv_vecs s I k p c H Hb V)|]. injection E as <-. cbn in Hb. injection Hb as <-.
      destruct (inv_vecsAlloc s I _ V) as [l' Hl']. apply nth_lt in Hl'. lia.
    + apply alive_replace in H as [[Nk H]|[-> E]]; [apply Nk; exact (inv_once s I k i p o b H Hi Hb Ho)|]. injection E as <-. cbn in Hb. injection Hb as E. apply (Old i o Hi). congruence.
  - pose proof (NoDup_rev (inv_vecsOnce s I)) as R. rewrite <- (rev_involutive (vecs s ++ [b])). apply NoDup_rev. rewrite rev_app_distr. cbn. constructor; [|exact R].
    rewrite <- in_rev. exact (inv_vecs s I i o b Hi Ho).
  - intros c V. apply in_app_iff in V as [V|[<-|[]]].
    + destruct (inv_vecsAlloc s I _ V) as [l' Hl']. exists l'. apply nth_app_old. exact Hl'.
    + exists l. apply nth_app_old. exact Hl.
Qed.

Lemma write_inv s h k v s' : writeAt s h k v = Ok s' -> exists l l', nth_error (heap s) (hblock h) = Some (Some l) /\ zset l (hoffset h + k) v = Ok l' /\
  s' = mkState (replace (heap s) (hblock h) (Some l')) (objs s) (vecs s).
Proof.
  unfold writeAt, block. destruct (nth_error (heap s) (hblock h)) as [[l|]|] eqn:E; try discriminate. cbn [bind].
  destruct (zset l (hoffset h + k) v) as [l'| |] eqn:Z; try discriminate. cbn [bind]. intros E'. injection E' as <-. eauto.
Qed.

Lemma inv_write s h k v s' : Inv s -> writeAt s h k v = Ok s' -> Inv s'.
Proof.
  intros I H. apply write_inv in H as (l & l' & Hl & _ & ->). pose proof (nth_lt _ _ _ Hl) as L.
  assert (G : forall b, (exists m, nth_error (heap s) b = Some (Some m)) -> exists m, nth_error (replace (heap s) (hblock h) (Some l')) b = Some (Some m)).
  { intros b [m Hm]. destruct (Nat.eq_dec (hblock h) b) as [<-|N]; [exists l'; apply nth_error_replace_eq; exact L|]. exists m. rewrite nth_error_replace_neq by exact N. exact Hm. }
  constructor; cbn [heap vecs]; unfold Alive; cbn [objs].
  - intros i o H. rewrite replace_length. exact (inv_bound s I i o H).
  - intros i o b H Hb. apply G. exact (inv_alloc s I i o b H Hb).
  - exact (inv_once s I).
  - exact (inv_vecs s I).
  - apply I.
  - intros b V. apply G. exact (inv_vecsAlloc s I b V).
Qed.

Lemma inv_destroy s i o : Inv s -> Alive s i o -> Inv (mkState (freeHolder (oholder o) (heap s)) (replace (objs s) i None) (vecs s)).
Proof.
  intros I Hi. constructor; cbn [heap vecs].
  - intros k p H. rewrite free_length. apply alive_replace in H as [[_ H]|[_ E]]; [exact (inv_bound s I k p H)|discriminate].
  - intros k p c H Hb. apply alive_replace in H as [[N H]|[_ E]]; [|discriminate]. rewrite free_other; [exact (inv_alloc s I k p c H Hb)|].
    intros E. apply N. exact (inv_once s I k i p o c H Hi Hb E).
  - intros k j q p c Hk Hj Hq Hp. apply alive_replace in Hk as [[_ Hk]|[_ E]]; [|discriminate]. apply alive_replace in Hj as [[_ Hj]|[_ E]]; [|discriminate].
    exact (inv_once s I k j q p c Hk Hj Hq Hp).
  - intros k p c H Hb. apply alive_replace in H as [[_ H]|[_ E]]; [exact (inv_vecs s I k p c H Hb)|discriminate].
  - apply I.
  - intros c V. rewrite free_other; [exact (inv_vecsAlloc s I c V)|]. intros E. exact (inv_vecs s I i o c Hi E V).
Qed.

Lemma inv_step s o s' : Inv s -> step zero s o = Some (Ok s') -> Inv s'.
Proof.
  intros I. destruct o as [n shape|i offset n shape|i|i|i j|i j|i|i k v|i]; cbn [step].
  - destruct (wellTyped n shape); [|discriminate]. intros E. apply (inv_new s n shape s' I). congruence.
  - destruct (obj s i) as [x|] eqn:Hx; [|discriminate]. apply obj_alive in Hx. destruct (wellTyped n shape); [|discriminate]. intros E. injection E as <-. apply (inv_view s i); assumption.
  - destruct (obj s i) as [x|] eqn:Hx; [|discriminate]. apply obj_alive in Hx. intros E. apply (inv_copy s i x s' I Hx). congruence.
  - destruct (obj s i) as [x|] eqn:Hx; [|discriminate]. apply obj_alive in Hx. intros E. injection E as <-. apply inv_move; assumption.
  - destruct (obj s i) as [d|] eqn:Hd; [|discriminate]. destruct (obj s j) as [x|] eqn:Hx; [|discriminate]. apply obj_alive in Hd. apply obj_alive in Hx.
    destruct (sameType d x) eqn:T; [|discriminate]. destruct (Nat.eqb_spec i j) as [|N]; intros E; [injection E as <-; exact I|].
    apply (inv_copyAssign s i j d x s' I N Hd Hx T). congruence.
  - destruct (obj s i) as [d|] eqn:Hd; [|discriminate]. destruct (obj s j) as [x|] eqn:Hx; [|discriminate]. apply obj_alive in Hd. apply obj_alive in Hx.
    destruct (sameType d x) eqn:T; [|discriminate]. destruct (Nat.eqb_spec i j) as [|N]; [discriminate|]. cbn [andb negb]. intros E. injection E as <-.
    apply inv_moveAssign; assumption.
  - destruct (obj s i) as [x|] eqn:Hx; [|discriminate]. apply obj_alive in Hx. destruct (moveTo s i x) as [t|] eqn:M; [|discriminate]. intros E. injection E as <-.
    exact (inv_moveTo s i x t I Hx M).
  - destruct (obj s i) as [x|] eqn:Hx; [|discriminate]. intros E. apply (inv_write s (oholder x) k v s' I). congruence.
  - destruct (obj s i) as [x|] eqn:Hx; [|discriminate]. apply obj_alive in Hx. intros E. injection E as <-. apply inv_destroy; assumption.
Qed.

Lemma inv_exec ops : forall s s', Inv s -> exec zero s ops = Some (Ok s') -> Inv s'.
Proof.
  induction ops as [|o ops IH]; intros s s' I H; cbn [exec] in H; [congruence|].
  destruct (step zero s o) as [[t| |]|] eqn:E; [|eapply IH; eassumption|discriminate..].
  apply (IH t s'); [exact (inv_step s o t I E)|exact H].
Qed.

Lemma reachable_inv s : Reachable zero s -> Inv s.
Proof. intros [ops H]. exact (inv_exec ops start s inv_start H). Qed.

(** ** Effects *)

Lemma alive_old s i p (h : list (option (list A))) x vs : Alive s i p -> Alive (mkState h (objs s ++ [x]) vs) i p.
Proof. unfold Alive. cbn. intros H. apply nth_app_old. exact H. Qed.

Lemma alive_other s i p (h : list (option (list A))) k x vs : Alive s i p -> k <> i -> Alive (mkState h (replace (objs s) k x) vs) i p.
Proof. unfold Alive. cbn. intros H N. rewrite nth_error_replace_neq by exact N. exact H. Qed.

Lemma step_copy s i o : Reachable zero s -> Alive s i o -> exists s' p, step zero s (OCopy i) = Some (Ok s') /\ Alive s' (length (objs s)) p /\ oshape p = oshape o /\
  pixels s' (oholder p) = pixels s (oholder o) /\ (forall j, Same s s' j) /\ vecs s' = vecs s /\ (Owner o -> exists l, pixels s (oholder o) = Ok l /\ Owner p) /\ (~ Owner o -> p = o).
Proof.
  intros R Hi. apply reachable_inv in R as I. cbn [step]. pose proof (proj2 (obj_alive s i o) Hi) as E. rewrite E. unfold copyNew, block.
  destruct (oholder o) as [b|b off n] eqn:Ho.
  - destruct (inv_alloc s I i o b Hi Ho) as [l Hl]. rewrite Hl. cbn [bind]. eexists _, _. split; [reflexivity|]. split; [apply nth_app_here|]. cbn [oshape oholder].
    split; [reflexivity|]. rewrite (pixels_owned s b l Hl). split; [apply pixels_owned; apply nth_app_here|]. split; [|split; [reflexivity|split; [intros _; exists l; split; [reflexivity|eexists; reflexivity]|]]].
    + intros j p Hj. split; [apply alive_old; exact Hj|]. apply pixels_same. cbn [heap]. apply nth_error_app1. exact (inv_bound s I j p Hj).
    + intros N. destruct N. exists b. exact Ho.
  - eexists _, o. split; [reflexivity|]. split; [apply nth_app_here|]. split; [reflexivity|]. rewrite Ho. split; [apply pixels_same; reflexivity|].
    split; [intros j p Hj; split; [apply alive_old; exact Hj|apply pixels_same; reflexivity]|]. split; [reflexivity|]. split; [|reflexivity]. intros [c Hc]. congruence.
Qed.

Lemma step_move s i o : Reachable zero s -> Alive s i o -> exists s' p, step zero s (OMove i) = Some (Ok s') /\ Alive s' (length (objs s)) o /\
  pixels s' (oholder o) = pixels s (oholder o) /\ Alive s' i p /\ oshape p = movedFrom (odim o) (oshape o) /\ (Owner o -> pixels s' (oholder p) = Ok []) /\ (~ Owner o -> oholder p = oholder o) /\
  (forall j, j <> i -> Same s s' j) /\ vecs s' = vecs s.
Proof.
  intros R Hi. apply reachable_inv in R as I. cbn [step]. pose proof (proj2 (obj_alive s i o) Hi) as E. rewrite E. pose proof (alive_lt s i o Hi) as Li.
  assert (K : forall h, (hblock h < length (heap s))%nat -> pixels (moveNew s i o) h = pixels s h).
  { intros h L. apply pixels_same. unfold moveNew. cbn [heap]. destruct (oholder o); cbn [movedHolder snd]; [|reflexivity]. apply nth_error_app1. exact L. }
  exists (moveNew s i o), (movedObj s o). split; [reflexivity|]. split.
  { unfold moveNew, Alive. cbn [objs]. rewrite <- (replace_length (objs s) i (Some (movedObj s o))). apply nth_app_here. }
  split; [apply K; exact (inv_bound s I i o Hi)|]. split.
  { unfold moveNew, Alive. cbn [objs]. apply nth_app_old. apply nth_error_replace_eq. exact Li. }
  split; [reflexivity|]. split; [|split; [|split]].
  - intros [b Hb]. unfold movedObj. cbn [oholder]. rewrite Hb. cbn [movedHolder fst]. apply pixels_owned. unfold moveNew. rewrite Hb. cbn [heap movedHolder snd]. apply nth_app_here.
  - intros N. unfold movedObj. cbn [oholder]. destruct (oholder o) eqn:Ho; [|reflexivity]. destruct N. eexists. exact Ho.
  - intros j N p Hj. split; [|apply K; exact (inv_bound s I j p Hj)]. unfold moveNew, Alive. cbn [objs]. apply nth_app_old. rewrite nth_error_replace_neq by congruence. exact Hj.
  - reflexivity.
Qed.

Lemma same_type_owner d o : sameType d o = true -> odim d = odim o /\ (Owner d <-> Owner o).
Proof.
  unfold sameType, Owner. intros H. apply andb_prop in H as [H T]. split; [lia|].
  destruct (oholder d), (oholder o); try discriminate; split; intros [c Hc]; try discriminate; eauto.
Qed.

Lemma sep_owner s i j d p : Inv s -> Alive s i d -> Alive s j p -> i <> j -> Owner p -> oholder d <> Owned (hblock (oholder p)).
Proof. intros I Hi Hj N [b Hb] E. rewrite Hb in E. cbn in E. apply N. exact (inv_once s I i j d p b Hi Hj E Hb). Qed.

Lemma step_selfAssign s i o : Alive s i o -> step zero s (OCopyAssign i i) = Some (Ok s).
Proof.
  intros H. cbn [step]. rewrite (proj2 (obj_alive s i o) H), Nat.eqb_refl.
  replace (sameType o o) with true; [reflexivity|]. unfold sameType. rewrite Z.eqb_refl. destruct (oholder o); reflexivity.
Qed.

Lemma step_copyAssign s i j d o : Reachable zero s -> i <> j -> Alive s i d -> Alive s j o -> sameType d o = true -> exists s' p, step zero s (OCopyAssign i j) = Some (Ok s') /\
  Alive s' i p /\ oshape p = oshape o /\ (Owner o -> pixels s' (oholder p) = pixels s (oholder o)) /\ (~ Owner o -> p = o) /\
  (forall k q, k <> i -> Alive s k q -> Owner q \/ hblock (oholder q) <> hblock (oholder d) -> Same s s' k) /\ vecs s' = vecs s.
Proof.
  intros R N Hi Hj T. apply reachable_inv in R as I. cbn [step]. rewrite (proj2 (obj_alive s i d) Hi), (proj2 (obj_alive s j o) Hj), T. destruct (Nat.eqb_spec i j) as [|_]; [contradiction|]. cbn [andb negb].
  pose proof (alive_lt s i d Hi) as Li. unfold copyAssign, block. destruct (oholder o) as [b|b off n] eqn:Ho.
  - destruct (inv_alloc s I j o b Hj Ho) as [l Hl]. rewrite Hl. cbn [bind]. eexists _, _. split; [reflexivity|]. split; [apply nth_error_replace_eq; exact Li|].
    split; [reflexivity|]. split; [|split; [|split; [|reflexivity]]].
    + intros _. rewrite (pixels_owned s b l Hl). cbn [oholder]. apply pixels_owned. cbn [heap]. rewrite <- (free_length (oholder d) (heap s)). apply nth_app_here.
    + intros C. destruct C. exists b. exact Ho.
    + intros k q Nk Hk O q' Hq'. assert (q' = q) as -> by (unfold Alive in *; congruence). split; [apply alive_other; congruence|]. apply pixels_same. cbn [heap].
      rewrite nth_error_app1 by (rewrite free_length; exact (inv_bound s I k q Hk)). apply free_other. destruct O as [O|O].
      * apply (sep_owner s i k d q I); auto.
      * intros E. apply O. rewrite E. reflexivity.
  - eexists _, o. split; [reflexivity|]. split; [apply nth_error_replace_eq; exact Li|]. split; [reflexivity|]. split; [intros [c Hc]; congruence|]. split; [reflexivity|]. split; [|reflexivity].
    intros k q Nk Hk _ q' Hq'. split; [apply alive_other; congruence|]. apply pixels_same. reflexivity.
Qed.

Lemma step_moveAssign s i j d o : Reachable zero s -> i <> j -> Alive s i d -> Alive s j o -> sameType d o = true -> exists s' p, step zero s (OMoveAssign i j) = Some (Ok s') /\
  Alive s' i o /\ (Owner o -> pixels s' (oholder o) = pixels s (oholder o)) /\ Alive s' j p /\ oshape p = movedFrom (odim o) (oshape o) /\
  (Owner o -> pixels s' (oholder p) = Ok []) /\ (~ Owner o -> oholder p = oholder o) /\
  (forall k q, k <> i -> k <> j -> Alive s k q -> Owner q \/ hblock (oholder q) <> hblock (oholder d) -> Same s s' k) /\ vecs s' = vecs s.
Proof.
  intros R N Hi Hj T. apply reachable_inv in R as I. cbn [step]. rewrite (proj2 (obj_alive s i d) Hi), (proj2 (obj_alive s j o) Hj), T. destruct (Nat.eqb_spec i j) as [|_]; [contradiction|]. cbn [andb negb].
  pose proof (alive_lt s i d Hi) as Li. pose proof (alive_lt s j o Hj) as Lj.
  assert (K : forall h, (hblock h < length (heap s))%nat -> oholder d <> Owned (hblock h) -> pixels (moveAssign s i j d o) h = pixels s h).
  { intros h L F. apply pixels_same. unfold moveAssign. cbn [heap]. rewrite free_other by exact F. destruct (oholder o); cbn [movedHolder snd]; [|reflexivity]. apply nth_error_app1. exact L. }
  exists (moveAssign s i j d o), (movedObj s o). split; [reflexivity|]. split.
  { unfold moveAssign, Alive. cbn [objs]. rewrite nth_error_replace_neq by congruence. apply nth_error_replace_eq. exact Li. }
  split; [intros O; apply K; [exact (inv_bound s I j o Hj)|apply (sep_owner s i j d o I); auto]|]. split.
  { unfold moveAssign, Alive. cbn [objs]. apply nth_error_replace_eq. rewrite replace_length. exact Lj. }
  split; [reflexivity|]. split; [|split; [|split]].
  - intros [b Hb]. unfold movedObj. cbn [oholder]. rewrite Hb. cbn [movedHolder fst]. apply pixels_owned. unfold moveAssign. rewrite Hb. cbn [heap movedHolder snd].
    rewrite free_other; [apply nth_app_here|]. intros E. apply (inv_bound s I) in Hi. rewrite E in Hi. cbn in Hi. lia.
  - intros C. unfold movedObj. cbn [oholder]. destruct (oholder o) eqn:Ho; [|reflexivity]. destruct C. eexists. exact Ho.
  - intros k q Nk Nk' Hk O q' Hq'. assert (q' = q) as -> by (unfold Alive in *; congruence). split.
    + unfold moveAssign, Alive. cbn [objs]. rewrite !nth_error_replace_neq by congruence. exact Hk.
    + apply K; [exact (inv_bound s I k q Hk)|]. destruct O as [O|O]; [apply (sep_owner s i k d q I); auto|]. intros E. apply O. rewrite E. reflexivity.
  - reflexivity.
Qed.

Lemma readAt_write s h k v s' h' k' : writeAt s h k v = Ok s' ->
  readAt s' h' k' = if Nat.eqb (hblock h') (hblock h) && (hoffset h' + k' =? hoffset h + k) then Ok v else readAt s h' k'.
Proof.
  intros H. apply write_inv in H as (l & l' & Hl & Z & ->). pose proof (nth_lt _ _ _ Hl) as L. unfold readAt, block. cbn [heap].
  apply zset_inv in Z as [Rg ->]. destruct (Nat.eqb_spec (hblock h') (hblock h)) as [->|N]; cbn [andb].
  - rewrite nth_error_replace_eq by exact L. rewrite Hl. cbn [bind]. destruct (Z.eqb_spec (hoffset h' + k') (hoffset h + k)) as [->|N].
    + apply zget_ok. split; [lia|]. apply nth_error_replace_eq. lia.
    + destruct (Z_lt_ge_dec (hoffset h' + k') 0) as [Ng|Ps]; [rewrite !zget_out by lia; reflexivity|].
      assert (E : nth_error (replace l (Z.to_nat (hoffset h + k)) v) (Z.to_nat (hoffset h' + k')) = nth_error l (Z.to_nat (hoffset h' + k'))) by (apply nth_error_replace_neq; lia).
      replace (hoffset h' + k') with (Z.of_nat (Z.to_nat (hoffset h' + k'))) by lia. rewrite !zget_nat, E. reflexivity.
  - rewrite nth_error_replace_neq by congruence. reflexivity.
Qed.

Lemma step_write s i o k v s' : Reachable zero s -> Alive s i o -> step zero s (OWrite i k v) = Some (Ok s') ->
  objs s' = objs s /\ vecs s' = vecs s /\
  (forall j p, Alive s j p -> forall k', readAt s' (oholder p) k' = if Nat.eqb (hblock (oholder p)) (hblock (oholder o)) && (hoffset (oholder p) + k' =? hoffset (oholder o) + k) then Ok v else readAt s (oholder p) k') /\
  (forall j p, Alive s j p -> j <> i -> Owner o -> Owner p -> pixels s' (oholder p) = pixels s (oholder p)) /\
  (Owner o -> forall b, In b (vecs s) -> nth_error (heap s') b = nth_error (heap s) b).
Proof.
  intros R Hi. apply reachable_inv in R as I. cbn [step]. rewrite (proj2 (obj_alive s i o) Hi). intros E. injection E as E. pose proof (write_inv _ _ _ _ _ E) as (l & l' & Hl & Z & Es).
  split; [rewrite Es; reflexivity|]. split; [rewrite Es; reflexivity|]. split; [|split].
  - intros j p _ k'. exact (readAt_write s (oholder o) k v s' (oholder p) k' E).
  - intros j p Hj N O P. apply pixels_same. rewrite Es. cbn [heap]. apply nth_error_replace_neq. intros C. destruct O as [b Hb], P as [c Hc]. rewrite Hb, Hc in C. cbn in C. subst c.
    apply N. exact (inv_once s I j i p o b Hj Hi Hc Hb).
  - intros [b Hb] c V. rewrite Es. cbn [heap]. apply nth_error_replace_neq. rewrite Hb. cbn. intros ->. exact (inv_vecs s I i o c Hi Hb V).
Qed.

(** Only accesses are undefined. *)
Lemma step_defined s o : Reachable zero s -> step zero s o = Some UB -> exists i x k v, o = OWrite i k v /\ Alive s i x /\ (Owner x -> forall l, pixels s (oholder x) = Ok l -> ~ 0 <= k < Z.of_nat (length l)).
Proof.
  intros R. pose proof (reachable_inv s R) as I. destruct o as [n shape|i offset n shape|i|i|i j|i j|i|i k v|i]; intros H.
  - cbn [step] in H. destruct (wellTyped n shape); [|discriminate]. unfold newRaster in H. destruct (_ <? 0); discriminate.
  - cbn [step] in H. destruct (obj s i) as [x|]; [|discriminate]. destruct (wellTyped n shape); discriminate.
  - pose proof H as H'. cbn [step] in H'. destruct (obj s i) as [x|] eqn:E; [|discriminate]. apply obj_alive in E. destruct (step_copy s i x R E) as (s' & p & E' & _). congruence.
  - cbn [step] in H. destruct (obj s i) as [x|]; discriminate.
  - pose proof H as H'. cbn [step] in H'. destruct (obj s i) as [x|] eqn:E; [|discriminate]. destruct (obj s j) as [y|] eqn:E'; [|discriminate]. apply obj_alive in E. apply obj_alive in E'.
    destruct (sameType x y) eqn:T; [|discriminate]. destruct (Nat.eqb_spec i j) as [|N]; [discriminate H'|]. destruct (step_copyAssign s i j x y R N E E' T) as (s' & p & E'' & _). congruence.
  - cbn [step] in H. destruct (obj s i) as [x|]; [|discriminate]. destruct (obj s j) as [y|]; [|discriminate]. destruct (_ && _); discriminate.
  - cbn [step] in H. destruct (obj s i) as [x|]; [|discriminate]. destruct (moveTo s i x); discriminate.
  - cbn [step] in H. destruct (obj s i) as [x|] eqn:E; [|discriminate]. apply obj_alive in E. injection H as H. exists i, x, k, v. split; [reflexivity|]. split; [exact E|].
    intros [b Hb] l Pl Rg. destruct (inv_alloc s I i x b E Hb) as [m Hm]. rewrite Hb in Pl. rewrite (pixels_owned s b m Hm) in Pl. injection Pl as ->.
    unfold writeAt, block in H. rewrite Hb in H. cbn [hblock hoffset] in H. rewrite Hm in H. cbn [bind] in H. rewrite zset_ok in H by lia. discriminate.
  - cbn [step] in H. destruct (obj s i) as [x|]; discriminate.
Qed.

Lemma owner_pixels s i o : Reachable zero s -> Alive s i o -> Owner o -> exists l, pixels s (oholder o) = Ok l.
Proof. intros R Hi [b Hb]. apply reachable_inv in R as I. destruct (inv_alloc s I i o b Hi Hb) as [l Hl]. exists l. rewrite Hb. apply pixels_owned. exact Hl. Qed.

(** ** Shapes *)

Definition Consistent s : Prop := forall i o l, Alive s i o -> Owner o -> pixels s (oholder o) = Ok l -> Z.of_nat (length l) = shapeSize (oshape o).

Lemma reachable_step s o s' : Reachable zero s -> step zero s o = Some (Ok s') -> Reachable zero s'.
Proof.
  intros [ops H] E. exists (ops ++ [o]). revert H. generalize (@start A). induction ops as [|a ops IH]; intros t H; cbn [exec app] in *.
  - injection H as ->. rewrite E. reflexivity.
  - destruct (step zero t a) as [[u| |]|]; try discriminate; apply IH; exact H.
Qed.

Lemma safely_reachable s : SafelyReachable zero s -> Reachable zero s.
Proof. induction 1; [exists []; reflexivity|]. eapply reachable_step; eassumption. Qed.

Lemma safely_consistent s : SafelyReachable zero s -> Consistent s.
Proof.
  induction 1 as [|s o s' SR IH SF E]; [intros i x l H; destruct i; discriminate|].
  pose proof (safely_reachable s SR) as R. pose proof (reachable_inv s R) as I. pose proof (reachable_step s o s' R E) as R'. pose proof (reachable_inv s' R') as I'.
  destruct o as [n shape|i offset n shape|i|i|i j|i j|i|i k v|i].
  - cbn [step] in E. destruct (wellTyped n shape); [|discriminate]. unfold newRaster in E. destruct (Z.ltb_spec (shapeSize shape) 0) as [|P]; [discriminate|]. injection E as <-.
    intros k q l Hk O Pl. apply alive_app in Hk as [Hk|[-> ->]].
    + apply (IH k q l Hk O). rewrite <- Pl. symmetry. apply pixels_same. cbn [heap]. apply nth_error_app1. exact (inv_bound s I k q Hk).
    + cbn [oholder oshape] in *. erewrite pixels_owned in Pl by apply nth_app_here. injection Pl as <-. rewrite repeat_length. lia.
  - cbn [step] in E. destruct (obj s i) as [x|]; [|discriminate]. destruct (wellTyped n shape); [|discriminate]. injection E as <-. intros k q l Hk O Pl. apply alive_app in Hk as [Hk|[-> ->]].
    + apply (IH k q l Hk O). exact Pl.
    + destruct O as [b Hb]. discriminate.
  - pose proof E as E'. cbn [step] in E'. destruct (obj s i) as [x|] eqn:Ex; [|discriminate]. clear E'. apply obj_alive in Ex.
    destruct (step_copy s i x R Ex) as (t & p & E' & Hp & Sh & Px & Sm & _ & Op & _). rewrite E in E'. injection E' as <-.
    intros k q l Hk O Pl. destruct (Nat.eq_dec k (length (objs s))) as [->|N].
    + assert (q = p) as -> by (unfold Alive in *; congruence). rewrite Sh. rewrite Px in Pl. apply (IH i x l Ex); [|exact Pl].
      destruct (oholder x) as [b|] eqn:Hx; [eexists; exact Hx|]. exfalso. destruct O as [c Hc]. cbn [step] in E. rewrite (proj2 (obj_alive s i x) Ex) in E. unfold copyNew in E. rewrite Hx in E. injection E as <-.
      unfold Alive in Hp. cbn [objs] in Hp. rewrite nth_app_here in Hp. congruence.
    + assert (Hk' : Alive s k q).
      { cbn [step] in E. rewrite (proj2 (obj_alive s i x) Ex) in E. unfold copyNew in E. destruct (oholder x) as [b|].
        - destruct (block s b); try discriminate. injection E as <-. apply alive_app in Hk as [Hk|[-> _]]; [exact Hk|contradiction].
        - injection E as <-. apply alive_app in Hk as [Hk|[-> _]]; [exact Hk|contradiction]. }
      apply (IH k q l Hk' O). rewrite <- Pl. symmetry. apply (Sm k q Hk').
  - cbn [Safe] in SF. pose proof E as E'. cbn [step] in E'. destruct (obj s i) as [x|] eqn:Ex; [|discriminate]. injection E' as E'. apply obj_alive in Ex.
    destruct (step_move s i x R Ex) as (t & p & E'' & Ho & Po & Hp & Sh & Pp & Np & Sm & _). rewrite E in E''. injection E'' as <-.
    intros k q l Hk O Pl. pose proof Hk as Hk'. rewrite <- E' in Hk'. apply alive_move in Hk' as [[N Hk']|[[-> Eq]|[-> ->]]].
    + apply (IH k q l Hk' O). rewrite <- Pl. symmetry. apply (Sm k N q Hk').
    + assert (q = p) as -> by (unfold Alive in *; congruence). destruct (oholder x) as [b|] eqn:Hx.
      * rewrite Pp in Pl by (exists b; exact Hx). injection Pl as <-. rewrite Sh. rewrite (SF x Ex) by (exists b; exact Hx). reflexivity.
      * exfalso. destruct O as [c Hc]. rewrite Np in Hc by (intros [d Hd]; congruence). congruence.
    + rewrite Po in Pl. exact (IH i x l Ex O Pl).
  - pose proof E as E'. cbn [step] in E'. destruct (obj s i) as [d|] eqn:Ed; [|discriminate]. destruct (obj s j) as [x|] eqn:Ex; [|discriminate]. apply obj_alive in Ed. apply obj_alive in Ex.
    destruct (sameType d x) eqn:T; [|discriminate]. destruct (Nat.eqb_spec i j) as [|N]; [injection E' as <-; exact IH|].
    destruct (step_copyAssign s i j d x R N Ed Ex T) as (t & p & E'' & Hp & Sh & Pp & Np & Sm & _). rewrite E in E''. injection E'' as <-.
    intros k q l Hk O Pl. assert (Hk' : k <> i -> Alive s k q).
    { intros Nk. unfold copyAssign in E'. destruct (oholder x) as [b|].
      - destruct (block s b); try discriminate. injection E' as <-. apply alive_replace in Hk as [[_ Hk]|[-> _]]; [exact Hk|contradiction].
      - injection E' as <-. apply alive_replace in Hk as [[_ Hk]|[-> _]]; [exact Hk|contradiction]. }
    destruct (Nat.eq_dec k i) as [->|Nk].
    + assert (q = p) as -> by (unfold Alive in *; congruence). rewrite Sh. destruct (oholder x) as [b|] eqn:Hx.
      * apply (IH j x l Ex); [exists b; exact Hx|]. rewrite <- Pl. rewrite Hx. symmetry. apply Pp. exists b. exact Hx.
      * exfalso. rewrite Np in O by (intros [c Hc]; congruence). destruct O as [c Hc]. congruence.
    + specialize (Hk' Nk). apply (IH k q l Hk' O). rewrite <- Pl. symmetry. apply (Sm k q Nk Hk'); auto.
  - cbn [Safe] in SF. pose proof E as E'. cbn [step] in E'. destruct (obj s i) as [d|] eqn:Ed; [|discriminate]. destruct (obj s j) as [x|] eqn:Ex; [|discriminate]. apply obj_alive in Ed. apply obj_alive in Ex.
    destruct (sameType d x) eqn:T; [|discriminate]. destruct (Nat.eqb_spec i j) as [|N]; [discriminate|]. cbn [andb negb] in E'. injection E' as E'.
    destruct (step_moveAssign s i j d x R N Ed Ex T) as (t & p & E'' & Ho & Po & Hp & Sh & Pp & Np & Sm & _). rewrite E in E''. injection E'' as <-.
    intros k q l Hk O Pl. pose proof Hk as Hk'. rewrite <- E' in Hk'. apply (alive_replace2 s i j d) in Hk' as [[Ni [Nj Hk']]|[[-> Eq]|[-> ->]]]; auto.
    + apply (IH k q l Hk' O). rewrite <- Pl. symmetry. apply (Sm k q Ni Nj Hk'); auto.
    + assert (q = p) as -> by (unfold Alive in *; congruence). destruct (oholder x) as [b|] eqn:Hx.
      * rewrite Pp in Pl by (exists b; exact Hx). injection Pl as <-. rewrite Sh. rewrite (SF x Ex) by (exists b; exact Hx). reflexivity.
      * exfalso. destruct O as [c Hc]. rewrite Np in Hc by (intros [e He]; congruence). congruence.
    + apply (IH j x l Ex O). rewrite <- Pl. symmetry. apply Po. exact O.
  - destruct SF.
  - cbn [step] in E. destruct (obj s i) as [x|] eqn:Ex; [|discriminate]. injection E as E. apply write_inv in E as (m & m' & Hm & Z & ->). pose proof (nth_lt _ _ _ Hm) as Lt.
    intros j q l Hj [c Hc] Pl. assert (Hj' : Alive s j q) by exact Hj. destruct (inv_alloc s I j q c Hj' Hc) as [r Hr]. rewrite <- (IH j q r Hj'); [| |rewrite Hc; apply pixels_owned; exact Hr]; [|exists c; exact Hc].
    rewrite Hc in Pl. destruct (Nat.eq_dec (hblock (oholder x)) c) as [Ec|Nc].
    + subst c. erewrite pixels_owned in Pl by (cbn [heap]; apply nth_error_replace_eq; exact Lt). injection Pl as <-. rewrite Hm in Hr. injection Hr as <-. apply zset_inv in Z as [_ ->]. rewrite replace_length. reflexivity.
    + erewrite pixels_owned in Pl by (cbn [heap]; rewrite nth_error_replace_neq by exact Nc; exact Hr). injection Pl as <-. reflexivity.
  - cbn [step] in E. destruct (obj s i) as [x|] eqn:Ex; [|discriminate]. apply obj_alive in Ex. injection E as <-. intros k q l Hk O Pl. apply alive_replace in Hk as [[N Hk]|[_ C]]; [|discriminate].
    apply (IH k q l Hk O). rewrite <- Pl. symmetry. apply pixels_same. cbn [heap]. apply free_other. apply (sep_owner s i k x q I); auto.
Qed.

(** ** Views *)

Lemma view_read s i o v off sz : Alive s i o -> oholder o = Owned v -> forall k, readAt s (View v off sz) k = readAt s (oholder o) (off + k).
Proof. intros _ Hb k. rewrite Hb. unfold readAt. cbn [hblock hoffset]. rewrite Z.add_0_l. reflexivity. Qed.

Lemma step_view s i o offset n shape : Alive s i o -> wellTyped n shape = true -> exists s' p, step zero s (OView i offset n shape) = Some (Ok s') /\ Alive s' (length (objs s)) p /\
  oshape p = shape /\ ~ Owner p /\ (forall k, readAt s' (oholder p) k = readAt s (oholder o) (offset + k)) /\ (forall j, Same s s' j) /\ vecs s' = vecs s /\ hblock (oholder p) = hblock (oholder o) /\ hoffset (oholder p) = hoffset (oholder o) + offset.
Proof.
  intros Hi W. cbn [step]. rewrite (proj2 (obj_alive s i o) Hi), W. eexists _, _. split; [reflexivity|]. split; [apply nth_app_here|]. split; [reflexivity|].
  split; [intros [b Hb]; discriminate|]. split; [intros k; unfold readAt, block; cbn [newView heap hblock hoffset oholder]; rewrite Z.add_assoc; reflexivity|].
  split; [intros j p Hj; split; [apply alive_old; exact Hj|apply pixels_same; reflexivity]|]. split; [reflexivity|]. split; reflexivity.
Qed.

Lemma step_destroy s i o : Reachable zero s -> Alive s i o -> exists s', step zero s (ODestroy i) = Some (Ok s') /\ (forall p, ~ Alive s' i p) /\ vecs s' = vecs s /\
  (forall j p, j <> i -> Alive s j p -> Owner p \/ ~ Owner o \/ hblock (oholder p) <> hblock (oholder o) -> Same s s' j) /\
  (Owner o -> forall h, hblock h = hblock (oholder o) -> forall k, readAt s' h k = UB).
Proof.
  intros R Hi. apply reachable_inv in R as I. cbn [step]. rewrite (proj2 (obj_alive s i o) Hi). eexists. split; [reflexivity|]. split; [|split; [reflexivity|split]].
  - intros p H. apply alive_replace in H as [[N _]|[_ C]]; [contradiction|discriminate].
  - intros j p N Hj C p' Hp. assert (p' = p) as -> by (unfold Alive in *; congruence). split; [apply alive_other; congruence|]. apply pixels_same. cbn [heap]. apply free_other.
    destruct C as [C|[C|C]]; [apply (sep_owner s i j o p I); auto|intros E; apply C; eexists; exact E|intros E; apply C; rewrite E; reflexivity].
  - intros [b Hb] h Eh k. unfold readAt, block. cbn [heap]. rewrite Eh, Hb. cbn [hblock freeHolder]. rewrite nth_error_replace_eq; [reflexivity|]. apply (inv_bound s I) in Hi. rewrite Hb in Hi. exact Hi.
Qed.

Lemma step_moveTo s i o : Reachable zero s -> Alive s i o -> Owner o -> exists s' p b l, step zero s (OMoveTo i) = Some (Ok s') /\ vecs s' = vecs s ++ [b] /\
  pixels s (oholder o) = Ok l /\ block s' b = Ok l /\ Alive s' i p /\ oshape p = oshape o /\ pixels s' (oholder p) = Ok [] /\ (forall j, j <> i -> Same s s' j).
Proof.
  intros R Hi [b Hb]. apply reachable_inv in R as I. destruct (inv_alloc s I i o b Hi Hb) as [l Hl]. cbn [step]. rewrite (proj2 (obj_alive s i o) Hi). unfold moveTo. rewrite Hb.
  eexists _, _, b, l. split; [reflexivity|]. split; [reflexivity|]. split; [apply pixels_owned; exact Hl|]. split; [unfold block; cbn [heap]; rewrite (nth_app_old _ _ _ _ Hl); reflexivity|].
  split; [apply nth_error_replace_eq; exact (alive_lt s i o Hi)|]. split; [reflexivity|]. split; [apply pixels_owned; apply nth_app_here|].
  intros j N p Hj. split; [apply alive_other; congruence|]. apply pixels_same. cbn [heap]. apply nth_error_app1. exact (inv_bound s I j p Hj).
Qed.
End Own.

Lemma zget_nil {X} k : zget (@nil X) k = UB.
Proof. unfold zget. destruct (k <? 0); [reflexivity|]. destruct (Z.to_nat k); reflexivity. Qed.

Lemma zset_nil {X} k (v : X) : zset (@nil X) k v = UB.
Proof. unfold zset. cbn [length]. destruct ((k <? 0) || (Z.of_nat 0 <=? k)) eqn:E; [reflexivity|]. lia. Qed.

Lemma moved_shape : exists s o, exec 0 start [ONew 2 [2; 3]; OMove 0] = Some (Ok s) /\ Alive s 0 o /\ Owner o /\ oshape o = [2; 3] /\ shapeSize (oshape o) = 6 /\
  pixels s (oholder o) = Ok [] /\ forall k v, readAt s (oholder o) k = UB /\ step 0 s (OWrite 0 k v) = Some UB.
Proof.
  eexists _, _. split; [vm_compute; reflexivity|]. split; [reflexivity|]. split; [eexists; reflexivity|]. split; [reflexivity|]. split; [reflexivity|]. split; [reflexivity|].
  intros k v. split; [unfold readAt; cbn; apply zget_nil|]. cbn. unfold writeAt, block. cbn [heap hblock nth_error bind]. rewrite zset_nil. reflexivity.
Qed.

Lemma moveTo_shape : exists s o, exec 0 start [ONew (-1) [2; 3]; OMoveTo 0] = Some (Ok s) /\ Alive s 0 o /\ Owner o /\ oshape o = [2; 3] /\ shapeSize (oshape o) = 6 /\
  pixels s (oholder o) = Ok [] /\ forall k v, readAt s (oholder o) k = UB /\ step 0 s (OWrite 0 k v) = Some UB.
Proof.
  eexists _, _. split; [vm_compute; reflexivity|]. split; [reflexivity|]. split; [eexists; reflexivity|]. split; [reflexivity|]. split; [reflexivity|]. split; [reflexivity|].
  intros k v. split; [unfold readAt; cbn; apply zget_nil|]. cbn. unfold writeAt, block. cbn [heap hblock nth_error bind]. rewrite zset_nil. reflexivity.
Qed.
