(** Proofs about the elements of aligned buffers. *)
From Verif Require Import Res Lemmas AlignedModel AlignedSpec AlignedProofs AlignedDataModel AlignedDataSpec.

Section Proofs.
Context {A : Type}.
Variable elt : Z.
Hypothesis elt_pos : 0 < elt.
Implicit Types (d : dstate A) (m : memory A).

Lemma inside_spec l a : inside elt l a = true <-> exists p n, In (p, n) l /\ p <= a /\ a + elt <= p + n.
Proof.
  unfold inside. rewrite existsb_exists. split.
  - intros ([p n] & H & E). cbn [fst snd] in E. exists p, n. split; [exact H|lia].
  - intros (p & n & H & E). exists (p, n). cbn [fst snd]. split; [exact H|lia].
Qed.

Lemma inside_incl l l' a : (forall p n, In (p, n) l -> In (p, n) l') -> inside elt l a = true -> inside elt l' a = true.
Proof. rewrite !inside_spec. intros H (p & n & HI & E). exists p, n. auto. Qed.

Lemma inside_fresh l n p a : Fresh l n p -> p <= a -> a + elt <= p + n -> inside elt l a = false.
Proof.
  intros (_ & _ & F) H1 H2. destruct (inside elt l a) eqn:E; [|reflexivity]. exfalso.
  apply inside_spec in E as (q & k & HI & E1 & E2). apply F in HI. lia.
Qed.

(** Blocks. *)
Lemma Blocks_fresh l n p : Blocks l -> Fresh l n p -> Blocks ((p, n) :: l).
Proof.
  intros [H1 H2] (F1 & F2 & F3). split.
  - intros q k [[= <- <-]|HI]; [auto|apply H1, HI].
  - constructor; [|exact H2]. apply Forall_forall. intros [q k] HI. apply F3 in HI. unfold Apart2. cbn [fst snd]. lia.
Qed.

Lemma FOP_filter {B} (R : B -> B -> Prop) f l : ForallOrdPairs R l -> ForallOrdPairs R (filter f l).
Proof.
  induction 1 as [|x l H1 H2 IH]; cbn [filter]; [constructor|]. destruct (f x); [|exact IH]. constructor; [|exact IH].
  apply Forall_forall. intros y Hy. apply filter_In in Hy as [Hy _]. rewrite Forall_forall in H1. auto.
Qed.

Lemma Blocks_free l p l' : Blocks l -> free l p = Ok l' -> Blocks l'.
Proof.
  intros [H1 H2]. unfold free. destruct (existsb _ l); [|discriminate]. intros [= <-]. split.
  - intros q n HI. apply filter_In in HI as [HI _]. eauto.
  - now apply FOP_filter.
Qed.

Lemma Blocks_apart l x y : Blocks l -> In x l -> In y l -> x = y \/ Apart2 x y.
Proof.
  intros [_ H] Hx Hy. destruct (ForallOrdPairs_In H x y Hx Hy) as [E|[E|E]]; auto. right. unfold Apart2 in *. lia.
Qed.

(** How an operation changes the allocated blocks. *)
Lemma step_live s o s' : step elt s o (Ok s') ->
  live s' = live s \/
  (exists p n, Fresh (live s) n p /\ live s' = (p, n) :: live s) \/
  (exists p, free (live s) p = Ok (live s') /\
     match o with OReset i | ODestroy i => Owns s i p | OUserFree q => q = p | _ => False end).
Proof.
  intros H. remember (Ok s') as r0 eqn:Er.
  destruct H as [size data align r Hc|i b0 r Hi Hc|i b0 Hi|i b0 Hi|i j b0 c p0 l' N Hi Hj Ho HM|i j b0 c N Hi Hj Ho|i b0 Hi|i j b0 c N Hi Hj|i b0 Hi|i b0 Hi|i b0 Hi|p0 Hp].
  - destruct r as [[b l']| |]; try discriminate; injection Er as <-; auto. cbn [live].
    destruct (construct_inv _ _ _ _ _ _ Hc) as [[e E]|(b1 & l1 & [= <- <-] & [[_ ->]|(_ & -> & F & _)])]; [discriminate|auto|eauto 6].
  - destruct r as [[b' l']| |]; try discriminate; injection Er as <-; auto. cbn [live].
    destruct (construct_inv _ _ _ _ _ _ Hc) as [[e E]|(b1 & l1 & [= <- <-] & [[_ ->]|(_ & -> & F & _)])]; [discriminate|auto|eauto 6].
  - rewrite resetBuf_shared in Er by reflexivity. injection Er as <-. auto.
  - injection Er as <-. auto.
  - injection Er as <-. cbn [live]. apply malloc_spec in HM as [[_ ->]|(_ & -> & F)]; [auto|eauto 6].
  - injection Er as <-. auto.
  - injection Er as <-. auto.
  - rewrite resetBuf_shared in Er by reflexivity. injection Er as <-. auto.
  - injection Er as <-. auto.
  - unfold resetBuf in Er. destruct (owns b0) eqn:Ho; cbn [bind] in Er.
    + destruct (free (live s) (bcont b0)) as [l'| |] eqn:F; cbn [bind] in Er; try discriminate. injection Er as <-.
      right. right. exists (bcont b0). split; [exact F|]. exists b0. auto.
    + injection Er as <-. auto.
  - unfold resetBuf in Er. destruct (owns b0) eqn:Ho; cbn [bind] in Er.
    + destruct (free (live s) (bcont b0)) as [l'| |] eqn:F; cbn [bind] in Er; try discriminate. injection Er as <-.
      right. right. exists (bcont b0). split; [exact F|]. exists b0. auto.
    + injection Er as <-. auto.
  - destruct (free (live s) p0) as [l'| |] eqn:F; cbn [bind] in Er; try discriminate. injection Er as <-. right. right. eauto.
Qed.

(** The invariant of the histories. *)
Definition DInv d : Prop := Inv elt (ast d) /\ Blocks (live (ast d)).

Lemma DInv_start ext m : Blocks ext -> DInv (dstart ext m).
Proof.
  intros H. split; [|exact H]. split; unfold alive, dstart; cbn [ast bufs live user].
  - intros i b E. destruct i; discriminate.
  - intros i j b c E. destruct i; discriminate.
  - intros i b E. destruct i; discriminate.
  - intros p [].
  - apply H.
Qed.

Lemma step_blocks s o s' : Blocks (live s) -> step elt s o (Ok s') -> Blocks (live s').
Proof.
  intros B H. destruct (step_live _ _ _ H) as [->|[(p & n & F & ->)|(p & F & _)]]; [exact B| |].
  - now apply Blocks_fresh.
  - eapply Blocks_free; eauto.
Qed.

Lemma dstep_inv d o r : DInv d -> dstep elt d o r -> r = UB \/ exists d', r = Ok d' /\ DInv d'.
Proof.
  intros [HI HB] H. inversion H; subst.
  - destruct (copied _ _ _ _ _) as [m| |] eqn:E; cbn [bind]; [|exfalso|auto].
    + right. eexists. split; [reflexivity|]. destruct (step_inv _ _ _ _ HI H0) as (s1 & [= <-] & HI').
      split; [exact HI'|]. cbn [ast]. eapply step_blocks; eauto.
    + assert (C : forall n l m src dst e, copyMem elt n l m src dst <> Throw (A:=memory A) e).
      { clear. induction n as [|n IH]; cbn [copyMem]; intros; [discriminate|]. destruct (_ && _); [apply IH|discriminate]. }
      assert (C' : forall b c l m e, copyBuf (A:=A) elt b c l m <> Throw e).
      { intros b c l m e0. unfold copyBuf. destruct b, c; try discriminate. destruct (owns b); [apply C|discriminate]. }
      unfold copied in E. destruct o0; try discriminate; [eapply C'; eassumption|].
      destruct (Nat.eqb i j); [discriminate|eapply C'; eassumption].
  - auto.
  - destruct (inside _ _ _); [|auto]. right. eexists. split; [reflexivity|]. split; assumption.
Qed.

Lemma drun_inv ops : forall d d', DInv d -> drun elt d ops (Ok d') -> DInv d'.
Proof.
  induction ops as [|o ops IH]; intros d d' HI H; inversion H; subst; [exact HI|].
  destruct (dstep_inv _ _ _ HI H2) as [E|(d1 & [= <-] & HI1)]; [discriminate|]. eauto.
Qed.

Lemma reachable_inv d : DReachable elt d -> DInv d.
Proof. intros (ext & m & ops & B & H). eapply drun_inv; [|exact H]. now apply DInv_start. Qed.

(** Memory. *)
Lemma put_at m a c : put elt m a c a = c.
Proof. unfold put. now rewrite Z.eqb_refl. Qed.
Lemma put_far m a c x : elt <= Z.abs (x - a) -> put elt m a c x = m x.
Proof. intros H. unfold put. destruct (x =? a) eqn:E; [lia|]. destruct (_ <? _) eqn:F; [lia|reflexivity]. Qed.

Lemma copyMem_spec n : forall l m src dst,
  (forall k, 0 <= k < Z.of_nat n -> inside elt l (src + elt * k) = true /\ inside elt l (dst + elt * k) = true) ->
  (forall i j, 0 <= i < Z.of_nat n -> 0 <= j < Z.of_nat n -> elt <= Z.abs ((src + elt * i) - (dst + elt * j))) ->
  exists m', copyMem elt n l m src dst = Ok m' /\
    (forall k, 0 <= k < Z.of_nat n -> m' (dst + elt * k) = m (src + elt * k)) /\
    (forall x, (forall k, 0 <= k < Z.of_nat n -> elt <= Z.abs (x - (dst + elt * k))) -> m' x = m x).
Proof.
  induction n as [|n IH]; intros l m src dst HI HD; cbn [copyMem].
  { exists m. split; [reflexivity|]. split; [intros k Hk; lia|auto]. }
  destruct (HI 0 ltac:(lia)) as [H1 H2]. rewrite Z.mul_0_r, Z.add_0_r in H1, H2. rewrite H1, H2. cbn [andb].
  destruct (IH l (put elt m dst (m src)) (src + elt) (dst + elt)) as (m' & E & M1 & M2).
  - intros k Hk. replace (src + elt + elt * k) with (src + elt * (k + 1)) by ring.
    replace (dst + elt + elt * k) with (dst + elt * (k + 1)) by ring. apply HI. lia.
  - intros i j Hi Hj. replace (src + elt + elt * i) with (src + elt * (i + 1)) by ring.
    replace (dst + elt + elt * j) with (dst + elt * (j + 1)) by ring. apply HD; lia.
  - exists m'. split; [exact E|]. split.
    + intros k Hk. destruct (Z.eq_dec k 0) as [->|N].
      * rewrite !Z.mul_0_r, !Z.add_0_r. rewrite M2; [apply put_at|]. intros j Hj. nia.
      * replace (dst + elt * k) with (dst + elt + elt * (k - 1)) by ring. rewrite M1 by lia.
        replace (src + elt + elt * (k - 1)) with (src + elt * k) by ring. apply put_far.
        specialize (HD k 0 ltac:(lia) ltac:(lia)). now rewrite Z.mul_0_r, Z.add_0_r in HD.
    + intros x Hx. rewrite M2.
      * apply put_far. specialize (Hx 0 ltac:(lia)). now rewrite Z.mul_0_r, Z.add_0_r in Hx.
      * intros k Hk. replace (dst + elt + elt * k) with (dst + elt * (k + 1)) by ring. apply Hx. lia.
Qed.

(** The elements of an owner lie in its block. *)
Lemma owner_elements s i b : Inv elt s -> alive s i b -> owns b = true -> Fits elt b ->
  exists n, In (bcont b, n) (live s) /\ forall k, 0 <= k < bsize b ->
    bcont b <= bdata b + elt * k /\ bdata b + elt * k + elt <= bcont b + n.
Proof.
  intros HI Hi Ho (Hs & Hov & k & Hk & Ha). destruct (inv_block _ _ HI i b Hi Ho) as [B D]. rewrite Ha in *.
  assert (0 < 2 ^ k) by (apply Z.pow_pos_nonneg; lia). assert (0 <= elt * bsize b) by nia.
  assert (E : blockSize elt (bsize b) (2 ^ k) = elt * bsize b + 2 ^ k - 1) by (apply u64_small; nia).
  rewrite E in B. eexists. split; [exact B|]. apply (inv_live _ _ HI) in B as [Hp Hend].
  destruct (alignUp_spec (bcont b) k Hk ltac:(lia) ltac:(lia)) as [_ Bd]. rewrite D. intros j Hj. nia.
Qed.

Lemma owner_inside s i b k : Inv elt s -> alive s i b -> owns b = true -> Fits elt b -> 0 <= k < bsize b ->
  inside elt (live s) (bdata b + elt * k) = true.
Proof.
  intros HI Hi Ho HF Hk. destruct (owner_elements s i b HI Hi Ho HF) as (n & B & H). apply inside_spec.
  exists (bcont b), n. split; [exact B|]. now apply H.
Qed.

Lemma buf_alive s i b : alive s i b -> buf s i = Some b.
Proof. intros H. unfold buf. unfold alive in H. now rewrite H. Qed.

(** Copying the elements of the owner [b] to a new block. *)
Lemma copy_fresh s s' i b c m : Inv elt s -> alive s i b -> owns b = true -> Fits elt b ->
  Fresh (live s) (blockSize elt (bsize b) (bas b)) (bcont c) ->
  live s' = (bcont c, blockSize elt (bsize b) (bas b)) :: live s -> bdata c = alignUp (bcont c) (bas b) ->
  exists m', copyBuf elt (Some b) (Some c) (live s') (scrub elt (live s) m) = Ok m' /\
    (forall k, 0 <= k < bsize b -> inside elt (live s') (bdata c + elt * k) = true /\ m' (bdata c + elt * k) = m (bdata b + elt * k)) /\
    (forall a, inside elt (live s) a = true -> m' a = m a).
Proof.
  intros HI Hi Ho HF F L D. assert (HF' := HF). destruct HF' as (Hs & Hov & k & Hk & Ha).
  assert (0 < 2 ^ k) by (apply Z.pow_pos_nonneg; lia). assert (0 <= elt * bsize b) by nia.
  assert (E : blockSize elt (bsize b) (bas b) = elt * bsize b + bas b - 1) by (apply u64_small; nia).
  assert (Bd : forall j, 0 <= j < bsize b -> bcont c <= bdata c + elt * j /\
             bdata c + elt * j + elt <= bcont c + blockSize elt (bsize b) (bas b)).
  { intros j Hj. rewrite E. destruct F as (F1 & F2 & _). rewrite E in F2.
    destruct (alignUp_spec (bcont c) k Hk ltac:(lia) ltac:(lia)) as [_ Bd]. rewrite <- Ha, <- D in Bd. nia. }
  assert (In' : forall j, 0 <= j < bsize b -> inside elt (live s') (bdata c + elt * j) = true).
  { intros j Hj. apply inside_spec. rewrite L. eexists _, _. split; [left; reflexivity|]. now apply Bd. }
  assert (Far : forall j a, 0 <= j < bsize b -> inside elt (live s) a = true -> elt <= Z.abs (a - (bdata c + elt * j))).
  { intros j a Hj Hin. apply inside_spec in Hin as (q & n & HIn & Hq). destruct F as (_ & _ & F). apply F in HIn.
    specialize (Bd j Hj). lia. }
  cbn [copyBuf]. rewrite Ho.
  destruct (copyMem_spec (Z.to_nat (bsize b)) (live s') (scrub elt (live s) m) (bdata b) (bdata c)) as (m' & Em & M1 & M2).
  - intros j Hj. rewrite Z2Nat.id in Hj by lia. split; [|now apply In'].
    eapply inside_incl; [|eapply (owner_inside s i b j); eauto]. rewrite L. intros. now right.
  - intros x y Hx Hy. rewrite Z2Nat.id in Hx, Hy by lia. apply Far; [exact Hy|]. eapply owner_inside; eauto.
  - rewrite Z2Nat.id in M1, M2 by lia. exists m'. split; [exact Em|]. split.
    + intros j Hj. split; [now apply In'|]. rewrite M1 by lia. unfold scrub. erewrite owner_inside; eauto.
    + intros a Hin. rewrite M2; [unfold scrub; now rewrite Hin|]. intros j Hj. now apply Far.
Qed.

Lemma inside_null l : Blocks l -> inside elt l 0 = false.
Proof.
  intros [B _]. destruct (inside elt l 0) eqn:E; [|reflexivity]. apply inside_spec in E as (p & n & HI & E). apply B in HI. lia.
Qed.

Definition newBuf (b : buffer) (p : Z) : buffer := mkBuffer (bsize b) (bas b) p (alignUp p (bas b)).

(** The outcome of copying the owner [b] to a buffer with a new allocation [p]. *)
Lemma copy_outcome s s' i b p m : Inv elt s -> Blocks (live s) -> alive s i b -> owns b = true -> Fits elt b ->
  malloc (live s) (blockSize elt (bsize b) (bas b)) p (live s') ->
  (p = 0 /\ live s' = live s /\ copyBuf elt (Some b) (Some (newBuf b p)) (live s') (scrub elt (live s) m) =
     if bsize b =? 0 then Ok (scrub elt (live s) m) else UB) \/
  (p <> 0 /\ exists m', copyBuf elt (Some b) (Some (newBuf b p)) (live s') (scrub elt (live s) m) = Ok m' /\
    (forall k, 0 <= k < bsize b -> inside elt (live s') (bdata (newBuf b p) + elt * k) = true /\
       m' (bdata (newBuf b p) + elt * k) = m (bdata b + elt * k)) /\
    (forall a, inside elt (live s) a = true -> inside elt (live s') a = true /\ m' a = m a)).
Proof.
  intros HI HB Hi Ho HF HM. apply malloc_spec in HM as [[-> L]|(N & L & F)].
  - left. split; [reflexivity|]. split; [exact L|]. destruct HF as (Hs & _ & k & Hk & Ha).
    cbn [copyBuf newBuf bdata]. rewrite Ho, Ha, alignUp_null by lia. destruct (bsize b =? 0) eqn:E.
    + replace (bsize b) with 0 by lia. reflexivity.
    + destruct (Z.to_nat (bsize b)) eqn:En; [lia|]. cbn [copyMem]. rewrite L, (inside_null _ HB), andb_false_r. reflexivity.
  - right. split; [exact N|]. destruct (copy_fresh s s' i b (newBuf b p) m) as (m' & E & M1 & M2); auto.
    exists m'. split; [exact E|]. split; [exact M1|]. intros a Ha. split; [|now apply M2].
    eapply inside_incl; [|exact Ha]. rewrite L. intros. now right.
Qed.

Lemma alignAs_fits b : Fits elt b -> alignAs 0 (bas b) = bas b.
Proof.
  intros (_ & _ & k & Hk & ->). unfold alignAs. assert (0 < 2 ^ k) by (apply Z.pow_pos_nonneg; lia).
  assert (2 ^ k <= 2 ^ 63) by (apply Z.pow_le_mono_r; lia).
  destruct (_ =? _) eqn:E; [lia|]. destruct (2 ^ k =? 0) eqn:E'; [lia|reflexivity].
Qed.

Lemma copy_inv s i b s' : alive s i b -> owns b = true -> Fits elt b -> step elt s (OCopy i) (Ok s') ->
  exists p, malloc (live s) (blockSize elt (bsize b) (bas b)) p (live s') /\
    s' = mkState (live s') (bufs s ++ [Some (newBuf b p)]) (user s).
Proof.
  intros Hi Ho HF H. remember (OCopy i) as o eqn:Eo. remember (Ok s') as r0 eqn:Er.
  destruct H as [size data align r Hc|i' b0 r Hi' Hc|i' b0 Hi'|i' b0 Hi'|i' j b0 c p0 l' N Hi' Hj Ho' HM|i' j b0 c N Hi' Hj Ho'|i' b0 Hi'|i' j b0 c N Hi' Hj|i' b0 Hi'|i' b0 Hi'|i' b0 Hi'|p0 Hp]; try discriminate.
  injection Eo as ->. assert (b0 = b) as -> by (eapply alive_fun; eauto). rewrite Ho in Hc.
  inversion Hc as [Hd Er'|p l' Hd HM Er']; [congruence|]. rewrite (alignAs_fits b HF) in HM, Er'. subst r. injection Er as <-.
  cbn [live]. exists p. auto.
Qed.

Lemma copy_assign_inv s i j b s' : i <> j -> alive s j b -> owns b = true -> step elt s (OCopyAssign i j) (Ok s') ->
  exists p, malloc (live s) (blockSize elt (bsize b) (bas b)) p (live s') /\
    s' = mkState (live s') (replace (bufs s) i (Some (newBuf b p))) (user s) /\ exists c, alive s i c.
Proof.
  intros N Hj Ho H. remember (OCopyAssign i j) as o eqn:Eo. remember (Ok s') as r0 eqn:Er.
  destruct H as [size data align r Hc|i' b0 r Hi' Hc|i' b0 Hi'|i' b0 Hi'|i' j' b0 c p0 l' N' Hi' Hj' Ho' HM|i' j' b0 c N' Hi' Hj' Ho'|i' b0 Hi'|i' j' b0 c N' Hi' Hj'|i' b0 Hi'|i' b0 Hi'|i' b0 Hi'|p0 Hp]; try discriminate.
  - congruence.
  - injection Eo as -> ->. assert (c = b) as -> by (eapply alive_fun; eauto). injection Er as <-. cbn [live]. exists p0. eauto.
  - injection Eo as -> ->. assert (c = b) as -> by (eapply alive_fun; eauto). congruence.
Qed.

Lemma copy_step d i b d' : DInv d -> alive (ast d) i b -> owns b = true -> Fits elt b -> 0 < bsize b ->
  dstep elt d (Buf (OCopy i)) (Ok d') -> exists c,
    bufs (ast d') = bufs (ast d) ++ [Some c] /\ owns c = true /\ bas c = bas b /\ SameElements elt d' c d b /\ Kept elt d d'.
Proof.
  intros [HI HB] Hi Ho HF Hs H. inversion H as [o s' H2 Eo H1|o r Hr Hn Eo E0|]. subst o.
  destruct (copy_inv _ _ _ _ Hi Ho HF H2) as (p & HM & E).
  unfold copied in H1. rewrite (buf_alive _ _ _ Hi) in H1.
  assert (Eb : buf s' (length (bufs (ast d))) = Some (newBuf b p)).
  { apply buf_alive. rewrite E. apply alive_snoc_last. }
  rewrite Eb in H1. destruct (copy_outcome (ast d) s' i b p (mem d) HI HB Hi Ho HF HM) as [(-> & L & Ec)|(N & m' & Ec & M1 & M2)].
  { rewrite Ec in H1. destruct (bsize b =? 0) eqn:E0; [lia|discriminate]. }
  rewrite Ec in H1. injection H1 as <-. exists (newBuf b p). cbn [ast]. rewrite E at 1. cbn [bufs].
  split; [reflexivity|]. split; [apply owns_spec; exact N|]. split; [reflexivity|]. split.
  - split; [reflexivity|]. intros k Hk. unfold element, look. cbn [ast mem]. destruct (M1 k Hk) as [-> ->].
    erewrite owner_inside; eauto.
  - intros a c. unfold look. cbn [ast mem]. destruct (inside elt (live (ast d)) a) eqn:Ea; [|discriminate].
    destruct (M2 a Ea) as [-> ->]. auto.
Qed.

Lemma copy_assign_step d i j b d' : DInv d -> i <> j -> alive (ast d) j b -> owns b = true -> Fits elt b -> 0 < bsize b ->
  dstep elt d (Buf (OCopyAssign i j)) (Ok d') -> exists c,
    bufs (ast d') = replace (bufs (ast d)) i (Some c) /\ alive (ast d') i c /\
    owns c = true /\ bas c = bas b /\ SameElements elt d' c d b /\ Kept elt d d'.
Proof.
  intros [HI HB] N Hj Ho HF Hs H. inversion H as [o s' H2 Eo H1|o r Hr Hn Eo E0|]. subst o.
  destruct (copy_assign_inv _ _ _ _ _ N Hj Ho H2) as (p & HM & E & (c0 & Hc0)).
  unfold copied in H1. rewrite (buf_alive _ _ _ Hj) in H1. destruct (Nat.eqb i j) eqn:Eij; [apply Nat.eqb_eq in Eij; congruence|].
  assert (Hal : alive s' i (newBuf b p)).
  { unfold alive. rewrite E. cbn [bufs]. apply nth_error_replace_eq. eapply alive_lt; eauto. }
  rewrite (buf_alive _ _ _ Hal) in H1. destruct (copy_outcome (ast d) s' j b p (mem d) HI HB Hj Ho HF HM) as [(-> & L & Ec)|(Np & m' & Ec & M1 & M2)].
  { rewrite Ec in H1. destruct (bsize b =? 0) eqn:E0; [lia|discriminate]. }
  rewrite Ec in H1. injection H1 as <-. exists (newBuf b p). cbn [ast]. split; [rewrite E at 1; reflexivity|]. split; [exact Hal|].
  split; [apply owns_spec; exact Np|]. split; [reflexivity|]. split.
  - split; [reflexivity|]. intros k Hk. unfold element, look. cbn [ast mem]. destruct (M1 k Hk) as [-> ->].
    erewrite owner_inside; eauto.
  - intros a c. unfold look. cbn [ast mem]. destruct (inside elt (live (ast d)) a) eqn:Ea; [|discriminate].
    destruct (M2 a Ea) as [-> ->]. auto.
Qed.

(** The copies of an allocation which fails. *)
Lemma copy_fails d i b : DInv d -> alive (ast d) i b -> owns b = true -> Fits elt b -> 0 < bsize b ->
  dstep elt d (Buf (OCopy i)) UB.
Proof.
  intros [HI HB] Hi Ho HF Hs. set (s' := mkState (live (ast d)) (bufs (ast d) ++ [Some (newBuf b 0)]) (user (ast d))).
  assert (HS : step elt (ast d) (OCopy i) (Ok s')).
  { apply (step_copy elt (ast d) i b (Ok (newBuf b 0, live (ast d))) Hi). rewrite Ho. unfold newBuf. rewrite <- (alignAs_fits b HF) at 2 3.
    apply construct_owning; [reflexivity|constructor]. }
  assert (E := dstep_buf elt d _ _ HS). unfold copied in E. rewrite (buf_alive _ _ _ Hi) in E.
  rewrite (buf_alive s' _ (newBuf b 0)) in E by apply alive_snoc_last.
  destruct (copy_outcome (ast d) s' i b 0 (mem d) HI HB Hi Ho HF ltac:(constructor)) as [(_ & _ & Ec)|[N _]]; [|congruence].
  rewrite Ec in E. destruct (bsize b =? 0) eqn:E0; [lia|]. exact E.
Qed.

Lemma copied_mem d o s' m : DInv d -> AllFit elt d -> step elt (ast d) o (Ok s') ->
  copied elt (ast d) o s' (scrub elt (live (ast d)) (mem d)) = Ok m ->
  forall a, inside elt (live (ast d)) a = true -> m a = mem d a.
Proof.
  intros [HI HB] HF HS HC a Ha.
  assert (Same : scrub elt (live (ast d)) (mem d) a = mem d a) by (unfold scrub; now rewrite Ha).
  unfold copied in HC. destruct o; try (injection HC as <-; exact Same).
  - destruct (buf (ast d) i) as [b|] eqn:Eb; [|cbn [copyBuf] in HC; injection HC as <-; exact Same].
    assert (Hi : alive (ast d) i b).
    { unfold buf in Eb. unfold alive. destruct (nth_error _ i) as [[x|]|]; congruence. }
    destruct (owns b) eqn:Ho.
    + assert (Fb := HF i b Hi Ho). destruct (copy_inv _ _ _ _ Hi Ho Fb HS) as (p & HM & E).
      rewrite (buf_alive s' _ (newBuf b p)) in HC by (rewrite E; apply alive_snoc_last).
      destruct (copy_outcome (ast d) s' i b p (mem d) HI HB Hi Ho Fb HM) as [(_ & _ & Ec)|(_ & m' & Ec & _ & M2)]; rewrite Ec in HC.
      * destruct (bsize b =? 0); [|discriminate]. injection HC as <-. exact Same.
      * injection HC as <-. now apply M2.
    + unfold copyBuf in HC. rewrite Ho in HC. destruct (buf s' _); injection HC as <-; exact Same.
  - destruct (Nat.eqb i j) eqn:Eij; [injection HC as <-; exact Same|]. apply Nat.eqb_neq in Eij.
    destruct (buf (ast d) j) as [b|] eqn:Eb; [|cbn [copyBuf] in HC; injection HC as <-; exact Same].
    assert (Hj : alive (ast d) j b).
    { unfold buf in Eb. unfold alive. destruct (nth_error _ j) as [[x|]|]; congruence. }
    destruct (owns b) eqn:Ho.
    + assert (Fb := HF j b Hj Ho). destruct (copy_assign_inv _ _ _ _ _ Eij Hj Ho HS) as (p & HM & E & (c0 & Hc0)).
      rewrite (buf_alive s' i (newBuf b p)) in HC.
      2: { unfold alive. rewrite E. cbn [bufs]. apply nth_error_replace_eq. eapply alive_lt; eauto. }
      destruct (copy_outcome (ast d) s' j b p (mem d) HI HB Hj Ho Fb HM) as [(_ & _ & Ec)|(_ & m' & Ec & _ & M2)]; rewrite Ec in HC.
      * destruct (bsize b =? 0); [|discriminate]. injection HC as <-. exact Same.
      * injection HC as <-. now apply M2.
    + unfold copyBuf in HC. rewrite Ho in HC. destruct (buf s' _); injection HC as <-; exact Same.
Qed.

Lemma buf_step_inv d o r : DInv d -> dstep elt d (Buf o) r ->
  exists s', step elt (ast d) o (Ok s') /\ r = (m <- copied elt (ast d) o s' (scrub elt (live (ast d)) (mem d)) ;; Ok (mkD s' m)).
Proof.
  intros [HI _] H. inversion H as [o' s' HS Eo Er|o' r' HS Hn Eo Er|]; subst o'.
  - eauto.
  - destruct (step_inv _ _ _ _ HI HS) as (s1 & -> & _). destruct (Hn s1 eq_refl).
Qed.

Lemma buf_step_kept d o d' : DInv d -> AllFit elt d -> dstep elt d (Buf o) (Ok d') ->
  forall a c, look elt d a = Ok c -> look elt d' a = Ok c \/ (look elt d' a = UB /\ Freed elt d o a).
Proof.
  intros HD HF H a c HL. destruct (buf_step_inv _ _ _ HD H) as (s' & HS & E).
  destruct (copied elt (ast d) o s' (scrub elt (live (ast d)) (mem d))) as [m| |] eqn:EC; try discriminate.
  injection E as ->. unfold look in *. cbn [ast mem].
  destruct (inside elt (live (ast d)) a) eqn:Ha; [|discriminate]. injection HL as <-.
  destruct (inside elt (live s') a) eqn:Ha'.
  - left. f_equal. eapply copied_mem; eauto.
  - right. split; [reflexivity|]. destruct (step_live _ _ _ HS) as [L|[(p & n & F & L)|(p & F & HO)]].
    + congruence.
    + rewrite (inside_incl (live (ast d)) (live s') a) in Ha'; [discriminate| |exact Ha]. rewrite L. intros. now right.
    + apply inside_spec in Ha as (q & n & HIn & Hq1 & Hq2).
      assert (q = p).
      { destruct (Z.eq_dec q p) as [|Nq]; [assumption|]. exfalso. revert Ha'. apply eq_true_false_abs. apply inside_spec.
        exists q, n. split; [|auto]. apply (free_spec _ _ _ F). auto. }
      subst q. exists p, n. auto.
Qed.

(** Moves. *)
Lemma move_step d i b r : DInv d -> alive (ast d) i b -> dstep elt d (Buf (OMove i)) r -> exists d' c e, r = Ok d' /\
  bufs (ast d') = replace (bufs (ast d)) i (Some e) ++ [Some c] /\
  bsize c = bsize b /\ bas c = bas b /\ bdata c = bdata b /\ owns c = false /\
  bsize e = 0 /\ bdata e = 0 /\ owns e = false /\ (forall a, look elt d' a = look elt d a).
Proof.
  intros HD Hi H. destruct (buf_step_inv _ _ _ HD H) as (s' & HS & ->). cbn [copied bind].
  remember (OMove i) as o eqn:Eo. remember (Ok s') as r0 eqn:Er.
  destruct HS as [size data align r Hc|i' b0 r Hi' Hc|i' b0 Hi'|i' b0 Hi'|i' j' b0 c p0 l' N' Hi' Hj' Ho' HM|i' j' b0 c N' Hi' Hj' Ho'|i' b0 Hi'|i' j' b0 c N' Hi' Hj'|i' b0 Hi'|i' b0 Hi'|i' b0 Hi'|p0 Hp]; try discriminate.
  injection Eo as ->. assert (b0 = b) as -> by (eapply alive_fun; eauto). rewrite resetBuf_shared in Er by reflexivity. injection Er as <-.
  eexists _, (mkBuffer (bsize b) (bas b) 0 (bdata b)), (mkBuffer 0 1 0 0). split; [reflexivity|]. cbn [ast bufs fst snd].
  repeat (split; [reflexivity|]). intros a. unfold look, scrub. cbn [ast mem live fst snd]. now destruct (inside _ _ a).
Qed.

Lemma move_assign_step d i j b c r : DInv d -> i <> j -> alive (ast d) i b -> alive (ast d) j c -> dstep elt d (Buf (OMoveAssign i j)) r ->
  exists d' e, r = Ok d' /\ bufs (ast d') = replace (replace (bufs (ast d)) i (Some c)) j (Some e) /\
  bsize e = 0 /\ bdata e = 0 /\ owns e = false /\ (forall a, look elt d' a = look elt d a).
Proof.
  intros HD N Hi Hj H. destruct (buf_step_inv _ _ _ HD H) as (s' & HS & ->). cbn [copied bind].
  remember (OMoveAssign i j) as o eqn:Eo. remember (Ok s') as r0 eqn:Er.
  destruct HS as [size data align r Hc|i' b0 r Hi' Hc|i' b0 Hi'|i' b0 Hi'|i' j' b0 c0 p0 l' N' Hi' Hj' Ho' HM|i' j' b0 c0 N' Hi' Hj' Ho'|i' b0 Hi'|i' j' b0 c0 N' Hi' Hj'|i' b0 Hi'|i' b0 Hi'|i' b0 Hi'|p0 Hp]; try discriminate.
  - congruence.
  - injection Eo as -> ->. assert (c0 = c) as -> by (eapply alive_fun; eauto). rewrite resetBuf_shared in Er by reflexivity. injection Er as <-.
    eexists _, (mkBuffer 0 1 0 0). split; [reflexivity|]. cbn [ast bufs fst snd].
    repeat (split; [reflexivity|]). intros a. unfold look, scrub. cbn [ast mem live fst snd]. now destruct (inside _ _ a).
Qed.

(** Two owners have no address in common. *)
Lemma owners_apart d i j b c k k' : DInv d -> i <> j -> alive (ast d) i b -> alive (ast d) j c ->
  owns b = true -> owns c = true -> Fits elt b -> Fits elt c -> 0 <= k < bsize b -> 0 <= k' < bsize c ->
  elt <= Z.abs (bdata c + elt * k' - (bdata b + elt * k)).
Proof.
  intros [HI HB] N Hi Hj Ho Ho' Fb Fc Hk Hk'.
  destruct (owner_elements _ i b HI Hi Ho Fb) as (n & B1 & B2). destruct (owner_elements _ j c HI Hj Ho' Fc) as (n' & C1 & C2).
  specialize (B2 k Hk). specialize (C2 k' Hk'). assert (D := inv_distinct _ _ HI i j b c Hi Hj N Ho).
  destruct (Blocks_apart _ _ _ HB B1 C1) as [E|E]; [injection E; congruence|]. unfold Apart2 in E. cbn [fst snd] in E. lia.
Qed.

Lemma write_step d i b k v : DInv d -> alive (ast d) i b -> owns b = true -> Fits elt b -> 0 <= k < bsize b ->
  exists d', (forall r, dstep elt d (Write i k v) r <-> r = Ok d') /\ ast d' = ast d /\
    element elt d' b k = Ok (Some v) /\
    (forall k', k' <> k -> element elt d' b k' = element elt d b k') /\
    (forall j c k', j <> i -> alive (ast d) j c -> owns c = true -> Fits elt c -> 0 <= k' < bsize c -> element elt d' c k' = element elt d c k') /\
    (forall a, elt <= Z.abs (a - (bdata b + elt * k)) -> look elt d' a = look elt d a).
Proof.
  intros HD Hi Ho HF Hk. assert (HD' := HD). destruct HD' as [HI HB]. assert (In' := owner_inside _ i b k HI Hi Ho HF Hk).
  exists (mkD (ast d) (put elt (mem d) (bdata b + elt * k) (Some v))). cbn [ast].
  assert (Far : forall a, elt <= Z.abs (a - (bdata b + elt * k)) ->
            look elt (mkD (ast d) (put elt (mem d) (bdata b + elt * k) (Some v))) a = look elt d a).
  { intros a Ha. unfold look. cbn [ast mem]. now rewrite put_far. }
  split; [|split; [reflexivity|split; [|split; [|split; [|exact Far]]]]].
  - intros r. split.
    + intros H. inversion H as [| |i' k' v' b' Hb E1 E2]; subst. assert (b' = b) as -> by (eapply alive_fun; eauto).
      now rewrite In'.
    + intros ->. assert (E := dstep_write elt d i k v b Hi). now rewrite In' in E.
  - unfold element, look. cbn [ast mem]. now rewrite In', put_at.
  - intros k' N. apply Far. nia.
  - intros j c k' N Hj Ho' HF' Hk'. apply Far. eapply (owners_apart d i j); eauto.
Qed.

(** The elements of a buffer whose owner is reset or destroyed are not accessible any more. *)
Lemma free_step d i b o r : DInv d -> alive (ast d) i b -> owns b = true -> Fits elt b -> (o = OReset i \/ o = ODestroy i) ->
  dstep elt d (Buf o) r -> exists d', r = Ok d' /\
    (forall k, 0 <= k < bsize b -> element elt d' b k = UB) /\
    (forall j c k, j <> i -> alive (ast d) j c -> owns c = true -> Fits elt c -> 0 <= k < bsize c ->
       alive (ast d') j c /\ element elt d' c k = element elt d c k).
Proof.
  intros HD Hi Ho HF Eo H. assert (HD' := HD). destruct HD' as [HI HB]. destruct (buf_step_inv _ _ _ HD H) as (s' & HS & ->).
  assert (L : free (live (ast d)) (bcont b) = Ok (live s')).
  { remember (Ok s') as r0 eqn:Er.
    destruct HS as [size data align r Hc|i' b0 r Hi' Hc|i' b0 Hi'|i' b0 Hi'|i' j' b0 c0 p0 l' N' Hi' Hj' Ho' HM|i' j' b0 c0 N' Hi' Hj' Ho'|i' b0 Hi'|i' j' b0 c0 N' Hi' Hj'|i' b0 Hi'|i' b0 Hi'|i' b0 Hi'|p0 Hp];
      destruct Eo as [Eo|Eo]; try discriminate; injection Eo as ->; assert (b0 = b) as -> by (eapply alive_fun; eauto);
      unfold resetBuf in Er; rewrite Ho in Er; destruct (free (live (ast d)) (bcont b)); cbn [bind] in Er; try discriminate;
      injection Er as <-; reflexivity. }
  replace (copied elt (ast d) o s' (scrub elt (live (ast d)) (mem d))) with (Ok (scrub elt (live (ast d)) (mem d)))
    by (destruct Eo as [->| ->]; reflexivity).
  cbn [bind]. eexists. split; [reflexivity|]. assert (F := free_spec _ _ _ L). split.
  - intros k Hk. unfold element, look. cbn [ast mem]. destruct (inside elt (live s') _) eqn:E; [|reflexivity]. exfalso.
    apply inside_spec in E as (q & n & HIn & Hq1 & Hq2). apply F in HIn as [HIn Nq].
    destruct (owner_elements _ i b HI Hi Ho HF) as (nb & B1 & B2). specialize (B2 k Hk).
    destruct (Blocks_apart _ _ _ HB B1 HIn) as [E|E]; [injection E; congruence|]. unfold Apart2 in E. cbn [fst snd] in E. lia.
  - intros j c k N Hj Ho' HF' Hk. split.
    + cbn [ast]. eapply step_frame; [exact HS|exact Hj|]. destruct Eo as [->| ->]; cbn [Touches]; exact N.
    + unfold element, look. cbn [ast mem]. assert (Ic := owner_inside _ j c k HI Hj Ho' HF' Hk). unfold scrub. rewrite Ic.
      replace (inside elt (live s') (bdata c + elt * k)) with true; [reflexivity|]. symmetry. apply inside_spec.
      destruct (owner_elements _ j c HI Hj Ho' HF') as (nc & C1 & C2). exists (bcont c), nc. split; [|now apply C2].
      apply F. split; [exact C1|]. eapply inv_distinct; eauto.
Qed.

(** The undefined operations. *)
Lemma undefined_step d o : DInv d -> AllFit elt d -> dstep elt d o UB ->
  (exists i k v b, o = Write i k v /\ alive (ast d) i b /\ element elt d b k = UB) \/
  (exists i b, (o = Buf (OCopy i) \/ exists j, j <> i /\ o = Buf (OCopyAssign j i)) /\ alive (ast d) i b /\ owns b = true /\ 0 < bsize b).
Proof.
  intros HD HF H. destruct o as [o|i k v].
  - right. assert (HD' := HD). destruct HD' as [HI HB]. destruct (buf_step_inv _ _ _ HD H) as (s' & HS & E).
    destruct (copied elt (ast d) o s' (scrub elt (live (ast d)) (mem d))) as [m| |] eqn:EC; try discriminate. clear E.
    assert (K : forall i b c, alive (ast d) i b -> copyBuf elt (Some b) c (live s') (scrub elt (live (ast d)) (mem d)) = UB -> owns b = true /\ 0 < bsize b).
    { intros i b c Hi E. unfold copyBuf in E. destruct c; [|discriminate]. destruct (owns b) eqn:Ho; [|discriminate]. split; [reflexivity|].
      destruct (HF i b Hi Ho) as (Hs & _). destruct (Z.eq_dec (bsize b) 0) as [E0|]; [|lia]. rewrite E0 in E. discriminate. }
    assert (Al : forall i b, buf (ast d) i = Some b -> alive (ast d) i b).
    { intros i b Eb. unfold buf in Eb. unfold alive. destruct (nth_error _ i) as [[x|]|]; congruence. }
    unfold copied in EC. destruct o; try discriminate.
    + destruct (buf (ast d) i) as [b|] eqn:Eb; [|discriminate]. exists i, b. destruct (K i b _ (Al _ _ Eb) EC). auto 6.
    + destruct (Nat.eqb i j) eqn:Eij; [discriminate|]. apply Nat.eqb_neq in Eij.
      destruct (buf (ast d) j) as [b|] eqn:Eb; [|discriminate]. exists j, b. destruct (K j b _ (Al _ _ Eb) EC). eauto 8.
  - left. inversion H as [| |i' k' v' b Hb E1 E2]; subst. exists i, k, v, b. split; [reflexivity|]. split; [exact Hb|].
    unfold element, look. destruct (inside _ _ _); [discriminate|reflexivity].
Qed.
End Proofs.

(** Concrete histories, with elements of 8 bytes. *)
Lemma drun_buf {A} elt (d : dstate A) o r1 s' m ops r : step elt (ast d) o r1 -> r1 = Ok s' ->
  copied elt (ast d) o s' (scrub elt (live (ast d)) (mem d)) = Ok m -> drun elt (mkD s' m) ops r -> drun elt d (Buf o :: ops) r.
Proof. intros H -> E HR. eapply drun_ok; [|exact HR]. assert (D := dstep_buf elt d o s' H). now rewrite E in D. Qed.

Lemma drun_write {A} elt (d : dstate A) i k v b ops r : alive (ast d) i b -> inside elt (live (ast d)) (bdata b + elt * k) = true ->
  drun elt (mkD (ast d) (put elt (mem d) (bdata b + elt * k) (Some v))) ops r -> drun elt d (Write i k v :: ops) r.
Proof. intros H E HR. eapply drun_ok; [|exact HR]. assert (D := dstep_write elt d i k v b H). now rewrite E in D. Qed.

Lemma drun_app {A} elt ops1 : forall (d d1 : dstate A) ops2 r, drun elt d ops1 (Ok d1) -> drun elt d1 ops2 r -> drun elt d (ops1 ++ ops2) r.
Proof.
  induction ops1 as [|o ops1 IH]; intros d d1 ops2 r H1 H2; inversion H1; subst; [exact H2|]. cbn [app]. eapply drun_ok; eauto.
Qed.

Definition nothing : dstate Z := dstart [] (fun _ => None).
Definition block1 : buffer := mkBuffer 4 64 4104 4160.
Definition block2 : buffer := mkBuffer 4 64 8200 8256.

Lemma Blocks_nil : Blocks [].
Proof. split; [intros ? ? []|constructor]. Qed.

(** A buffer of 4 elements, the first two of which are set. *)
Lemma filled : exists d, drun 8 nothing [Buf (ONew 4 0 0); Write 0 0 5; Write 0 1 6] (Ok d) /\
  ast d = mkState [(4104, 95)] [Some block1] [] /\ map (element 8 d block1) [0; 1; 2] = [Ok (Some 5); Ok (Some 6); Ok None].
Proof.
  eexists. split.
  - eapply drun_buf; [apply (new_step 8 (ast nothing) 4 4104); apply Fresh_nil; vm_compute; reflexivity|reflexivity|reflexivity|].
    eapply drun_write; [reflexivity|reflexivity|]. eapply drun_write; [reflexivity|reflexivity|]. apply drun_nil.
  - split; reflexivity.
Qed.

Lemma reachable_run ops (d : dstate Z) : drun 8 nothing ops (Ok d) -> DReachable 8 d.
Proof. intros H. exists [], (fun _ => None), ops. split; [exact Blocks_nil|exact H]. Qed.

(** A copy, which is written. *)
Lemma copied_history : exists d, drun 8 nothing [Buf (ONew 4 0 0); Write 0 0 5; Write 0 1 6; Buf (OCopy 0); Write 1 0 9] (Ok d) /\
  ast d = mkState [(8200, 95); (4104, 95)] [Some block1; Some block2] [] /\
  map (element 8 d block1) [0; 1; 2] = [Ok (Some 5); Ok (Some 6); Ok None] /\
  map (element 8 d block2) [0; 1; 2] = [Ok (Some 9); Ok (Some 6); Ok None].
Proof.
  eexists. split.
  - eapply drun_buf; [apply (new_step 8 (ast nothing) 4 4104); apply Fresh_nil; vm_compute; reflexivity|reflexivity|reflexivity|].
    eapply drun_write; [reflexivity|reflexivity|]. eapply drun_write; [reflexivity|reflexivity|].
    eapply drun_buf.
    { refine (step_copy 8 _ 0 block1 _ _ (construct_owning 8 _ 4 0 64 8200 _ _ (malloc_block _ _ _ _))); [reflexivity|reflexivity|].
      apply Fresh_cons; [apply Fresh_nil; vm_compute; reflexivity|]. right. vm_compute. discriminate. }
    { reflexivity. }
    { reflexivity. }
    eapply drun_write; [reflexivity|reflexivity|]. apply drun_nil.
  - split; [reflexivity|]. split; reflexivity.
Qed.

(** A buffer which was constructed by a move is not an owner: its copy shares its elements. *)
Lemma moved_copy : exists d c e, drun 8 nothing [Buf (ONew 4 0 0); Write 0 0 5; Buf (OMove 0); Buf (OCopy 1); Write 2 0 9] (Ok d) /\
  alive (ast d) 1 c /\ alive (ast d) 2 e /\ element 8 d c 0 = Ok (Some 9) /\ element 8 d e 0 = Ok (Some 9).
Proof.
  eexists _, _, _. split.
  - eapply drun_buf; [apply (new_step 8 (ast nothing) 4 4104); apply Fresh_nil; vm_compute; reflexivity|reflexivity|reflexivity|].
    eapply drun_write; [reflexivity|reflexivity|].
    eapply drun_buf; [apply (step_move 8 _ 0 block1); reflexivity|cbv; reflexivity|reflexivity|].
    eapply drun_buf.
    { refine (step_copy 8 _ 1 (mkBuffer 4 64 0 4160) _ _ (construct_shared 8 _ 4 4160 64 _)); [reflexivity|lia]. }
    { cbv; reflexivity. }
    { reflexivity. }
    eapply drun_write; [reflexivity|reflexivity|]. apply drun_nil.
  - split; [reflexivity|]. split; [reflexivity|]. split; reflexivity.
Qed.

(** A failed allocation is not reported: the buffer has a size but no element. *)
Lemma failed_new : exists d b, drun 8 nothing [Buf (ONew 4 0 0)] (Ok d) /\ alive (ast d) 0 b /\ bsize b = 4 /\
  (forall k, 0 <= k < 4 -> element 8 d b k = UB) /\ forall v, dstep 8 d (Write 0 0 v) UB.
Proof.
  eexists _, (mkBuffer 4 64 0 0). split.
  - eapply drun_buf; [exact (step_new 8 (ast nothing) 4 0 0 _ (construct_owning 8 _ 4 0 0 0 _ eq_refl (malloc_null _ _)))|reflexivity|reflexivity|]. apply drun_nil.
  - split; [reflexivity|]. split; [reflexivity|]. split; [reflexivity|]. intros v.
    match goal with |- dstep _ ?d _ _ => exact (dstep_write 8 d 0 0 v (mkBuffer 4 64 0 0) eq_refl) end.
Qed.

(** 2^61 elements of 8 bytes: the number of bytes overflows to a small block, and the construction succeeds. *)
Lemma overflown_new : exists d b, drun 8 nothing [Buf (ONew (2 ^ 61) 0 0)] (Ok d) /\ alive (ast d) 0 b /\ owns b = true /\ bsize b = 2 ^ 61 /\
  (forall k, 0 <= k -> element 8 d b k = UB) /\ forall v, dstep 8 d (Write 0 0 v) UB.
Proof.
  eexists _, (mkBuffer (2 ^ 61) 64 4104 4160). split.
  - eapply drun_buf; [apply (new_step 8 (ast nothing) (2 ^ 61) 4104); apply Fresh_nil; vm_compute; reflexivity|reflexivity|reflexivity|]. apply drun_nil.
  - split; [reflexivity|]. split; [reflexivity|]. split; [reflexivity|]. split.
    + intros k Hk. unfold element, look, inside. cbn [ast live existsb fst snd bdata].
      change (blockSize 8 (2 ^ 61) 64) with 63. replace (_ && _) with false; [reflexivity|]. symmetry. apply andb_false_iff. right. lia.
    + intros v. match goal with |- dstep _ ?d _ _ => exact (dstep_write 8 d 0 0 v (mkBuffer (2 ^ 61) 64 4104 4160) eq_refl) end.
Qed.
