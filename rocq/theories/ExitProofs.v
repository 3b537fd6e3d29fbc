(** Proofs for PropsExit.v. *)
From Coq Require Import Permutation.
From Verif Require Import Res Lemmas AlignedProofs ExitModel ExitSpec.

(** * Traces *)
Lemma snoc_split {A} (l : list A) x l1 c l2 : l ++ [x] = l1 ++ c :: l2 -> (l1 = l /\ c = x /\ l2 = []) \/ exists l3, l2 = l3 ++ [x] /\ l = l1 ++ c :: l3.
Proof.
  destruct l2 as [|y l2] using rev_ind; intros E.
  - apply app_inj_tail in E as [-> ->]. auto.
  - right. exists l2. change (l1 ++ c :: l2 ++ [y]) with (l1 ++ (c :: l2) ++ [y]) in E. rewrite app_assoc in E. apply app_inj_tail in E as [-> ->]. auto.
Qed.

Lemma Proper_nil : Proper [].
Proof. intros [|x l1] c l2 E; discriminate. Qed.
Lemma Proper_snoc l c : Proper l -> match c with Execute n | Destroy n => Usable l n | _ => True end -> Proper (l ++ [c]).
Proof. intros P H l1 d l2 E. apply snoc_split in E as [(-> & -> & _)|(l3 & -> & E)]; [exact H|]. eapply P. exact E. Qed.
Lemma Proper_prefix l r : Proper (l ++ r) -> Proper l.
Proof. intros P l1 c l2 ->. apply (P l1 c (l2 ++ r)). rewrite <- app_assoc. reflexivity. Qed.

Lemma Usable_snoc l c n : Usable l n -> c <> Destroy n -> c <> Cleanup -> Usable (l ++ [c]) n.
Proof.
  intros (l1 & l2 & -> & D & C) N1 N2. exists l1, (l2 ++ [c]). split; [rewrite <- app_assoc; reflexivity|].
  split; rewrite in_app_iff; cbn; intuition congruence.
Qed.
Lemma Usable_create l n : Usable (l ++ [Create n]) n.
Proof. exists l, []. cbn. auto. Qed.
Lemma Usable_created l n : Usable l n -> In (Create n) l.
Proof. intros (l1 & l2 & -> & _). rewrite in_app_iff. cbn. auto. Qed.

Lemma destroy_all ps : forall l, NoDup ps -> Proper l -> (forall n, In n ps -> Usable l n) ->
  Proper (l ++ map Destroy ps) /\ forall n, Usable l n -> ~ In n ps -> Usable (l ++ map Destroy ps) n.
Proof.
  induction ps as [|k ps IH]; intros l ND P U; cbn [map]; [rewrite app_nil_r; auto|]. inversion ND as [|? ? Nk ND']; subst.
  change (l ++ Destroy k :: map Destroy ps) with (l ++ [Destroy k] ++ map Destroy ps). rewrite app_assoc.
  destruct (IH (l ++ [Destroy k])) as [P' U'].
  - exact ND'.
  - apply Proper_snoc; [exact P|apply U; cbn; auto].
  - intros n Hn. apply Usable_snoc; [apply U; cbn; auto|intros [= ->]; contradiction|discriminate].
  - split; [exact P'|]. intros n Hn N. apply U'; [|cbn in N; tauto]. apply Usable_snoc; [exact Hn|intros [= ->]; cbn in N; tauto|discriminate].
Qed.
Lemma in_destroys n ps : In (Destroy n) (map Destroy ps) <-> In n ps.
Proof. rewrite in_map_iff. split; [intros (x & [= ->] & H); exact H|intros H; eauto]. Qed.
Lemma not_destroys ps : ~ In Cleanup (map Destroy ps) /\ forall n, ~ In (Create n) (map Destroy ps).
Proof. split; [|intros n]; rewrite in_map_iff; intros (x & E & _); discriminate. Qed.

Lemma NoDup_parts {A} (l l' : list A) : NoDup (l ++ l') -> NoDup l /\ NoDup l' /\ forall x, In x l -> ~ In x l'.
Proof.
  induction l as [|a l IH]; cbn; intros H; [repeat split; [constructor|exact H|tauto]|]. inversion H as [|? ? N1 N2]; subst. destruct (IH N2) as (A1 & A2 & A3).
  split; [constructor; [intros X; apply N1, in_app_iff; auto|exact A1]|]. split; [exact A2|]. intros x [->|X]; [intros Y; apply N1, in_app_iff; auto|auto].
Qed.

(** * The invariant of programs *)
Definition held (p : prog) : list nat := localPlans (locals p) ++ staticPlans (statics p).
Record EInv (ls : list nat) (p : prog) : Prop := {
  ei_nodup : NoDup (held p);
  ei_usable : forall n, In n (held p) -> Usable (calls p) n;
  ei_kept : forall n, In n (held p) -> ~ In (Destroy n) (calls p);
  ei_proper : Proper (calls p);
  ei_cleanup : ~ In Cleanup (calls p);
  ei_made : forall n, In (Create n) (calls p) -> (n < made p)%nat;
  ei_all : forall n, In (Create n) (calls p) -> In (Destroy n) (calls p) \/ In n (held p) \/ In n ls;
  ei_lost : forall n, In n ls -> (n < made p)%nat /\ ~ In n (held p) /\ ~ In (Destroy n) (calls p);
  ei_alloc : In Allocator (statics p) <-> calls p <> [];
  ei_single : forall l1 l2, statics p = l1 ++ Allocator :: l2 -> ~ In Allocator l1 /\ ~ In Allocator l2
}.
Arguments ei_nodup {ls} p _. Arguments ei_usable {ls} p _. Arguments ei_kept {ls} p _. Arguments ei_proper {ls} p _. Arguments ei_cleanup {ls} p _. Arguments ei_made {ls} p _.
Arguments ei_all {ls} p _. Arguments ei_lost {ls} p _. Arguments ei_alloc {ls} p _. Arguments ei_single {ls} p _.

Lemma EInv_begin : EInv [] begin.
Proof. split; cbn; try tauto; try (intros; tauto). - constructor. - apply Proper_nil. - intros [|x l1] l2; discriminate. Qed.

Lemma alloc_spec l : existsb isAllocator l = true <-> In Allocator l.
Proof. rewrite existsb_exists. split; [intros ([|ps u] & H & E); [exact H|discriminate]|intros H; exists Allocator; auto]. Qed.
Lemma instantiate_in l : In Allocator (instantiate l).
Proof. unfold instantiate. destruct (existsb isAllocator l) eqn:E; [apply alloc_spec; exact E|apply in_or_app; cbn; auto]. Qed.
Lemma instantiate_plans l : staticPlans (instantiate l) = staticPlans l.
Proof. unfold instantiate. destruct (existsb _ _); [reflexivity|]. unfold staticPlans. rewrite flat_map_app. cbn. apply app_nil_r. Qed.
Lemma instantiate_single l : (forall l1 l2, l = l1 ++ Allocator :: l2 -> ~ In Allocator l1 /\ ~ In Allocator l2) ->
  forall l1 l2, instantiate l = l1 ++ Allocator :: l2 -> ~ In Allocator l1 /\ ~ In Allocator l2.
Proof.
  intros H l1 l2 E. unfold instantiate in E. destruct (existsb isAllocator l) eqn:X; [apply H; exact E|].
  assert (N : ~ In Allocator l) by (intros Y; apply alloc_spec in Y; congruence).
  apply snoc_split in E as [(-> & _ & ->)|(l3 & -> & ->)]; [auto|]. exfalso. apply N. apply in_or_app. cbn. auto.
Qed.
Lemma single_snoc l e : (forall l1 l2, l = l1 ++ Allocator :: l2 -> ~ In Allocator l1 /\ ~ In Allocator l2) -> e <> Allocator ->
  forall l1 l2, l ++ [e] = l1 ++ Allocator :: l2 -> ~ In Allocator l1 /\ ~ In Allocator l2.
Proof.
  intros H N l1 l2 E. apply snoc_split in E as [(_ & E & _)|(l3 & -> & E)]; [congruence|]. destruct (H l1 l3 E) as [A B]. split; [exact A|].
  rewrite in_app_iff. cbn. intuition congruence.
Qed.

(** Replacing an object with another one. *)
Lemma object_split l k ps u : nth_error l k = Some (Object ps u) -> exists a b, l = a ++ Object ps u :: b /\ forall e, replace l k e = a ++ e :: b.
Proof.
  revert k. induction l as [|x l IH]; intros [|k]; cbn; try discriminate.
  - intros [= ->]. exists [], l. auto.
  - intros H. destruct (IH k H) as (a & b & -> & R). exists (x :: a), b. split; [reflexivity|]. intros e. rewrite R. reflexivity.
Qed.
Lemma local_split l i n : nth_error l i = Some (Some n) -> exists a b, l = a ++ Some n :: b /\ replace l i None = a ++ (@None nat) :: b.
Proof.
  revert i. induction l as [|x l IH]; intros [|i]; cbn; try discriminate.
  - intros [= ->]. exists [], l. auto.
  - intros H. destruct (IH i H) as (a & b & -> & R). exists (x :: a), b. split; [reflexivity|]. rewrite R. reflexivity.
Qed.
Lemma single_change a b ps u ps' : (forall l1 l2, a ++ Object ps u :: b = l1 ++ Allocator :: l2 -> ~ In Allocator l1 /\ ~ In Allocator l2) ->
  forall l1 l2, a ++ Object ps' u :: b = l1 ++ Allocator :: l2 -> ~ In Allocator l1 /\ ~ In Allocator l2.
Proof.
  intros H l1 l2 E. apply app_eq_app in E as (m & [[-> E]|[-> E]]).
  - destruct m as [|x m]; [discriminate|]. injection E as <- ->. destruct (H l1 (m ++ Object ps u :: b)) as [A B]; [rewrite <- app_assoc; reflexivity|].
    split; [exact A|]. intros X. apply B. rewrite in_app_iff in *. cbn in *. intuition congruence.
  - destruct m as [|x m]; [discriminate|]. injection E as <- ->. destruct (H (a ++ Object ps u :: m) l2) as [A B]; [rewrite <- app_assoc; reflexivity|].
    split; [|exact B]. intros X. apply A. rewrite in_app_iff in *. cbn in *. intuition congruence.
Qed.
Lemma alloc_change a b ps u ps' : In Allocator (a ++ Object ps u :: b) <-> In Allocator (a ++ Object ps' u :: b).
Proof. rewrite !in_app_iff. cbn. intuition congruence. Qed.
Lemma statics_app a b : staticPlans (a ++ b) = staticPlans a ++ staticPlans b.
Proof. apply flat_map_app. Qed.
Lemma locals_app a b : localPlans (a ++ b) = localPlans a ++ localPlans b.
Proof. apply flat_map_app. Qed.

Lemma destroyed_created l n : Proper l -> In (Destroy n) l -> In (Create n) l.
Proof.
  intros P H. apply in_split in H as (l1 & l2 & E). apply (P l1 (Destroy n) l2) in E as X. rewrite E. apply in_or_app. left. apply Usable_created. exact X.
Qed.

Lemma inv_create ls p st lo : EInv ls p -> Permutation (made p :: held p) (localPlans lo ++ staticPlans st) -> In Allocator st ->
  (forall l1 l2, st = l1 ++ Allocator :: l2 -> ~ In Allocator l1 /\ ~ In Allocator l2) ->
  EInv ls (mkProg st lo (S (made p)) (calls p ++ [Create (made p)])).
Proof.
  intros I PM HA HS. assert (NM : ~ In (made p) (held p)) by (intros H; apply (ei_usable _ I), Usable_created, (ei_made _ I) in H; lia).
  assert (IN : forall n, In n (localPlans lo ++ staticPlans st) <-> made p = n \/ In n (held p)).
  { intros n. split; intros H; [apply (Permutation_in _ (Permutation_sym PM)) in H; exact H|apply (Permutation_in _ PM); exact H]. }
  split; unfold held; cbn [statics locals made calls].
  - eapply Permutation_NoDup; [exact PM|]. constructor; [exact NM|apply (ei_nodup _ I)].
  - intros n H. apply IN in H as [<-|H]; [apply Usable_create|]. apply Usable_snoc; [apply (ei_usable _ I); exact H|discriminate|discriminate].
  - intros n H. rewrite in_app_iff. cbn. intros [X|[X|[]]]; [|discriminate]. apply IN in H as [<-|H]; [|exact (ei_kept _ I n H X)].
    apply (destroyed_created _ _ (ei_proper _ I)), (ei_made _ I) in X. lia.
  - apply Proper_snoc; [apply (ei_proper _ I)|exact Logic.I].
  - rewrite in_app_iff. cbn. intros [H|[H|[]]]; [exact (ei_cleanup _ I H)|discriminate].
  - intros n. rewrite in_app_iff. cbn. intros [H|[[= E]|[]]]; [apply (ei_made _ I) in H; lia|lia].
  - intros n. rewrite !in_app_iff. cbn. intros [H|[[= E]|[]]].
    + destruct (ei_all _ I n H) as [X|[X|X]]; [auto| |auto]. right. left. apply in_app_iff, IN. auto.
    + right. left. apply in_app_iff, IN. auto.
  - intros n H. destruct (ei_lost _ I n H) as (L1 & L2 & L3). split; [lia|]. split; [intros X; apply IN in X as [X|X]; [lia|exact (L2 X)]|].
    rewrite in_app_iff. cbn. intros [X|[X|[]]]; [exact (L3 X)|discriminate].
  - split; [intros _ E; destruct (calls p); discriminate|intros _; exact HA].
  - exact HS.
Qed.

Lemma inv_destroy ls p st lo ps : EInv ls p -> Permutation (held p) (ps ++ localPlans lo ++ staticPlans st) ->
  (In Allocator st <-> In Allocator (statics p)) -> (forall l1 l2, st = l1 ++ Allocator :: l2 -> ~ In Allocator l1 /\ ~ In Allocator l2) ->
  EInv ls (mkProg st lo (made p) (calls p ++ map Destroy ps)).
Proof.
  intros I PM HA HS. assert (ND := Permutation_NoDup PM (ei_nodup _ I)).
  assert (IN : forall n, In n (held p) <-> In n ps \/ In n (localPlans lo ++ staticPlans st)).
  { intros n. rewrite <- in_app_iff. split; intros H; [apply (Permutation_in _ PM) in H; exact H|apply (Permutation_in _ (Permutation_sym PM)); exact H]. }
  destruct (NoDup_parts _ _ ND) as (NDp & NDr & NDx).
  destruct (destroy_all ps (calls p) NDp (ei_proper _ I)) as [P U]; [intros n H; apply (ei_usable _ I), IN; auto|].
  destruct (not_destroys ps) as [NC NCr].
  split; unfold held; cbn [statics locals made calls].
  - exact NDr.
  - intros n H. apply U; [apply (ei_usable _ I), IN; auto|]. intros X. exact (NDx n X H).
  - intros n H. rewrite in_app_iff. intros [X|X]; [exact (ei_kept _ I n (proj2 (IN n) (or_intror H)) X)|]. apply in_destroys in X. exact (NDx n X H).
  - exact P.
  - rewrite in_app_iff. intros [H|H]; [exact (ei_cleanup _ I H)|exact (NC H)].
  - intros n. rewrite in_app_iff. intros [H|H]; [exact (ei_made _ I n H)|destruct (NCr n H)].
  - intros n. rewrite !in_app_iff. intros [H|H]; [|destruct (NCr n H)]. destruct (ei_all _ I n H) as [X|[X|X]]; [auto| |auto]. apply IN in X as [X|X]; [left; right; apply in_destroys; exact X|].
    right. left. apply in_app_iff. exact X.
  - intros n H. destruct (ei_lost _ I n H) as (L1 & L2 & L3). split; [exact L1|]. split; [intros X; apply L2, IN; auto|].
    rewrite in_app_iff. intros [X|X]; [exact (L3 X)|]. apply in_destroys in X. apply L2, IN. auto.
  - rewrite HA, (ei_alloc _ I). split; [intros N E; apply N; destruct (calls p); [reflexivity|discriminate]|].
    intros N E. apply N. rewrite E. cbn. destruct ps as [|k ps]; [reflexivity|]. exfalso. assert (X : Usable (calls p) k) by (apply (ei_usable _ I), IN; cbn; auto).
    apply Usable_created in X. rewrite E in X. destruct X.
  - exact HS.
Qed.

(** A plan is lost. *)
Lemma inv_lose ls p lo ps : EInv ls p -> Permutation (held p) (ps ++ localPlans lo ++ staticPlans (statics p)) -> EInv (ls ++ ps) (mkProg (statics p) lo (made p) (calls p)).
Proof.
  intros I PM. assert (ND := Permutation_NoDup PM (ei_nodup _ I)).
  assert (IN : forall n, In n (held p) <-> In n ps \/ In n (localPlans lo ++ staticPlans (statics p))).
  { intros n. rewrite <- in_app_iff. split; intros H; [apply (Permutation_in _ PM) in H; exact H|apply (Permutation_in _ (Permutation_sym PM)); exact H]. }
  destruct (NoDup_parts _ _ ND) as (NDp & NDr & NDx).
  split; unfold held; cbn [statics locals made calls].
  - exact NDr.
  - intros n H. apply (ei_usable _ I), IN. auto.
  - intros n H. apply (ei_kept _ I), IN. auto.
  - apply (ei_proper _ I).
  - apply (ei_cleanup _ I).
  - apply (ei_made _ I).
  - intros n H. rewrite (in_app_iff ls). destruct (ei_all _ I n H) as [X|[X|X]]; [auto| |auto]. apply IN in X as [X|X]; auto.
  - intros n H. apply in_app_iff in H as [H|H].
    + destruct (ei_lost _ I n H) as (L1 & L2 & L3). split; [exact L1|]. split; [intros X; apply L2, IN; auto|exact L3].
    + assert (HH : In n (held p)) by (apply IN; auto). split; [apply (ei_made _ I), Usable_created, (ei_usable _ I); exact HH|]. split; [exact (NDx n H)|].
      exact (ei_kept _ I n HH).
  - apply (ei_alloc _ I).
  - apply (ei_single _ I).
Qed.

Lemma replace_plans l : forall i x y, nth_error l i = Some x -> Permutation (localPlans [y] ++ localPlans l) (localPlans [x] ++ localPlans (replace l i y)).
Proof.
  induction l as [|z l IH]; intros [|i] x y H; try discriminate; cbn [nth_error replace] in *.
  - injection H as ->. change (x :: l) with ([x] ++ l). change (y :: l) with ([y] ++ l). rewrite !locals_app, !app_assoc. apply Permutation_app_tail, Permutation_app_comm.
  - change (z :: l) with ([z] ++ l). change (z :: replace l i y) with ([z] ++ replace l i y). rewrite !locals_app.
    transitivity (localPlans [z] ++ localPlans [y] ++ localPlans l); [rewrite !app_assoc; apply Permutation_app_tail, Permutation_app_comm|].
    transitivity (localPlans [z] ++ localPlans [x] ++ localPlans (replace l i y)); [apply Permutation_app_head, IH; exact H|].
    rewrite !app_assoc. apply Permutation_app_tail, Permutation_app_comm.
Qed.
Lemma assign_plans l i j x y : i <> j -> nth_error l i = Some x -> nth_error l j = Some y ->
  Permutation (localPlans l) (localPlans [x] ++ localPlans (replace (replace l i y) j None)).
Proof.
  intros N Hi Hj. assert (P1 := replace_plans l i x y Hi).
  assert (P2 := replace_plans (replace l i y) j y None). rewrite nth_error_replace_neq in P2 by auto. specialize (P2 Hj). change (localPlans [None] ++ localPlans (replace l i y)) with (localPlans (replace l i y)) in P2.
  apply (Permutation_app_inv_l (localPlans [y])). etransitivity; [exact P1|]. etransitivity; [apply Permutation_app_head; exact P2|].
  rewrite !app_assoc. apply Permutation_app_tail, Permutation_app_comm.
Qed.

Lemma act_inv ls p a p' : EInv ls p -> act p a = Some p' -> EInv (ls ++ loses p a) p'.
Proof.
  intros I H. destruct a as [u|u| |i k|i j|n| |k]; cbn [act loses] in *; rewrite ?app_nil_r.
  - injection H as <-. rewrite <- (app_nil_r (calls p)). change (@nil call) with (map Destroy []). apply inv_destroy; [exact I| | |].
    + cbn [app]. unfold held. rewrite statics_app. cbn. rewrite app_nil_r. reflexivity.
    + rewrite in_app_iff. cbn. intuition congruence.
    + apply single_snoc; [apply (ei_single _ I)|discriminate].
  - injection H as <-. apply inv_create; [exact I| | |].
    + rewrite statics_app, instantiate_plans. unfold held. cbn. rewrite app_assoc. apply Permutation_cons_append.
    + apply in_or_app. left. apply instantiate_in.
    + apply single_snoc; [apply instantiate_single, (ei_single _ I)|discriminate].
  - injection H as <-. apply inv_create; [exact I| | |].
    + rewrite instantiate_plans. unfold held. cbn. reflexivity.
    + apply instantiate_in.
    + apply instantiate_single, (ei_single _ I).
  - destruct (nth_error (locals p) i) as [[n|]|] eqn:El; try discriminate. destruct (nth_error (statics p) k) as [[|ps u]|] eqn:Es; try discriminate. injection H as <-.
    destruct (object_split _ _ _ _ Es) as (a & b & E & R). destruct (local_split _ _ _ El) as (c & d & E' & R'). rewrite R, R'.
    rewrite <- (app_nil_r (calls p)). change (@nil call) with (map Destroy []). apply inv_destroy; [exact I| | |].
    + cbn [app]. unfold held. rewrite E, E', !locals_app, !statics_app. cbn. rewrite !app_assoc. rewrite <- !app_assoc.
      apply Permutation_app_head. cbn.
      transitivity (localPlans d ++ n :: staticPlans a ++ ps ++ staticPlans b); [apply Permutation_middle|]. apply Permutation_app_head.
      rewrite !app_assoc. apply Permutation_middle.
    + rewrite E. apply alloc_change.
    + rewrite E in *. eapply single_change. rewrite <- E. apply (ei_single _ I).
  - destruct (nth_error (locals p) i) as [x|] eqn:Ei; [|discriminate]. destruct (nth_error (locals p) j) as [y|] eqn:Ej; [|discriminate].
    destruct (Nat.eqb_spec i j) as [|N]; [discriminate|]. injection H as <-.
    replace (match x with Some n => [n] | None => [] end) with (localPlans [x]) by (destruct x; reflexivity). apply inv_lose; [exact I|].
    unfold held. rewrite app_assoc. apply Permutation_app_tail. apply assign_plans; assumption.
  - destruct (existsb _ _) eqn:X; [|discriminate]. injection H as <-. apply existsb_exists in X as (k & Hk & E). apply Nat.eqb_eq in E. subst k.
    assert (U := ei_usable _ I n Hk). split; unfold held; cbn [statics locals made calls].
    + apply (ei_nodup _ I).
    + intros k H. apply Usable_snoc; [apply (ei_usable _ I); exact H|discriminate|discriminate].
    + intros k H. rewrite in_app_iff. cbn. intros [X|[X|[]]]; [exact (ei_kept _ I k H X)|discriminate].
    + apply Proper_snoc; [apply (ei_proper _ I)|exact U].
    + rewrite in_app_iff. cbn. intros [H|[H|[]]]; [exact (ei_cleanup _ I H)|discriminate].
    + intros k. rewrite in_app_iff. cbn. intros [H|[H|[]]]; [exact (ei_made _ I k H)|discriminate].
    + intros k. rewrite !in_app_iff. cbn. intros [H|[H|[]]]; [|discriminate]. destruct (ei_all _ I k H) as [Y|[Y|Y]]; [auto|right; left; apply in_app_iff; exact Y|auto].
    + intros k H. destruct (ei_lost _ I k H) as (L1 & L2 & L3). split; [exact L1|]. split; [exact L2|]. rewrite in_app_iff. cbn. intros [Y|[Y|[]]]; [exact (L3 Y)|discriminate].
    + rewrite (ei_alloc _ I). split; [intros _ E; destruct (calls p); discriminate|]. intros _ E. apply Usable_created in U. rewrite E in U. destruct U.
    + apply (ei_single _ I).
  - destruct (locals p) as [|o l] eqn:El; [discriminate|]. injection H as <-. apply inv_destroy; [exact I| |tauto|apply (ei_single _ I)].
    unfold held. rewrite El. change (o :: l) with ([o] ++ l). rewrite locals_app, <- app_assoc. reflexivity.
  - destruct (nth_error (statics p) k) as [[|ps u]|] eqn:Es; try discriminate. injection H as <-. destruct (object_split _ _ _ _ Es) as (a & b & E & R). rewrite R.
    apply inv_destroy; [exact I| | |].
    + unfold held. rewrite E, !statics_app. cbn. rewrite (app_assoc ps). transitivity (localPlans (locals p) ++ ps ++ staticPlans a ++ staticPlans b).
      * apply Permutation_app_head. rewrite !app_assoc. apply Permutation_app_tail, Permutation_app_comm.
      * rewrite !app_assoc. do 2 apply Permutation_app_tail. apply Permutation_app_comm.
    + rewrite E. apply alloc_change.
    + eapply single_change. rewrite <- E. apply (ei_single _ I).
Qed.
Lemma acts_inv l : forall ls p p', EInv ls p -> acts p l = Some p' -> EInv (ls ++ lost p l) p'.
Proof.
  induction l as [|a l IH]; intros ls p p' I H; cbn [acts lost] in *; [injection H as <-; rewrite app_nil_r; exact I|]. destruct (act p a) as [p1|] eqn:E; [|discriminate].
  rewrite app_assoc. eapply IH; [eapply act_inv; eassumption|exact H].
Qed.

(** * The end *)
Lemma terminate_ext l : forall t n tr tr', terminate l t n tr = Ok tr' -> exists r, tr' = tr ++ r.
Proof.
  induction l as [|[|ps [|]] l IH]; intros t n tr tr' H; cbn [terminate] in H.
  - injection H as <-. exists []. rewrite app_nil_r. reflexivity.
  - destruct (IH _ _ _ _ H) as [r ->]. rewrite <- app_assoc. eauto.
  - destruct t; [| |discriminate]; destruct (IH _ _ _ _ H) as [r ->]; rewrite <- !app_assoc; eauto.
  - destruct (IH _ _ _ _ H) as [r ->]. rewrite <- app_assoc. eauto.
Qed.

(** After the destruction of the allocator. *)
Lemma past l : forall n tr, ~ In Allocator l -> (forall k, ~ Usable tr k) ->
  ((exists tr', terminate l Past n tr = Ok tr' /\ Proper tr') <-> Proper tr /\ Forall (fun e => e = Object [] false) l) /\
  (Forall (fun e => e = Object [] false) l -> terminate l Past n tr = Ok tr).
Proof.
  induction l as [|[|ps u] l IH]; intros n tr NA D; cbn [terminate].
  - split; [|reflexivity]. split; [intros (tr' & [= <-] & P); auto|intros [P _]; eauto].
  - exfalso. apply NA. cbn. auto.
  - assert (NA' : ~ In Allocator l) by (intros X; apply NA; cbn; auto). destruct u.
    + split; [split; [intros (tr' & H & _); discriminate|intros [_ F]; inversion F; discriminate]|intros F; inversion F; discriminate].
    + destruct ps as [|k ps].
      * cbn [map]. rewrite app_nil_r. destruct (IH n tr NA' D) as [A B]. split.
        -- rewrite A. split; intros [P F]; (split; [exact P|]); [constructor; auto|inversion F; assumption].
        -- intros F. apply B. inversion F; assumption.
      * split; [|intros F; inversion F; discriminate]. split; [|intros [_ F]; inversion F; discriminate].
        intros (tr' & H & P). exfalso. apply terminate_ext in H as [r ->]. cbn [map] in P.
        apply (D k). refine (P tr (Destroy k) (map Destroy ps ++ r) _). rewrite <- app_assoc. reflexivity.
Qed.

(** Until the destruction of the allocator. *)
Lemma present a : forall n tr rest, ~ In Allocator a -> NoDup (staticPlans a) -> (forall k, In k (staticPlans a) -> Usable tr k) -> Proper tr -> ~ In Cleanup tr ->
  (forall k, In (Create k) tr -> (k < n)%nat) ->
  exists n' tr', terminate (a ++ rest) Present n tr = terminate rest Present n' tr' /\ Proper tr' /\ ~ In Cleanup tr' /\
    (forall k, In (Create k) tr' -> In (Create k) tr \/ In (Destroy k) tr') /\ (forall k, In k (staticPlans a) -> In (Destroy k) tr') /\ (forall c, In c tr -> In c tr') /\
    (forall k, In (Destroy k) tr' -> In (Destroy k) tr \/ In k (staticPlans a) \/ (n <= k)%nat).
Proof.
  induction a as [|[|ps u] a IH]; intros n tr rest NA ND U P NC CR.
  - exists n, tr. cbn. repeat split; auto; try tauto.
  - exfalso. apply NA. cbn. auto.
  - assert (NA' : ~ In Allocator a) by (intros X; apply NA; cbn; auto).
    change (staticPlans (Object ps u :: a)) with (ps ++ staticPlans a) in *.
    destruct (NoDup_parts _ _ ND) as (NDp & NDr & NDx).
    assert (NI : forall k, In k (staticPlans a) -> ~ In k ps).
    { intros k H X. exact (NDx k X H). }
    destruct (not_destroys ps) as [ND1 ND2].
    set (tr1 := if u then tr ++ [Create n; Execute n; Destroy n] else tr).
    assert (X1 : Proper tr1 /\ (forall k, In k (ps ++ staticPlans a) -> Usable tr1 k) /\ ~ In Cleanup tr1 /\
      (forall k, In (Create k) tr1 -> (k < S n)%nat /\ (In (Create k) tr \/ In (Destroy k) tr1)) /\ (forall c, In c tr -> In c tr1)).
    { unfold tr1. destruct u; [|repeat split; auto; intros; apply CR in H; lia].
      replace (tr ++ [Create n; Execute n; Destroy n]) with (((tr ++ [Create n]) ++ [Execute n]) ++ [Destroy n]) by (rewrite <- !app_assoc; reflexivity).
      assert (U1 := Usable_create tr n). assert (U2 : Usable ((tr ++ [Create n]) ++ [Execute n]) n) by (apply Usable_snoc; [exact U1|discriminate|discriminate]).
      split; [|split; [|split; [|split]]].
      - repeat (apply Proper_snoc; [|assumption || exact Logic.I]). exact P.
      - intros k Hk. assert (k <> n) by (specialize (U k Hk); apply Usable_created, CR in U; lia).
        repeat (apply Usable_snoc; [|congruence|discriminate]). apply U. exact Hk.
      - rewrite !in_app_iff. cbn. intuition discriminate.
      - intros k. rewrite !in_app_iff. cbn. intros [[[H|[H|[]]]|[H|[]]]|[H|[]]]; try discriminate; [apply CR in H as H'; split; [lia|auto]|]. injection H as ->. split; [lia|auto 6].
      - intros c H. rewrite !in_app_iff. auto. }
    destruct X1 as (P1 & U1 & NC1 & CR1 & IN1).
    destruct (destroy_all ps tr1 NDp P1) as [P2 U2]; [intros k H; apply U1, in_app_iff; auto|].
    assert (CALL : exists m, (n <= m <= S n)%nat /\ (u = true -> m = S n) /\ terminate ((Object ps u :: a) ++ rest) Present n tr = terminate (a ++ rest) Present m (tr1 ++ map Destroy ps)).
    { unfold tr1. cbn [app terminate]. destruct u; [exists (S n); rewrite <- app_assoc; auto|exists n; repeat split; [lia|lia|discriminate]]. }
    destruct CALL as (m & Hm & Hu & ->).
    destruct (IH m (tr1 ++ map Destroy ps) rest) as (n' & tr' & E & Q1 & Q2 & Q3 & Q4 & Q5 & Q6).
    + exact NA'.
    + exact NDr.
    + intros k H. apply U2; [apply U1, in_app_iff; auto|apply NI; exact H].
    + exact P2.
    + rewrite in_app_iff. tauto.
    + intros k. rewrite in_app_iff. intros [H|H]; [|destruct (ND2 k H)]. destruct u; [rewrite (Hu eq_refl); apply (CR1 k H)|]. unfold tr1 in H. apply CR in H. lia.
    + exists n', tr'. split; [exact E|]. split; [exact Q1|]. split; [exact Q2|]. split; [|split; [|split]].
      * intros k H. apply Q3 in H as [H|H]; [|auto]. rewrite in_app_iff in H. destruct H as [H|H]; [|destruct (ND2 k H)].
        destruct (CR1 k H) as [_ [X|X]]; [auto|]. right. apply Q5, in_app_iff. auto.
      * intros k H. rewrite in_app_iff in H. destruct H as [H|H]; [|auto]. apply Q5, in_app_iff. right. apply in_destroys. exact H.
      * intros c H. apply Q5, in_app_iff. auto.
      * intros k H. rewrite in_app_iff. apply Q6 in H as [H|[H|H]]; [|auto|right; right; lia]. rewrite in_app_iff, in_destroys in H. destruct H as [H|H]; [|auto].
        unfold tr1 in H. destruct u; [|auto]. rewrite in_app_iff in H. cbn in H. destruct H as [H|[H|[H|[H|[]]]]]; [auto|discriminate|discriminate|]. injection H as ->. right. right. lia.
Qed.

(** If no plan was created before the end. *)
Lemma future l : forall n, ~ In Allocator l -> (forall ps u, In (Object ps u) l -> ps = []) ->
  ((exists tr, terminate l Future n [] = Ok tr /\ Proper tr) <-> (length (filter usesDft l) <= 1)%nat) /\
  forall tr, terminate l Future n [] = Ok tr -> Proper tr -> tr = [] \/ tr = [Create n; Execute n; Destroy n; Cleanup].
Proof.
  induction l as [|[|ps u] l IH]; intros n NA NP; cbn [terminate filter usesDft].
  - cbn. split; [split; [lia|intros _; exists []; split; [reflexivity|apply Proper_nil]]|intros tr [= <-]; auto].
  - exfalso. apply NA. cbn. auto.
  - assert (NA' : ~ In Allocator l) by (intros X; apply NA; cbn; auto). assert (NP' : forall ps u, In (Object ps u) l -> ps = []) by (intros; eapply NP; right; eassumption).
    rewrite (NP ps u) by (cbn; auto). destruct u; cbn [map app].
    + assert (P : Proper [Create n; Execute n; Destroy n; Cleanup]).
      { change [Create n; Execute n; Destroy n; Cleanup] with (((([] ++ [Create n]) ++ [Execute n]) ++ [Destroy n]) ++ [Cleanup]).
        assert (U1 := Usable_create [] n). assert (U2 : Usable (([] ++ [Create n]) ++ [Execute n]) n) by (apply Usable_snoc; [exact U1|discriminate|discriminate]).
        repeat (apply Proper_snoc; [|assumption || exact Logic.I]). apply Proper_nil. }
      assert (D : forall k, ~ Usable [Create n; Execute n; Destroy n; Cleanup] k).
      { intros k (l1 & l2 & E & _ & C). change [Create n; Execute n; Destroy n; Cleanup] with ([Create n; Execute n; Destroy n] ++ [Cleanup]) in E.
        apply snoc_split in E as [(_ & E & _)|(l3 & -> & _)]; [discriminate|]. apply C, in_app_iff. cbn. auto. }
      destruct (past l (S n) _ NA' D) as [A B].
      assert (EQ : Forall (fun e => e = Object [] false) l <-> (length (filter usesDft l) <= 0)%nat).
      { clear - NA' NP'. induction l as [|[|ps u] l IH]; [split; [cbn; lia|constructor]|exfalso; apply NA'; cbn; auto|].
        rewrite (NP' ps u) by (cbn; auto). cbn [filter usesDft]. rewrite Forall_cons_iff, IH by (cbn in *; intuition eauto). destruct u; cbn [length]; intuition (congruence || lia). }
      cbn [length]. split.
      * rewrite A, EQ. split; [intros [_ H]; lia|intros H; split; [exact P|lia]].
      * intros tr H HP. right. assert (F : Forall (fun e => e = Object [] false) l) by (apply A; eauto). rewrite (B F) in H. injection H as <-. reflexivity.
    + apply (IH n NA' NP').
Qed.

Lemma dead_cleanup tr k : ~ Usable (tr ++ [Cleanup]) k.
Proof. intros (l1 & l2 & E & _ & C). apply snoc_split in E as [(_ & E & _)|(l3 & -> & _)]; [discriminate|]. apply C, in_app_iff. cbn. auto. Qed.

Lemma filter_rev_length {A} (f : A -> bool) l : length (filter f (rev l)) = length (filter f l).
Proof. induction l as [|a l IH]; [reflexivity|]. cbn [rev filter]. rewrite filter_app, app_length, IH. cbn [filter]. destruct (f a); cbn [length]; lia. Qed.

Lemma end_spec acs p returns : acts begin acs = Some p ->
  (Ordered (statics p) <-> exists tr, finish p returns = Ok tr /\ Proper tr) /\
  (forall tr, finish p returns = Ok tr -> Proper tr ->
     (tr = [] \/ exists tr', tr = tr' ++ [Cleanup] /\ ~ In Cleanup tr') /\ (returns = true -> forall n, In (Create n) tr -> (In (Destroy n) tr <-> ~ In n (lost begin acs)))).
Proof.
  intros H. assert (I := acts_inv _ _ _ _ EInv_begin H). cbn [app] in I. clear H. generalize dependent (lost begin acs). clear acs. intros ls I.
  set (tr0 := calls p ++ (if returns then map Destroy (localPlans (locals p)) else [])).
  destruct (NoDup_parts _ _ (ei_nodup _ I)) as (ND1 & ND2 & NDx).
  assert (T0 : Proper tr0 /\ (forall k, In k (staticPlans (statics p)) -> Usable tr0 k) /\ ~ In Cleanup tr0 /\ (forall k, In (Create k) tr0 -> In (Create k) (calls p)) /\
    (forall c, In c (calls p) -> In c tr0) /\ (returns = true -> forall k, In k (localPlans (locals p)) -> In (Destroy k) tr0) /\
    (forall k, In (Destroy k) tr0 -> In (Destroy k) (calls p) \/ In k (localPlans (locals p)))).
  { destruct (not_destroys (localPlans (locals p))) as [N1 N2].
    destruct (destroy_all (localPlans (locals p)) (calls p) ND1 (ei_proper _ I)) as [P U]; [intros n X; apply (ei_usable _ I), in_app_iff; auto|].
    unfold tr0. destruct returns; [|rewrite app_nil_r; repeat split; auto; try discriminate; [apply (ei_proper _ I)|intros k X; apply (ei_usable _ I), in_app_iff; auto|apply (ei_cleanup _ I)]].
    split; [exact P|]. split; [intros k X; apply U; [apply (ei_usable _ I), in_app_iff; auto|intros Y; exact (NDx k Y X)]|].
    split; [rewrite in_app_iff; intros [X|X]; [exact (ei_cleanup _ I X)|exact (N1 X)]|]. split; [intros k; rewrite in_app_iff; intros [X|X]; [exact X|destruct (N2 k X)]|].
    split; [intros c X; apply in_app_iff; auto|]. split; [intros _ k X; apply in_app_iff; right; apply in_destroys; exact X|]. intros k. rewrite in_app_iff, in_destroys. tauto. }
  destruct T0 as (P0 & U0 & C0 & CR0 & IN0 & L0 & D0). unfold finish. fold tr0.
  destruct (existsb isAllocator (statics p)) eqn:EA.
  - apply alloc_spec in EA. destruct (in_split _ _ EA) as (l1 & l2 & E). destruct (ei_single _ I l1 l2 E) as [A1 A2].
    assert (SP : forall l, forall x, In x (staticPlans (rev l)) <-> In x (staticPlans l)).
    { intros l x. unfold staticPlans. rewrite !in_flat_map. setoid_rewrite <- in_rev. tauto. }
    assert (ND' : NoDup (staticPlans (rev l2))).
    { rewrite E, statics_app in ND2. apply NoDup_parts in ND2 as (_ & ND2 & _). cbn in ND2. eapply Permutation_NoDup; [|exact ND2]. unfold staticPlans. apply Permutation_flat_map, Permutation_rev. }
    rewrite E, rev_app_distr. cbn [rev]. rewrite <- app_assoc. cbn [app].
    destruct (present (rev l2) (made p) tr0 (Allocator :: rev l1)) as (n' & tr' & -> & Q1 & Q2 & Q3 & Q4 & Q5 & Q6).
    + rewrite <- in_rev. exact A2.
    + exact ND'.
    + intros k X. apply U0. rewrite E, statics_app, in_app_iff. right. exact (proj1 (SP l2 k) X).
    + exact P0.
    + exact C0.
    + intros k X. apply (ei_made _ I), CR0. exact X.
    + cbn [terminate]. destruct (past (rev l1) n' (tr' ++ [Cleanup])) as [A B]; [rewrite <- in_rev; exact A1|intros k; apply dead_cleanup|].
      assert (PC : Proper (tr' ++ [Cleanup])) by (apply Proper_snoc; [exact Q1|exact Logic.I]).
      assert (OR : Ordered (l1 ++ Allocator :: l2) <-> Forall (fun e => e = Object [] false) (rev l1)).
      { rewrite Forall_forall. setoid_rewrite <- in_rev. split.
        - intros [O _] [|ps u] X; [contradiction|]. destruct (in_split _ _ X) as (a & b & ->). destruct (O a ps u (b ++ Allocator :: l2)) as [-> ->]; [rewrite <- app_assoc; reflexivity|apply in_app_iff; cbn; auto|reflexivity].
        - intros F. split; [|intros N; exfalso; apply N, in_app_iff; cbn; auto]. intros a ps u b EQ X.
          assert (Y : In (Object ps u) l1).
          { apply app_eq_app in EQ as (m & [[-> EQ]|[-> EQ]]).
            - destruct m as [|x m]; [discriminate|]. injection EQ as <- ->. apply in_app_iff. cbn. auto.
            - destruct m as [|x m]; [discriminate|]. injection EQ as <- ->. exfalso. apply A2. apply in_app_iff. cbn. auto. }
          apply F in Y. injection Y as -> ->. auto. }
      rewrite OR. split; [rewrite A; tauto|]. intros tr HT HP.
      assert (F : Forall (fun e => e = Object [] false) (rev l1)) by (apply A; eauto). rewrite (B F) in HT. injection HT as <-.
      split; [right; exists tr'; auto|]. intros -> n HC. rewrite in_app_iff in HC. destruct HC as [HC|[HC|[]]]; [|discriminate]. rewrite in_app_iff.
      assert (X0 : In (Destroy n) tr' \/ In n ls).
      { apply Q3 in HC as [HC|HC]; [|auto]. apply CR0 in HC. destruct (ei_all _ I n HC) as [X|[X|X]]; [left; apply Q5, IN0; exact X| |auto].
        left. unfold held in X. rewrite in_app_iff in X. destruct X as [X|X]; [apply Q5, L0; auto|]. rewrite E, statics_app, in_app_iff in X. cbn in X. destruct X as [X|X].
        * exfalso. clear - F X. unfold staticPlans in X. apply in_flat_map in X as (e & He & Hx). rewrite Forall_forall in F. rewrite (F e) in Hx by (apply -> in_rev; exact He). destruct Hx.
        * apply Q4. exact (proj2 (SP l2 n) X). }
      split; [|intros X; left; tauto]. intros [X|[X|[]]] Y; [|discriminate]. destruct (ei_lost _ I n Y) as (L1 & L2 & L3).
      apply Q6 in X as [X|[X|X]]; [| |lia].
      * apply D0 in X as [X|X]; [exact (L3 X)|]. apply L2. unfold held. apply in_app_iff. auto.
      * apply L2. unfold held. apply in_app_iff. right. rewrite E, statics_app, in_app_iff. right. exact (proj1 (SP l2 n) X).
  - assert (NA : ~ In Allocator (statics p)) by (intros X; apply alloc_spec in X; congruence).
    assert (EC : calls p = []) by (destruct (calls p) eqn:X; [reflexivity|]; exfalso; apply NA, (ei_alloc _ I); rewrite X; discriminate).
    assert (HE : held p = []).
    { destruct (held p) as [|k l] eqn:X; [reflexivity|]. assert (Y : Usable (calls p) k) by (apply (ei_usable _ I); rewrite X; cbn; auto). apply Usable_created in Y. rewrite EC in Y. destruct Y. }
    unfold held in HE. apply app_eq_nil in HE as [HL HS]. assert (ET : tr0 = []) by (unfold tr0; rewrite EC, HL; destruct returns; reflexivity). rewrite ET.
    destruct (future (rev (statics p)) (made p)) as [A B].
    + rewrite <- in_rev. exact NA.
    + intros ps u X. apply in_rev in X. apply in_split in X as (a & b & X). rewrite X, statics_app in HS. apply app_eq_nil in HS as [_ HS]. cbn in HS. apply app_eq_nil in HS. tauto.
    + rewrite A. assert (EL : length (filter usesDft (rev (statics p))) = length (filter usesDft (statics p))) by apply filter_rev_length. rewrite EL. split.
      * split; [intros [_ O]; auto|]. intros O. split; [|auto]. intros l1 ps u l2 E X. exfalso. apply NA. rewrite E, in_app_iff. cbn. auto.
      * intros tr HT HP. destruct (B tr HT HP) as [->| ->].
        -- split; [auto|]. intros _ n [].
        -- split; [right; exists [Create (made p); Execute (made p); Destroy (made p)]; split; [reflexivity|cbn; intuition discriminate]|].
           intros _ n [X|[X|[X|[X|[]]]]]; try discriminate. injection X as X. rewrite X. split; [|cbn; auto].
           intros _ Y. destruct (ei_lost _ I _ Y) as (L1 & _). lia.
Qed.

Lemma end_iff acs p returns : acts begin acs = Some p -> Ordered (statics p) <-> exists tr, finish p returns = Ok tr /\ Proper tr.
Proof. intros H. apply (end_spec acs p returns H). Qed.

Lemma end_clean acs p : acts begin acs = Some p -> Ordered (statics p) -> exists tr, finish p true = Ok tr /\ Proper tr /\ CleanBut (lost begin acs) tr.
Proof.
  intros H O. destruct (end_spec acs p true H) as [A B]. apply A in O as (tr & F & P). exists tr. split; [exact F|]. split; [exact P|].
  destruct (B tr F P) as [B1 B2]. split; auto.
Qed.

Lemma end_cleanup acs p returns tr : acts begin acs = Some p -> finish p returns = Ok tr -> Proper tr ->
  tr = [] \/ exists tr', tr = tr' ++ [Cleanup] /\ ~ In Cleanup tr'.
Proof. intros H F P. apply (end_spec acs p returns H); assumption. Qed.

(** Programs whose first object is a plan. *)
Lemma head_kept p a p' l : statics p = Allocator :: l -> act p a = Some p' -> exists l', statics p' = Allocator :: l'.
Proof.
  intros E H. destruct a as [u|u| |i k|i j|n| |k]; cbn [act] in H; rewrite ?E in H.
  - injection H as <-. cbn. eauto.
  - injection H as <-. cbn. eauto.
  - injection H as <-. cbn. eauto.
  - destruct (nth_error (locals p) i) as [[n|]|]; try discriminate. destruct k as [|k]; cbn [nth_error] in H; [discriminate|].
    destruct (nth_error l k) as [[|ps u]|]; try discriminate. injection H as <-. cbn. eauto.
  - destruct (nth_error (locals p) i); [|discriminate]. destruct (nth_error (locals p) j); [|discriminate]. destruct (Nat.eqb i j); [discriminate|]. injection H as <-. cbn. eauto.
  - destruct (existsb _ _); [|discriminate]. injection H as <-. cbn. eauto.
  - destruct (locals p); [discriminate|]. injection H as <-. cbn. eauto.
  - destruct k as [|k]; cbn [nth_error] in H; [discriminate|]. destruct (nth_error l k) as [[|ps u]|]; try discriminate. injection H as <-. cbn. eauto.
Qed.

Lemma heads_kept acs : forall p p' l, statics p = Allocator :: l -> acts p acs = Some p' -> exists l', statics p' = Allocator :: l'.
Proof.
  induction acs as [|a acs IH]; intros p p' l E H; cbn [acts] in H; [injection H as <-; eauto|].
  destruct (act p a) as [q|] eqn:A; [|discriminate]. destruct (head_kept _ _ _ _ E A) as (l' & E'). eapply IH; eassumption.
Qed.

Lemma first_plan acs : forall p p', statics p = [] -> PlanFirst acs -> acts p acs = Some p' -> statics p' = [] \/ exists l, statics p' = Allocator :: l.
Proof.
  induction acs as [|a acs IH]; intros p p' E F H; cbn [acts] in H; [injection H as <-; auto|].
  destruct (act p a) as [q|] eqn:A; [|discriminate].
  assert (T : (exists l, statics q = Allocator :: l) \/ statics q = [] /\ ~ Creates a).
  { destruct a as [u|u| |i k|i j|n| |k]; cbn [act] in A; try rewrite E in A.
    - destruct (F [] u acs eq_refl) as (b & [] & _).
    - injection A as <-. left. cbn. eauto.
    - injection A as <-. left. cbn. eauto.
    - destruct (nth_error (locals p) i) as [[n|]|]; try discriminate. destruct k; discriminate.
    - destruct (nth_error (locals p) i); [|discriminate]. destruct (nth_error (locals p) j); [|discriminate]. destruct (Nat.eqb i j); [discriminate|].
      injection A as <-. cbn. right; split; [reflexivity || exact E|intros [X|[v X]]; discriminate].
    - destruct (existsb _ _); [|discriminate]. injection A as <-. cbn. right; split; [reflexivity || exact E|intros [X|[v X]]; discriminate].
    - destruct (locals p); [discriminate|]. injection A as <-. cbn. right; split; [reflexivity || exact E|intros [X|[v X]]; discriminate].
    - destruct k; discriminate. }
  destruct T as [(l & T)|[T NC]]; [right; eapply heads_kept; eassumption|].
  apply (IH q p' T); [|exact H]. intros l1 u l2 ->. destruct (F (a :: l1) u l2 eq_refl) as (b & [<-|HB] & C); [contradiction|]. eauto.
Qed.

Lemma first_ordered acs p : PlanFirst acs -> acts begin acs = Some p -> Ordered (statics p).
Proof.
  intros F H. assert (I := acts_inv _ _ _ _ EInv_begin H). destruct (first_plan acs begin p eq_refl F H) as [E|(l & E)]; rewrite E.
  - split; [intros l1 ps u l2 X; destruct l1; discriminate|]. intros _. cbn. lia.
  - split; [|intros X; exfalso; apply X; cbn; auto]. intros l1 ps u l2 X Y. exfalso. destruct l1 as [|e l1]; [discriminate|]. injection X as _ ->.
    destruct (ei_single _ I [] _ E) as [_ N]. apply N, in_app_iff. cbn. auto.
Qed.

Lemma first_clean acs p : PlanFirst acs -> acts begin acs = Some p -> exists tr, finish p true = Ok tr /\ Proper tr /\ CleanBut (lost begin acs) tr.
Proof. intros F H. apply (end_clean acs p H). exact (first_ordered acs p F H). Qed.

Lemma first_exit acs p : PlanFirst acs -> acts begin acs = Some p -> exists tr, finish p false = Ok tr /\ Proper tr.
Proof. intros F H. apply (end_iff acs p false H). exact (first_ordered acs p F H). Qed.

(** Wrong programs. *)
Lemma holder_not : exists p tr, acts begin [AStatic false; ALocal; AMove 0 0] = Some p /\ finish p true = Ok tr /\ ~ Proper tr.
Proof.
  eexists. exists [Create 0; Cleanup; Destroy 0]. split; [reflexivity|]. split; [reflexivity|]. intros P.
  exact (dead_cleanup [Create 0%nat] 0 (P [Create 0%nat; Cleanup] (Destroy 0) [] eq_refl)).
Qed.

Lemma users_not : exists p, acts begin [AStatic true; AStatic true] = Some p /\ finish p true = UB.
Proof. eexists. split; reflexivity. Qed.

Lemma user_not : exists p, acts begin [AStatic true; ALocal; AEndLocal] = Some p /\ finish p true = UB.
Proof. eexists. split; reflexivity. Qed.

Lemma lost_none acs : forall p, (forall i j, ~ In (AAssign i j) acs) -> lost p acs = [].
Proof.
  induction acs as [|a acs IH]; intros p N; cbn [lost]; [reflexivity|].
  assert (E : loses p a = []) by (destruct a as [| | | |i j| | |]; try reflexivity; destruct (N i j); left; reflexivity). rewrite E. cbn [app].
  destruct (act p a); [|reflexivity]. apply IH. intros i j X. apply (N i j). right. exact X.
Qed.

Lemma assign_not : exists p, acts begin [ALocal; ALocal; AAssign 0 1] = Some p /\ finish p true = Ok [Create 0; Create 1; Destroy 0; Cleanup] /\ lost begin [ALocal; ALocal; AAssign 0 1] = [1%nat].
Proof. eexists. split; [reflexivity|]. split; reflexivity. Qed.
