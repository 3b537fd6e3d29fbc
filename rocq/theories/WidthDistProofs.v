(** Proofs about the statistics of integers of bounded width. *)
From Coq Require Import QArith Qabs Permutation.
From Verif Require Import Res Lemmas ContainerSpec TypesModel SamplingModel DistModel DistSpec WidthModel WidthSpec KernelSpec WidthDistModel WidthDistSpec.
From Verif Require Import DistProofs WidthProofs.
Open Scope Z_scope.

Lemma computed_throw t z e : computed t z <> Throw e.
Proof. unfold computed. destruct (isigned (promoted t)); [destruct (fits _ _)|]; discriminate. Qed.

Lemma mul_promoted t v : promotedOp t Mul v v = computed t (v * v). Proof. reflexivity. Qed.

Lemma wrapped_add t a b w v : Wrapped t a w -> Wrapped t (w + b) v -> Wrapped t (a + b) v.
Proof. intros [_ [k E]] [I [j F]]. split; [exact I|]. exists (k + j). lia. Qed.

Lemma zero_in t : Wf t -> InType t 0. Proof. intros W. apply (in01 t W). Qed.

(** One step of the loop *)
Lemma add_step t s v w : Wf t -> widthOp t Add s v = Ok w -> Wrapped t (s + v) w.
Proof.
  intros W H. unfold widthOp in H. cbn [promotedOp] in H. destruct (computed t (s + v)) as [z| |] eqn:E; try discriminate. injection H as <-.
  destruct (stored t (s + v) W) as (z' & E' & C); [congruence|]. rewrite E in E'. injection E' as <-. rewrite C. apply convert_wrapped. exact W.
Qed.

Lemma square_step t s2 v w : Wf t -> addSquare t s2 v = Ok w -> Wrapped t (s2 + v * v) w.
Proof.
  intros W H. unfold addSquare in H. rewrite mul_promoted in H. destruct (computed t (v * v)) as [p| |] eqn:E; try discriminate. cbn [bind] in H.
  destruct (computed t (s2 + p)) as [z| |] eqn:E2; try discriminate. injection H as <-.
  destruct (stored t (v * v) W) as (p' & E' & C); [congruence|]. rewrite E in E'. injection E' as <-.
  destruct (stored t (s2 + p) W) as (z' & E' & C2); [congruence|]. rewrite E2 in E'. injection E' as <-. rewrite C2.
  destruct (convert_wrapped t p W) as [_ [k K]]. destruct (convert_wrapped t (v * v) W) as [_ [j J]].
  rewrite (convert_congr t (s2 + v * v) (s2 + p) (j - k) W) by lia. apply convert_wrapped. exact W.
Qed.

Lemma sums_wrapped t : Wf t -> forall l s s2 w w2, sumsLoop t l s s2 = Ok (w, w2) -> InType t s -> InType t s2 ->
  Wrapped t (s + total l) w /\ Wrapped t (s2 + squares l) w2.
Proof.
  intros W. induction l as [|v l IH]; intros s s2 w w2 H Hs Hs2; cbn [sumsLoop] in H.
  - injection H as <- <-. unfold squares. cbn [map total fold_right]. split; (split; [assumption|exists 0; lia]).
  - destruct (widthOp t Add s v) as [s'| |] eqn:E; try discriminate. cbn [bind] in H. destruct (addSquare t s2 v) as [s2'| |] eqn:E2; try discriminate. cbn [bind] in H.
    apply (add_step t s v s' W) in E. apply (square_step t s2 v s2' W) in E2. destruct (IH _ _ _ _ H (proj1 E) (proj1 E2)) as [A B].
    unfold squares in *. cbn [map]. unfold total in *. cbn [fold_right] in *. rewrite !Z.add_assoc. split; [exact (wrapped_add _ _ _ _ _ E A)|exact (wrapped_add _ _ _ _ _ E2 B)].
Qed.

Lemma dist_sums t l w w2 : Wf t -> distSums t l = Ok (w, w2) -> Wrapped t (total l) w /\ Wrapped t (squares l) w2.
Proof. intros W H. exact (sums_wrapped t W l 0 0 w w2 H (zero_in t W) (zero_in t W)). Qed.

Lemma sums_throw t e : forall l s s2, sumsLoop t l s s2 <> Throw e.
Proof.
  induction l as [|v l IH]; intros s s2; cbn [sumsLoop]; [discriminate|]. unfold widthOp, addSquare. cbn [promotedOp].
  assert (T := computed_throw t (s + v)). destruct (computed t (s + v)); [|exfalso; eapply T; reflexivity|discriminate]. cbn [bind]. assert (T2 := computed_throw t (v * v)).
  destruct (computed t (v * v)) as [p| |]; [|exfalso; eapply T2; reflexivity|discriminate]. cbn [bind]. assert (T3 := computed_throw t (s2 + p)). destruct (computed t (s2 + p)); [|exfalso; eapply T3; reflexivity|discriminate]. cbn [bind]. apply IH.
Qed.

(** Types without overflow *)
Lemma never_computed t z m : Wf t -> NeverOverflows t -> Z.abs z <= m -> m <= 2 ^ 31 - 1 -> exists w, computed t z = Ok w.
Proof.
  intros W N Hz Hm. destruct (computed t z) eqn:E; [eexists; reflexivity|exfalso; eapply computed_throw; exact E|]. exfalso.
  unfold computed in E. destruct (isigned (promoted t)) eqn:Sg; [|discriminate]. destruct (fits (promoted t) z) eqn:F; [discriminate|].
  assert (F' : ~ InType (promoted t) z) by (rewrite <- fits_spec; congruence). apply F'. unfold promoted in *. destruct (Z.ltb_spec (ibits t) 32) as [L|L].
  - unfold InType, itmin, itmax. cbn [isigned ibits int32]. change (2 ^ (32 - 1)) with (2 ^ 31). lia.
  - destruct N as [N|[[N _]|[_ N]]]; [lia|lia|congruence].
Qed.

Lemma unsigned_computed t z : isigned (promoted t) = false -> exists w, computed t z = Ok w.
Proof. intros H. unfold computed. rewrite H. eexists. reflexivity. Qed.

Lemma narrow_bounds t v : Wf t -> NeverOverflows t -> ibits t < 32 -> InType t v -> Z.abs v <= 2 ^ 15.
Proof.
  intros W N L [H1 H2]. unfold itmin, itmax in *. unfold Wf in W. unfold NeverOverflows in N. destruct (isigned t).
  - assert (2 ^ (ibits t - 1) <= 2 ^ 15) by (apply pow_le; destruct N as [N|[[N _]|[N _]]]; lia). lia.
  - destruct N as [N|[[_ N]|[N _]]]; [|discriminate|lia]. assert (2 ^ ibits t <= 2 ^ 15) by (apply pow_le; lia). lia.
Qed.

Lemma never_wide t : Wf t -> NeverOverflows t -> 32 <= ibits t -> isigned (promoted t) = false.
Proof. intros W [N|[[N _]|[_ N]]] L; try lia. unfold promoted. destruct (Z.ltb_spec (ibits t) 32); [lia|exact N]. Qed.

Lemma sums_defined t : Wf t -> NeverOverflows t -> forall l, Forall (InType t) l -> forall s s2, InType t s -> InType t s2 -> exists w, sumsLoop t l s s2 = Ok w.
Proof.
  intros W N. induction l as [|v l IH]; intros HF s s2 Hs Hs2; cbn [sumsLoop]; [eexists; reflexivity|]. inversion HF as [|? ? Hv HF']; subst.
  assert (A : exists z, computed t (s + v) = Ok z). { destruct (Z.lt_ge_cases (ibits t) 32) as [L|L]; [|apply unsigned_computed, never_wide; assumption].
    assert (B1 := narrow_bounds t v W N L Hv). assert (B2 := narrow_bounds t s W N L Hs). apply never_computed with (m := 2 ^ 15 + 2 ^ 15); [exact W|exact N|lia|vm_compute; discriminate]. }
  assert (B : exists w, addSquare t s2 v = Ok w). { unfold addSquare. rewrite mul_promoted. destruct (Z.lt_ge_cases (ibits t) 32) as [L|L].
    - assert (B1 := narrow_bounds t v W N L Hv). assert (B2 := narrow_bounds t s2 W N L Hs2). assert (B3 := abs_mul v v (2 ^ 15) B1 B1).
      assert (C : computed t (v * v) = Ok (v * v)). { destruct (never_computed t (v * v) (2 ^ 15 * 2 ^ 15) W N B3) as [w E]; [vm_compute; discriminate|]. rewrite E. unfold computed in E. unfold promoted in E. destruct (Z.ltb_spec (ibits t) 32); [|lia]. cbn [isigned int32] in E. destruct (fits int32 (v * v)); [exact (eq_sym E)|discriminate]. }
      rewrite C. cbn [bind]. destruct (never_computed t (s2 + v * v) (2 ^ 15 + 2 ^ 15 * 2 ^ 15) W N) as [w E]; [lia|vm_compute; discriminate|]. rewrite E. eexists. reflexivity.
    - assert (Sg := never_wide t W N L). destruct (unsigned_computed t (v * v) Sg) as [p E]. rewrite E. cbn [bind]. destruct (unsigned_computed t (s2 + p) Sg) as [z E2]. rewrite E2. eexists. reflexivity. }
  unfold widthOp. cbn [promotedOp]. destruct A as [z A]. rewrite A. cbn [bind]. destruct B as [w B]. rewrite B. cbn [bind]. apply IH; [exact HF'| |].
  - apply (convert_wrapped t z W).
  - apply (square_step t s2 v w W B).
Qed.

Lemma dist_defined t l : Wf t -> NeverOverflows t -> Forall (InType t) l -> exists w w2, distSums t l = Ok (w, w2).
Proof. intros W N HF. destruct (sums_defined t W N l HF 0 0 (zero_in t W) (zero_in t W)) as [[w w2] E]. exists w, w2. exact E. Qed.

(** Wide signed types *)
Lemma signed_computed t z : isigned t = true -> 32 <= ibits t -> computed t z = if fits t z then Ok z else UB.
Proof. intros Sg L. unfold computed, promoted. destruct (Z.ltb_spec (ibits t) 32); [lia|]. rewrite Sg. reflexivity. Qed.

Lemma squares_nonneg l : 0 <= squares l.
Proof. unfold squares. induction l as [|v l IH]; cbn [map total fold_right]; [lia|]. unfold total in IH. pose proof (Z.square_nonneg v). lia. Qed.

Lemma signed_loop t : Wf t -> isigned t = true -> 32 <= ibits t -> forall l s s2, InType t s -> InType t s2 -> 0 <= s2 ->
  (sumsLoop t l s s2 <> UB <-> (forall k, InType t (s + sumFirst k l)) /\ InType t (s2 + squares l)).
Proof.
  intros W Sg L. induction l as [|v l IH]; intros s s2 Hs Hs2 H0; cbn [sumsLoop].
  - split; [|discriminate]. intros _. split; [intros [|k]; unfold sumFirst; cbn; rewrite Z.add_0_r; exact Hs|]. unfold squares. cbn. rewrite Z.add_0_r. exact Hs2.
  - unfold widthOp, addSquare. rewrite mul_promoted. cbn [promotedOp]. rewrite !(signed_computed t) by assumption.
    assert (SQ : squares (v :: l) = v * v + squares l) by reflexivity. assert (P := squares_nonneg l). assert (V := Z.square_nonneg v).
    assert (Low : itmin t <= 0) by (unfold itmin; rewrite Sg; pose proof (Z.pow_nonneg 2 (ibits t - 1)); lia).
    destruct (fits t (s + v)) eqn:F1; cbn [bind].
    2: { split; [intros H; exfalso; apply H; reflexivity|]. intros [H _]. exfalso. specialize (H 1%nat). unfold sumFirst in H. cbn [firstn total fold_right] in H. rewrite Z.add_0_r in H. apply fits_spec in H. congruence. }
    apply fits_spec in F1. rewrite (convert_id t (s + v) W F1).
    destruct (fits t (v * v)) eqn:F2; cbn [bind].
    2: { split; [intros H; exfalso; apply H; reflexivity|]. intros [_ H]. exfalso. rewrite SQ in H. assert (InType t (v * v)) as F by (unfold InType in *; lia). apply fits_spec in F. congruence. }
    rewrite (signed_computed t (s2 + v * v) Sg L). destruct (fits t (s2 + v * v)) eqn:F3; cbn [bind].
    2: { split; [intros H; exfalso; apply H; reflexivity|]. intros [_ H]. exfalso. rewrite SQ in H. assert (InType t (s2 + v * v)) as F by (unfold InType in *; lia). apply fits_spec in F. congruence. }
    apply fits_spec in F3. rewrite (convert_id t (s2 + v * v) W F3). rewrite IH by (assumption || lia). rewrite SQ, Z.add_assoc. split; intros [A B]; (split; [|exact B]).
    + intros [|k]; [unfold sumFirst; cbn; rewrite Z.add_0_r; exact Hs|]. specialize (A k). unfold sumFirst in *. cbn [firstn total fold_right]. unfold total in A. replace (s + (v + fold_right Z.add 0 (firstn k l))) with (s + v + fold_right Z.add 0 (firstn k l)) by lia. exact A.
    + intros k. specialize (A (S k)). unfold sumFirst in *. cbn [firstn total fold_right] in A. unfold total. replace (s + v + fold_right Z.add 0 (firstn k l)) with (s + (v + fold_right Z.add 0 (firstn k l))) by lia. exact A.
Qed.

Lemma dist_signed t l : Wf t -> isigned t = true -> 32 <= ibits t ->
  (distSums t l = UB <-> (exists k, ~ InType t (sumFirst k l)) \/ ~ InType t (squares l)).
Proof.
  intros W Sg L. assert (H := signed_loop t W Sg L l 0 0 (zero_in t W) (zero_in t W) ltac:(lia)). change (0 + squares l) with (squares l) in H. fold (distSums t l) in H.
  split.
  - intros E. destruct (fits t (squares l)) eqn:F; [|right; rewrite <- fits_spec; congruence]. left. apply fits_spec in F.
    destruct (forallb (fun k => fits t (sumFirst k l)) (seq 0 (S (length l)))) eqn:A.
    + exfalso. apply (proj2 H); [|exact E]. split; [|exact F]. intros k. change (0 + sumFirst k l) with (sumFirst k l). apply fits_spec. rewrite forallb_forall in A. unfold sumFirst.
      destruct (Nat.le_gt_cases k (length l)) as [G|G]; [apply (A k), in_seq; lia|]. rewrite firstn_all2 by lia. rewrite <- (firstn_all l) at 1. apply (A (length l)), in_seq. lia.
    + assert (X : existsb (fun k => negb (fits t (sumFirst k l))) (seq 0 (S (length l))) = true).
      { revert A. generalize (seq 0 (S (length l))). induction l0 as [|k ks IH]; cbn; [discriminate|]. destruct (fits t (sumFirst k l)); cbn; auto. }
      apply existsb_exists in X as (k & _ & X). exists k. rewrite <- fits_spec. destruct (fits t (sumFirst k l)); [discriminate|discriminate].
  - intros X. assert (N : ~ (distSums t l <> UB)). { rewrite H. intros [A B]. destruct X as [[k X]|X]; [apply X, (A k)|contradiction]. } destruct (distSums t l) as [p|e|] eqn:E; try reflexivity; exfalso; apply N; discriminate.
Qed.

(** Unsigned short *)
Lemma ushort_bounds v : InType ushort v <-> 0 <= v <= 65535. Proof. reflexivity. Qed.

Lemma ushort_computed z : computed ushort z = if fits int32 z then Ok z else UB. Proof. reflexivity. Qed.

Lemma ushort_fits z : fits int32 z = true <-> -2147483648 <= z <= 2147483647.
Proof. rewrite fits_spec. reflexivity. Qed.

Lemma ushort_loop : forall l, Forall (InType ushort) l -> forall s s2, InType ushort s -> InType ushort s2 ->
  (sumsLoop ushort l s s2 = UB <-> exists v, In v l /\ 46340 < v).
Proof.
  assert (W : Wf ushort) by (left; cbn; lia).
  induction l as [|v l IH]; intros HF s s2 Hs Hs2; cbn [sumsLoop]; [split; [discriminate|intros (? & [] & _)]|]. inversion HF as [|? ? Hv HF']; subst.
  assert (Bv := proj1 (ushort_bounds v) Hv). assert (Bs := proj1 (ushort_bounds s) Hs). assert (Bs2 := proj1 (ushort_bounds s2) Hs2). unfold widthOp, addSquare. rewrite mul_promoted. cbn [promotedOp]. rewrite !ushort_computed. rewrite (proj2 (ushort_fits (s + v))) by lia. cbn [bind].
  destruct (Z.lt_ge_cases 46340 v) as [G|G].
  - destruct (fits int32 (v * v)) eqn:F; [apply ushort_fits in F; nia|]. cbn [bind]. split; [|reflexivity]. intros _. exists v. split; [left; reflexivity|exact G].
  - assert (F : fits int32 (v * v) = true) by (apply ushort_fits; nia). rewrite F. cbn [bind]. rewrite ushort_computed.  assert (F2 : fits int32 (s2 + v * v) = true) by (apply ushort_fits; nia). rewrite F2. cbn [bind].
    rewrite IH; [|exact HF'|apply (convert_wrapped ushort _ W)|apply (convert_wrapped ushort _ W)]. split; intros (x & Hx & Gx); exists x; (split; [|exact Gx]); [right; exact Hx|destruct Hx as [->|Hx]; [lia|exact Hx]].
Qed.

Lemma dist_ushort l : Forall (InType ushort) l -> (distSums ushort l = UB <-> exists v, In v l /\ 46340 < v).
Proof. intros HF. apply ushort_loop; [exact HF| |]; apply zero_in; left; cbn; lia. Qed.

(** Mean *)
Lemma mean_exact t l s : Wf t -> ibits t <= 64 -> l <> [] -> distSums t l = Ok s -> InType t (total l) -> 0 <= total l ->
  sumWidth t l = Ok (total l) /\ meanWidth t l = Ok (total l / Z.of_nat (length l)).
Proof.
  intros W L Hl E HT H0. destruct s as [w w2]. destruct (dist_sums t l w w2 W E) as [A _]. assert (w = total l) by (eapply in_type_wrapped; eauto). subst w.
  unfold meanWidth, sumWidth. rewrite E. cbn [bind fst]. split; [reflexivity|]. destruct (Z.eqb_spec (Z.of_nat (length l)) 0); [destruct l; [contradiction|discriminate]|].
  unfold u64. rewrite Z.mod_small; [reflexivity|]. destruct HT as [_ HT]. unfold itmax in HT. assert (2 ^ ibits t <= 2 ^ 64) by (apply pow_le; unfold Wf in W; lia). assert (2 ^ (ibits t - 1) <= 2 ^ 64) by (apply pow_le; unfold Wf in W; lia).
  change (2 ^ 64) with 18446744073709551616 in *. destruct (isigned t); lia.
Qed.

(** Median absolute deviation *)
Lemma zget_in {A} (l : list A) i x : zget l i = Ok x -> In x l.
Proof. unfold zget. destruct (i <? 0); [discriminate|]. destruct (nth_error l (Z.to_nat i)) eqn:E; [|discriminate]. intros [= <-]. eapply nth_error_In. exact E. Qed.

Lemma mapRes_ok {A B} (f : A -> res B) (g : A -> B) l : (forall x, In x l -> f x = Ok (g x)) -> mapRes f l = Ok (map g l).
Proof.
  induction l as [|x l IH]; intros H; cbn [mapRes map]; [reflexivity|]. rewrite (H x (or_introl eq_refl)). cbn [bind]. rewrite IH by (intros y Hy; apply H; right; exact Hy). reflexivity.
Qed.

Lemma between_dev (e x y : Q) (m : Q) a : (m == (x + y) / 2)%Q -> (Qabs (e - x) <= a)%Q -> (Qabs (e - y) <= a)%Q -> (Qabs (e - m) <= a)%Q.
Proof.
  intros E H1 H2. apply Qabs_Qle_condition in H1 as [A1 B1], H2 as [A2 B2]. apply Qabs_Qle_condition. rewrite E. split; [|].
  - setoid_replace (e - (x + y) / 2)%Q with (((e - x) + (e - y)) * (1 # 2))%Q by field. setoid_replace (- a)%Q with ((- a + - a) * (1 # 2))%Q by field. apply Qmult_le_compat_r; [apply Qplus_le_compat; assumption|discriminate].
  - setoid_replace (e - (x + y) / 2)%Q with (((e - x) + (e - y)) * (1 # 2))%Q by field. setoid_replace a with ((a + a) * (1 # 2))%Q at 1 by field. apply Qmult_le_compat_r; [apply Qplus_le_compat; assumption|discriminate].
Qed.

Lemma inject_dev x y : (Qabs (inject_Z x - inject_Z y) == inject_Z (Z.abs (x - y)))%Q.
Proof. unfold Qminus. rewrite <- inject_Z_opp, <- inject_Z_plus. reflexivity. Qed.

Section Mad.
Context (t : itype) (o : evalOrder) (l : list Z).
Hypothesis W : Wf t.
Hypothesis N : NeverOverflows t.
Hypothesis Hl : l <> [].
Hypothesis Ho : ReadBefore o.
Hypothesis HD : forall x y, In x l -> In y l -> InType t (Z.abs (x - y)).

Lemma mad_devs d d' r : reach qltb (distMake qltb (map inject_Z l)) d -> medianCall o d d' r ->
  exists m devs s, r = Ok m /\ devs = map (fun e => qtrunc (Qabs (e - m))) (dvalues d') /\ devs <> [] /\
    mapRes (fun e => scalarOf t (Qabs (e - m))) (dvalues d') = Ok devs /\ distSums t devs = Ok s.
Proof.
  intros HR HM. assert (Hne : map inject_Z l <> []) by (destruct l; [contradiction|discriminate]). destruct (Sorting_exists qltb qltb_swo (map inject_Z l)) as [s Hs].
  destruct (median_spec o (map inject_Z l) s d d' r HR Hs Hne (or_introl Ho) HM) as (HP & m & -> & (x & y & Hx & Hy & Em)).
  assert (In' : forall v, In v s -> exists z, v = inject_Z z /\ In z l).
  { intros v Hv. destruct Hs as [P _]. apply (Permutation_in _ (Permutation_sym P)) in Hv. apply in_map_iff in Hv as (z & <- & Hz). exists z. auto. }
  destruct (In' x (zget_in _ _ _ Hx)) as (zx & -> & Ix). destruct (In' y (zget_in _ _ _ Hy)) as (zy & -> & Iy).
  assert (G : forall e, In e (dvalues d') -> InType t (qtrunc (Qabs (e - m)))).
  { intros e He. apply (Permutation_in _ (Permutation_sym HP)) in He. apply in_map_iff in He as (z & <- & Iz).
    destruct (qtrunc_bounds (Qabs (inject_Z z - m)) (Qabs_nonneg _)) as (B1 & B2 & B3).
    assert (Z1 := HD z zx Iz Ix). assert (Z2 := HD z zy Iz Iy). set (a := Z.max (Z.abs (z - zx)) (Z.abs (z - zy))).
    assert (D : (Qabs (inject_Z z - m) <= inject_Z a)%Q).
    { apply (between_dev _ _ _ _ _ Em); rewrite inject_dev; rewrite <- Zle_Qle; unfold a; lia. }
    assert (D' : (inject_Z (qtrunc (Qabs (inject_Z z - m))) <= inject_Z a)%Q) by (eapply Qle_trans; eassumption). rewrite <- Zle_Qle in D'.
    assert (L := zero_in t W). unfold InType in *. unfold a in D'. lia. }
  exists m. set (devs := map (fun e => qtrunc (Qabs (e - m))) (dvalues d')).
  assert (HF : Forall (InType t) devs). { apply Forall_forall. intros v Hv. apply in_map_iff in Hv as (e & <- & He). apply G. exact He. }
  destruct (dist_defined t devs W N HF) as (w & w2 & E). exists devs, (w, w2). split; [reflexivity|]. split; [reflexivity|]. split.
  { intros C. unfold devs in C. apply map_eq_nil in C. rewrite C in HP. apply Permutation_sym, Permutation_nil in HP. contradiction. }
  split; [|exact E]. apply mapRes_ok. intros e He. unfold scalarOf. rewrite (proj2 (fits_spec t _) (G e He)). reflexivity.
Qed.

Lemma mad_fits d d' r : reach qltb (distMake qltb (map inject_Z l)) d -> madWidthCall t o d d' r -> madIntCall o d d' r.
Proof.
  intros HR H. inversion H as [? m devs s d2 ? M1 M2 M3 M4|? m devs M1 M2 M3|? m M1 M2|? M1]; subst.
  - destruct (mad_devs d d' _ HR M1) as (m' & devs' & s' & Em & Ed & _ & E1 & _). injection Em as <-. rewrite M2 in E1. injection E1 as E1. subst devs. rewrite Ed in M4. rewrite map_map in M4. exact (mad_int_call _ _ _ _ _ _ M1 M4).
  - destruct (mad_devs d d' _ HR M1) as (m' & devs' & s' & Em & Ed & _ & E1 & E2). injection Em as <-. rewrite M2 in E1. injection E1 as E1. subst devs. congruence.
  - destruct (mad_devs d d' _ HR M1) as (m' & devs' & s' & Em & Ed & _ & E1 & E2). injection Em as <-. congruence.
  - destruct (mad_devs d d' _ HR M1) as (m' & devs' & s' & Em & _). discriminate.
Qed.

Lemma mad_happens d : reach qltb (distMake qltb (map inject_Z l)) d -> exists d' v, madWidthCall t o d d' (Ok v).
Proof.
  intros HR. assert (Hne : map inject_Z l <> []) by (destruct l; [contradiction|discriminate]).
  destruct (quantile_possible (map inject_Z l) d (1 # 2) o HR Hne ltac:(discriminate) ltac:(discriminate)) as (d1 & r1 & H1).
  destruct (mad_devs d d1 r1 HR H1) as (m & devs & s & -> & Ed & Dne & E1 & E2).
  assert (Hne2 : map inject_Z devs <> []) by (destruct devs; [contradiction|discriminate]).
  destruct (quantile_possible (map inject_Z devs) _ (1 # 2) o (reach_here _ _) Hne2 ltac:(discriminate) ltac:(discriminate)) as (d2 & r2 & H2).
  destruct (Sorting_exists qltb qltb_swo (map inject_Z devs)) as [u Hu].
  destruct (median_spec o _ u _ d2 r2 (reach_here _ _) Hu Hne2 (or_introl Ho) H2) as (_ & v & -> & _).
  exists d1, v. exact (madw_ok _ _ _ _ _ _ _ _ _ H1 E1 E2 H2).
Qed.
End Mad.

Lemma unsigned_devs t l : Wf t -> isigned t = false -> Forall (InType t) l -> forall x y, In x l -> In y l -> InType t (Z.abs (x - y)).
Proof. intros W Sg HF x y Hx Hy. rewrite Forall_forall in HF. apply HF in Hx, Hy. unfold InType, itmin, itmax in *. rewrite Sg in *. lia. Qed.

Lemma schar_mad : exists l, Forall (InType schar) l /\ exists d' , madWidthCall schar ReadLeftFirst (distMake qltb (map inject_Z l)) d' UB.
Proof.
  exists [-128; 127; 127]. split; [repeat constructor; unfold itmin, itmax; cbn; lia|]. exists (distMake qltb (map inject_Z [-128; 127; 127])).
  apply madw_convert with (m := inject_Z 127); [|reflexivity]. apply quantile_exact with (n := ((1 # 2) * inject_Z 2)%Q); [reflexivity|reflexivity|].
  change (qtrunc _) with 1. exact (nth_sorted qltb (distMake qltb (map inject_Z [-128; 127; 127])) 1 eq_refl).
Qed.

(** Median filter *)
Lemma filter_two t x y : Wf t -> InType t x -> InType t y -> InType (promoted t) (x + y) -> medianTwo t t x y = Ok (Z.quot (x + y) 2).
Proof.
  intros W Hx Hy Hp. unfold medianTwo. assert (C : computed t (x + y) = Ok (x + y)). { unfold computed. destruct (isigned (promoted t)); [rewrite (proj2 (fits_spec _ _) Hp); reflexivity|]. rewrite convert_id; [reflexivity|apply promoted_wf; exact W|exact Hp]. }
  rewrite C. cbn [bind]. unfold scalarOf. replace (qtrunc (inject_Z (x + y) * (1 # 2))) with (Z.quot (x + y) 2).
  2: { unfold qtrunc. cbn [Qnum Qden inject_Z Qmult]. rewrite Z.mul_1_r. reflexivity. }
  rewrite (proj2 (fits_spec t _)); [reflexivity|]. assert (B : Z.min x y <= Z.quot (x + y) 2 <= Z.max x y).
  { destruct (Z.le_gt_cases 0 (x + y)) as [G|G].
    - rewrite Z.quot_div_nonneg by lia. pose proof (Z.div_mod (x + y) 2 ltac:(lia)). pose proof (Z.mod_pos_bound (x + y) 2 ltac:(lia)). lia.
    - replace (x + y) with (- (- (x + y))) by lia. rewrite Z.quot_opp_l by lia. rewrite Z.quot_div_nonneg by lia. pose proof (Z.div_mod (- (x + y)) 2 ltac:(lia)). pose proof (Z.mod_pos_bound (- (x + y)) 2 ltac:(lia)). lia. }
  unfold InType in *. lia.
Qed.

Lemma filter_two_to t u x y : Wf t -> InType (promoted t) (x + y) ->
  (InType u (Z.quot (x + y) 2) -> medianTwo t u x y = Ok (Z.quot (x + y) 2)) /\ (~ InType u (Z.quot (x + y) 2) -> medianTwo t u x y = UB).
Proof.
  intros W Hp. unfold medianTwo. assert (C : computed t (x + y) = Ok (x + y)). { unfold computed. destruct (isigned (promoted t)); [rewrite (proj2 (fits_spec _ _) Hp); reflexivity|]. rewrite convert_id; [reflexivity|apply promoted_wf; exact W|exact Hp]. }
  rewrite C. cbn [bind]. unfold scalarOf. replace (qtrunc (inject_Z (x + y) * (1 # 2))) with (Z.quot (x + y) 2).
  2: { unfold qtrunc. cbn [Qnum Qden inject_Z Qmult]. rewrite Z.mul_1_r. reflexivity. }
  assert (F := fits_spec u (Z.quot (x + y) 2)). destruct (fits u (Z.quot (x + y) 2)); split; intros H; try reflexivity; exfalso; [apply H, F; reflexivity|apply F in H; discriminate].
Qed.

Lemma mean_empty t : meanWidth t [] = UB.
Proof. reflexivity. Qed.

Lemma filter_one u x : Wf u -> InType u x -> medianOne u x = Ok x.
Proof. intros W H. unfold medianOne. rewrite convert_id by assumption. reflexivity. Qed.

Lemma filter_overflow : let uint := mkItype false 32 in
  InType int32 (2 ^ 30) /\ medianTwo int32 int32 (2 ^ 30) (2 ^ 30) = UB /\ InType uint (2 ^ 31) /\ medianTwo uint uint (2 ^ 31) (2 ^ 31) = Ok 0.
Proof. cbv zeta. unfold InType, itmin, itmax. cbn [isigned ibits int32]. repeat split; try (vm_compute; congruence); reflexivity. Qed.

Lemma uchar_mean : exists l, Forall (InType uchar) l /\ Forall (fun v => 100 <= v) l /\ sumWidth uchar l = Ok 44 /\ meanWidth uchar l = Ok 22.
Proof. exists [200; 100]. split; [repeat constructor; unfold itmin, itmax; cbn; lia|]. split; [repeat constructor; lia|]. split; reflexivity. Qed.
