(** Proofs about the median filter for any types of pixels. *)
From Coq Require Import Permutation.
From Flocq Require Import IEEE754.BinarySingleNaN.
From Verif Require Import Res VecModel TypesModel BoxModel RasterModel SamplingModel DistModel MedianModel WidthModel FloatModel QuantileModel NanModel TypedMedianModel
  Spec BoxSpec RasterSpec KernelSpec ContainerSpec DistSpec MedianSpec FloatSpec NanSpec TypedMedianSpec
  Lemmas ContainerProofs IndexProofs BoxIterProofs BoxGeomProofs AccessProofs SamplingProofs DistProofs SeparableProofs ComposeProofs KernelProofs MedianProofs NanProofs.
From Verif Require Import WidthModel.
Open Scope Z_scope.

(** Counts *)
Lemma count_app {A} (p : A -> bool) l r : count p (l ++ r) = count p l + count p r.
Proof. unfold count. rewrite filter_app, app_length. lia. Qed.

Lemma count_le {A} (p : A -> bool) l : 0 <= count p l <= Z.of_nat (length l).
Proof. unfold count. induction l as [|a l IH]; cbn [filter length]; [lia|]. destruct (p a); cbn [length]; lia. Qed.

Lemma count_none {A} (p : A -> bool) l : (forall x, In x l -> p x = false) -> count p l = 0.
Proof. induction l as [|a l IH]; intros H; [reflexivity|]. unfold count in *. cbn [filter]. rewrite (H a (or_introl eq_refl)). apply IH. intros x I. apply H. right. exact I. Qed.

Lemma count_perm {A} (p : A -> bool) l l' : Permutation l l' -> count p l = count p l'.
Proof. intros P. unfold count. f_equal. induction P; cbn [filter]; repeat match goal with |- context [p ?x] => destruct (p x) end; cbn [length]; congruence. Qed.

Lemma in_zget {A} (l : list A) x : In x l -> exists i, zget l i = Ok x /\ 0 <= i < Z.of_nat (length l).
Proof.
  intros H. apply In_nth_error in H as [n E]. exists (Z.of_nat n). rewrite zget_nat, E. split; [reflexivity|].
  assert (n < length l)%nat by (apply nth_error_Some; congruence). lia.
Qed.

Lemma zget_skip {A} (l : list A) k i x : zget (skipn k l) i = Ok x -> zget l (Z.of_nat k + i) = Ok x.
Proof.
  intros E. apply zget_ok in E as [B E]. apply zget_ok. split; [lia|]. replace (Z.to_nat (Z.of_nat k + i)) with (k + Z.to_nat i)%nat by lia.
  rewrite <- E. clear. revert l. induction k as [|k IH]; intros l; [reflexivity|]. destruct l; [destruct (Z.to_nat i); reflexivity|]. apply IH.
Qed.

Lemma zget_first {A} (l : list A) k i x : zget (firstn k l) i = Ok x -> zget l i = Ok x /\ i < Z.of_nat k.
Proof.
  intros E. assert (B := zget_range _ _ _ E). rewrite firstn_length in B. split; [|lia]. rewrite <- (firstn_skipn k l), zget_app_l; [exact E|]. rewrite firstn_length. lia.
Qed.

Lemma count_before {A} (p : A -> bool) l k : 0 <= k -> (forall i x, zget l i = Ok x -> p x = true -> i < k) -> count p l <= k.
Proof.
  intros Hk H. rewrite <- (firstn_skipn (Z.to_nat k) l), count_app. rewrite (count_none p (skipn _ l)).
  - assert (C := count_le p (firstn (Z.to_nat k) l)). rewrite firstn_length in C. lia.
  - intros x I. apply in_zget in I as (i & E & B). destruct (p x) eqn:Px; [|reflexivity]. apply zget_skip in E. specialize (H _ _ E Px). lia.
Qed.

Lemma count_after {A} (p : A -> bool) l k : 0 <= k < Z.of_nat (length l) -> (forall i x, zget l i = Ok x -> p x = true -> k < i) -> count p l <= Z.of_nat (length l) - 1 - k.
Proof.
  intros Hk H. rewrite <- (firstn_skipn (Z.to_nat (k + 1)) l) at 1. rewrite count_app. rewrite (count_none p (firstn _ l)).
  - assert (C := count_le p (skipn (Z.to_nat (k + 1)) l)). rewrite skipn_length in C. lia.
  - intros x I. apply in_zget in I as (i & E & B). destruct (p x) eqn:Px; [|reflexivity]. apply zget_first in E as [E B']. specialize (H _ _ E Px). lia.
Qed.

Section Pixel.
Context {A B : Type}.
Variables (lt : A -> A -> bool) (ordered : list A -> bool) (conv : A -> res B) (middle : A -> A -> res B).

Lemma nth_rank l n l' x : NthElement lt l n l' -> zget l' n = Ok x -> RankAt lt l n x.
Proof.
  intros [P N] E. assert (R := zget_range _ _ _ E). assert (L := Permutation_length P). split; [|split].
  - apply zget_ok in E as [_ E]. apply nth_error_In in E. exact (Permutation_in _ (Permutation_sym P) E).
  - rewrite (count_perm _ _ _ P). apply count_before; [lia|]. intros i y Ey Ly. destruct (Z_lt_le_dec i n) as [|G]; [assumption|].
    assert (H := N n i x y ltac:(lia) G E Ey). congruence.
  - rewrite (count_perm _ _ _ P), L. apply count_after; [lia|]. intros i y Ey Ly. destruct (Z_lt_le_dec n i) as [|G]; [assumption|].
    assert (Bi := zget_range _ _ _ Ey). assert (H := N i n y x ltac:(lia) ltac:(lia) Ey E). congruence.
Qed.

Lemma median_outcome l l' r : l <> [] -> typedMedian lt ordered conv middle l l' r -> Permutation l l' /\ Outcome lt ordered conv middle l r.
Proof.
  intros Hl H. assert (0 < Z.of_nat (length l)) by (destruct l; [contradiction|cbn [length]; lia]).
  destruct H as [O|l' x n O M N E|l1 l2 x y n O M Bn N1 N2 Ex Ey|O M Bn].
  - split; [apply Permutation_refl|]. apply outcome_unordered. exact O.
  - split; [apply N|]. apply outcome_odd; [exact O|exact M|]. destruct (nth_rank l n l' x N E) as (I & C1 & C2). subst n. split; [exact I|]. lia.
  - assert (P : Permutation l l2) by (eapply Permutation_trans; [apply N1|apply N2]). split; [exact P|]. assert (L := Permutation_length P).
    apply outcome_even; [exact O|exact M|subst n; lia| | |].
    + apply zget_ok in Ex as [_ Ex]. apply nth_error_In in Ex. exact (Permutation_in _ (Permutation_sym P) Ex).
    + apply (proj2 N2 n (n + 1) x y); [subst n; lia|lia|exact Ex|exact Ey].
    + destruct (nth_rank l1 (n + 1) l2 y N2 Ey) as (I & C1 & C2). assert (P1 := proj1 N1). split; [exact (Permutation_in _ (Permutation_sym P1) I)|].
      assert (L1 := Permutation_length P1). rewrite !(count_perm _ _ _ P1). unfold n in C1, C2. lia.
  - split; [apply Permutation_refl|]. apply outcome_short; [exact M|lia].
Qed.

Lemma median_possible l : Partitions lt ordered -> l <> [] -> exists l' r, typedMedian lt ordered conv middle l l' r.
Proof.
  intros G Hl. assert (Hlen : 0 < Z.of_nat (length l)) by (destruct l; [congruence|cbn; lia]).
  destruct (ordered l) eqn:O; [|eexists _, _; apply typed_unordered; exact O].
  destruct (Z.eq_dec (Z.of_nat (length l) mod 2) 1) as [M|M].
  - destruct (G l l (Z.of_nat (length l) / 2) O (Permutation_refl l) ltac:(lia)) as (l' & N). destruct (zget_in_range l' (Z.of_nat (length l) / 2)) as [x E]; [rewrite <- (Permutation_length (proj1 N)); lia|].
    eexists _, _. exact (typed_odd lt ordered conv middle l l' x O M N E).
  - assert (M' : Z.of_nat (length l) mod 2 = 0) by lia. destruct (Z_lt_le_dec (Z.of_nat (length l) / 2 + 1) (Z.of_nat (length l))) as [T|T].
    + destruct (G l l (Z.of_nat (length l) / 2) O (Permutation_refl l) ltac:(lia)) as (l1 & N). assert (L1 := Permutation_length (proj1 N)).
      destruct (G l l1 (Z.of_nat (length l) / 2 + 1) O (proj1 N) ltac:(lia)) as (l2 & N2). assert (L2 := Permutation_length (proj1 N2)).
      destruct (zget_in_range l2 (Z.of_nat (length l) / 2)) as [x Ex]; [lia|]. destruct (zget_in_range l2 (Z.of_nat (length l) / 2 + 1)) as [y Ey]; [lia|].
      eexists _, _. exact (typed_even lt ordered conv middle l l1 l2 x y O M' T N N2 Ex Ey).
    + eexists _, _. apply typed_short; [exact O|exact M'|lia].
Qed.

Lemma outcome_throw l e : NoThrow conv -> (forall x y e, middle x y <> Throw e) -> ~ Outcome lt ordered conv middle l (Throw e).
Proof. intros Hc Hm H. remember (Throw e) as r eqn:E. destruct H; [exact (Hc x e E)|exact (Hm x y e E)|discriminate|discriminate]. Qed.

(** The filter *)
Variables (n : Z) (f b : list Z) (X : list Z -> A).
Hypothesis Hne : f <> [].
Hypothesis Hfb : NonEmpty f b.
Notation window := (mkBox f b).
Notation out_of p := (Outcome lt ordered conv middle (neighbors f b X p)).

Lemma typed_pixel fuel p (buffer : list A) : length p = length f -> Z.of_nat (length buffer) = windowSize f b -> (length (positions f b) < fuel)%nat ->
  exists qs xs, boxForeach fuel (boxShift window p) = Some (Ok qs) /\ qs = map (fun q => vadd q p) (positions f b) /\
    (forall ext, (forall q, In q (positions f b) -> ext (vplus p q) = Ok (X (vplus p q))) -> mapRes ext qs = Ok xs) /\
    length xs = length buffer /\ xs ++ skipn (length xs) buffer = neighbors f b X p.
Proof.
  intros Lp Lb Hf. assert (Hlen := Forall2_len _ _ _ Hfb).
  exists (map (fun q => vadd q p) (positions f b)), (map (fun q => X (vadd q p)) (positions f b)). split; [|split; [reflexivity|split; [|split]]].
  - unfold boxShift. cbn [bfront bback]. rewrite boxForeach_positions.
    + now rewrite positions_shift by lia.
    + destruct f, p; cbn in *; congruence.
    + apply NonEmpty_shift; auto.
    + rewrite positions_shift, map_length by lia. auto.
  - intros ext Hext. apply mapRes_Forall2. rewrite <- (map_map (fun q => vadd q p) X). apply Forall2_map_in. intros q Hq.
    apply in_map_iff in Hq as (w & <- & Hw). rewrite vadd_comm, <- vplus_vadd. now apply Hext.
  - rewrite map_length. assert (P := positions_count f b Hfb). unfold windowSize in Lb. lia.
  - assert (P := positions_count f b Hfb). unfold windowSize in Lb. rewrite map_length. rewrite skipn_all2 by lia. rewrite app_nil_r.
    apply map_ext. intros q. change (neighbor p q) with (vplus p q). now rewrite vplus_vadd, vadd_comm.
Qed.

Lemma neighbors_count p : Z.of_nat (length (neighbors f b X p)) = windowSize f b.
Proof. unfold neighbors. rewrite map_length. exact (positions_count f b Hfb). Qed.

Lemma neighbors_some p : neighbors f b X p <> [].
Proof.
  intros E. assert (C := neighbors_count p). rewrite E in C. unfold windowSize in C. assert (P := prod_pos _ (wshape_positive f b Hfb)). cbn [length Z.of_nat] in C. unfold wshape in *. lia.
Qed.

Lemma typed_loop fuel ext ps : (forall p q, In p ps -> In q (positions f b) -> ext (vplus p q) = Ok (X (vplus p q))) -> (length (positions f b) < fuel)%nat -> NoDup ps ->
  forall buffer out, Z.of_nat (length buffer) = windowSize f b -> WF out -> length (rshape out) = length f -> Forall (InDomain (rshape out)) ps ->
  (Partitions lt ordered -> NoThrow conv -> (forall x y e, middle x y <> Throw e) -> exists r, typedLoop lt ordered conv middle fuel n window ext ps buffer out r) /\
  forall r, typedLoop lt ordered conv middle fuel n window ext ps buffer out r ->
    (r = UB /\ exists p, In p ps /\ out_of p UB) \/
    exists out', r = Ok out' /\ WF out' /\ rshape out' = rshape out /\
      (forall p, In p ps -> exists v, rget n out' p = Ok v /\ out_of p (Ok v)) /\
      (forall p, InDomain (rshape out) p -> ~ In p ps -> rget n out' p = rget n out p).
Proof.
  intros Hext Hf. induction ps as [|p ps IH]; intros Hnd buffer out Lb Hwf Lo Hd; [clear Hext|specialize (IH (fun p' q I => Hext p' q (or_intror I)))].
  - split; [intros; eexists; constructor|]. intros r H. inversion H; subst. right. exists out. split; [auto|]. split; [auto|]. split; [auto|]. split; [intros p []|auto].
  - inversion Hnd as [|? ? N1 N2]; subst. inversion Hd as [|? ? Hp Hps]; subst. assert (Lp := InDomain_length _ _ Hp).
    destruct (typed_pixel fuel p buffer ltac:(lia) Lb Hf) as (qs & xs & E1 & _ & E2 & E3 & E4). specialize (E2 ext (fun q => Hext p q (or_introl eq_refl))).
    set (l := neighbors f b X p) in *. assert (Ll : Z.of_nat (length l) = windowSize f b) by apply neighbors_count.
    assert (Oc := fun l' r => median_outcome l l' r (neighbors_some p)).
    assert (Step : forall l' v, typedMedian lt ordered conv middle l l' (Ok v) -> exists out1, rset n out p v = Ok out1 /\
      Z.of_nat (length l') = windowSize f b /\ WF out1 /\ rshape out1 = rshape out /\ rget n out1 p = Ok v /\ out_of p (Ok v) /\
      (forall q, InDomain (rshape out) q -> q <> p -> rget n out1 q = rget n out q)).
    { intros l' v Hm. destruct (Oc l' (Ok v) Hm) as (Pl & M).
      destruct (rset_domain n out p v Hwf Hp) as (out1 & R1 & R2 & R3 & R4 & R5). exists out1. split; [auto|].
      split; [rewrite <- (Permutation_length Pl); auto|]. split; [auto|]. split; [auto|]. split; [auto|]. split; [exact M|auto]. }
    split.
    + intros Pa Nc Nm. destruct (median_possible l Pa (neighbors_some p)) as (l' & r1 & Hm). destruct r1 as [v|e|].
      * destruct (Step l' v Hm) as (out1 & R1 & R2 & R3 & R4 & R5 & R6 & R7).
        destruct (IH N2 l' out1 R2 R3 ltac:(now rewrite R4) ltac:(now rewrite R4)) as (Ex & _). destruct (Ex Pa Nc Nm) as [r Hr].
        exists r. eapply typed_step; eauto; [lia|]. now rewrite E4.
      * destruct (outcome_throw l e Nc Nm). exact (proj2 (Oc l' _ Hm)).
      * exists UB. eapply typed_median; eauto; [lia|]. rewrite E4. exact Hm.
    + intros r H. inversion H as [|? ? ? ? qs' xs' l' v out1 r' F1 F2 F3 F4 F5 F6|? ? ? ? ? F1 F2|? ? ? ? ? ? F1 F2 F3|? ? ? ? ? ? l' F1 F2 F3 F4|? ? ? ? ? ? l' v F1 F2 F3 F4 F5]; subst;
        rewrite E1 in F1; injection F1 as <-; rewrite E2 in F2; try discriminate; injection F2 as <-; try (exfalso; lia); rewrite E4 in F4.
      * destruct (Step l' v F4) as (out1' & R1 & R2 & R3 & R4 & R5 & R6 & R7). rewrite R1 in F5. injection F5 as <-.
        destruct (IH N2 l' out1' R2 R3 ltac:(now rewrite R4) ltac:(now rewrite R4)) as (_ & G). destruct (G r F6) as [(-> & q & Iq & Oq)|(out' & -> & W & S' & P & Q)].
        -- left. split; [reflexivity|]. exists q. split; [right; exact Iq|exact Oq].
        -- right. rewrite R4 in *. exists out'. split; [auto|]. split; [auto|]. split; [auto|]. split.
           ++ intros q [<-|Hq]; [|auto]. exists v. split; [|auto]. rewrite Q; auto.
           ++ intros q Hq Nq. rewrite Q; auto; [apply R7; auto; intros ->; apply Nq; now left|]. intros I. apply Nq. now right.
      * left. split; [reflexivity|]. exists p. split; [left; reflexivity|]. exact (proj2 (Oc l' UB F4)).
      * destruct (Step l' v F4) as (out1' & R1 & _). congruence.
Qed.
End Pixel.

Lemma typed_to {A B} (lt : A -> A -> bool) ordered (conv : A -> res B) middle zero n f b X region out ext : Runnable f b region X ext out ->
  exists enough, forall fuel, (enough <= fuel)%nat ->
  (Partitions lt ordered -> NoThrow conv -> (forall x y e, middle x y <> Throw e) -> exists r, typedApplyTo lt ordered conv middle zero fuel n (mkBox f b) region ext out r) /\
  forall r, typedApplyTo lt ordered conv middle zero fuel n (mkBox f b) region ext out r ->
    (r = UB /\ exists p, InBox region p /\ Outcome lt ordered conv middle (neighbors f b X p) UB) \/
    exists out', r = Ok out' /\ WF out' /\ rshape out' = rshape out /\
      (forall p, InBox region p -> exists v, rget n out' p = Ok v /\ Outcome lt ordered conv middle (neighbors f b X p) (Ok v)) /\
      (forall p, InDomain (rshape out) p -> ~ InBox region p -> rget n out' p = rget n out p).
Proof.
  intros (Hne & Hfb & Hext & Hn & Hd & Hwf & Lo). destruct region as [xf xb]. apply Nonempty_iff in Hn. cbn [bfront bback] in Hn.
  assert (Hxf : xf <> []).
  { assert (H := Hd xf ltac:(now apply NonEmpty_front)). apply InDomain_length in H. intros ->. cbn in H. destruct f; [congruence|]. cbn in Lo. lia. }
  exists (S (Nat.max (length (positions f b)) (length (positions xf xb)))). intros fuel Hfuel.
  assert (Eb : boxForeach fuel (mkBox xf xb) = Some (Ok (positions xf xb))) by (apply boxForeach_positions; auto; lia).
  assert (Ls : Z.of_nat (length (repeat zero (Z.to_nat (boxSize (mkBox f b))))) = windowSize f b).
  { rewrite repeat_length. rewrite boxSize_window by auto. unfold windowSize. assert (P := prod_pos _ (wshape_positive f b Hfb)). lia. }
  destruct (typed_loop lt ordered conv middle n f b X Hne Hfb fuel ext (positions xf xb) ltac:(intros p q Ip Iq; apply Hext; now apply In_positions) ltac:(lia) (positions_NoDup xf xb) _ out Ls Hwf Lo) as (Ex & G).
  { apply Forall_forall. intros p Hp. apply Hd. now apply In_positions. }
  split; [intros Pa Nc Nm; destruct (Ex Pa Nc Nm) as [r Hr]; exists r; econstructor; eauto|]. intros r' H. inversion H as [ps r0 E1 E2]; subst. rewrite Eb in E1. injection E1 as <-.
  destruct (G r' E2) as [(-> & p & Ip & Op)|(out' & -> & W & S' & P & Q)].
  - left. split; [reflexivity|]. exists p. split; [now apply In_positions|exact Op].
  - right. exists out'. split; [auto|]. split; [auto|]. split; [auto|]. split.
    + intros p Hp. apply P. now apply In_positions.
    + intros p Hp Np. apply Q; auto. now rewrite In_positions.
Qed.

(** Values *)
Lemma rank_unique {A} (lt : A -> A -> bool) l k x y : NegativelyTransitive lt l -> RankAt lt l k x -> RankAt lt l k y -> lt x y = false.
Proof.
  intros T (Ix & X1 & X2) (Iy & Y1 & Y2). destruct (lt x y) eqn:E; [exfalso|reflexivity].
  assert (G : Z.of_nat (length l) <= count (fun z => lt x z) l + count (fun z => lt z y) l).
  { clear X1 X2 Y1 Y2. assert (H : forall m, incl m l -> Z.of_nat (length m) <= count (fun z => lt x z) m + count (fun z => lt z y) m).
    { induction m as [|z m IH]; intros I; [unfold count; cbn; lia|]. assert (Iz := I z (or_introl eq_refl)). specialize (IH (fun w h => I w (or_intror h))).
      unfold count in *. cbn [filter length]. destruct (lt x z) eqn:Exz; [|destruct (lt z y) eqn:Ezy; [|rewrite (T x z y Ix Iz Iy Exz Ezy) in E; discriminate]];
      repeat match goal with |- context [if ?c then _ else _] => destruct c end; cbn [length]; lia. }
    apply H, incl_refl. }
  lia.
Qed.

Lemma middle_rank {A} (lt : A -> A -> bool) l x : Z.of_nat (length l) mod 2 = 1 -> MiddleValue lt l x <-> RankAt lt l (Z.of_nat (length l) / 2) x.
Proof. intros M. unfold MiddleValue, RankAt. intuition lia. Qed.

Lemma middle_unique {A} (lt : A -> A -> bool) l x y : Z.of_nat (length l) mod 2 = 1 -> NegativelyTransitive lt l -> MiddleValue lt l x -> MiddleValue lt l y -> lt x y = false.
Proof. intros M T X Y. apply (middle_rank lt l x M) in X. apply (middle_rank lt l y M) in Y. exact (rank_unique lt l _ x y T X Y). Qed.

Lemma count_mono {A} (p q : A -> bool) l : (forall x, In x l -> p x = true -> q x = true) -> count p l <= count q l.
Proof.
  induction l as [|a l IH]; intros H; [reflexivity|]. specialize (IH (fun x i => H x (or_intror i))). specialize (H a (or_introl eq_refl)).
  unfold count in *. cbn [filter]. destruct (p a) eqn:E; destruct (q a); cbn [length]; lia.
Qed.

Lemma count_map {A B} (g : A -> B) p l : count p (map g l) = count (fun x => p (g x)) l.
Proof. induction l as [|a l IH]; [reflexivity|]. unfold count in *. cbn [map filter]. destruct (p (g a)); cbn [length]; lia. Qed.

Lemma middle_convert {A B} (lt : A -> A -> bool) (lt' : B -> B -> bool) g l x : KeepsOrder lt lt' g l -> MiddleValue lt l x -> MiddleValue lt' (map g l) (g x).
Proof.
  intros K (I & L1 & L2). split; [apply in_map; exact I|]. rewrite !count_map, map_length.
  assert (C1 := count_mono (fun y => lt' (g y) (g x)) (fun y => lt y x) l). assert (C2 := count_mono (fun y => lt' (g x) (g y)) (fun y => lt x y) l).
  split.
  - enough (count (fun y => lt' (g y) (g x)) l <= count (fun y => lt y x) l) by lia. apply C1. intros y Iy E. destruct (lt y x) eqn:Ey; [reflexivity|]. rewrite (K y x Iy I Ey) in E. discriminate.
  - enough (count (fun y => lt' (g x) (g y)) l <= count (fun y => lt x y) l) by lia. apply C2. intros y Iy E. destruct (lt x y) eqn:Ey; [reflexivity|]. rewrite (K x y I Iy Ey) in E. discriminate.
Qed.

(** Orders *)
Lemma order_partitions {A} (lt : A -> A -> bool) ordered : StrictWeakOrder lt -> Partitions lt ordered.
Proof. intros O l0 l n _ _ _. exists (isort lt l). split; [apply isort_perm|]. apply (SortedBy_Part lt O), (isort_sorted lt O). Qed.

Lemma double_partitions : Partitions dltb comparable.
Proof.
  intros l0 l n H P _. apply comparable_spec, weak_order in H as [H|H].
  - exists (isort tameLt l). assert (Q := isort_perm tameLt l). split; [exact Q|]. intros i j x y Hi Hj Hx Hy.
    assert (G := SortedBy_Part tameLt tame_order _ n (isort_sorted tameLt tame_order l) i j x y Hi Hj Hx Hy).
    assert (N : forall k z, zget (isort tameLt l) k = Ok z -> z <> nan).
    { intros k z E ->. apply H. apply zget_ok in E as [_ E]. apply nth_error_In in E. apply (Permutation_in _ (Permutation_sym Q)) in E. exact (Permutation_in _ (Permutation_sym P) E). }
    rewrite <- G. symmetry. apply tame_lt; [exact (N _ _ Hy)|exact (N _ _ Hx)].
  - exists l. split; [apply Permutation_refl|]. intros i j x y _ _ Hx Hy. apply dltb_false.
    apply zget_ok in Hx as [_ Hx], Hy as [_ Hy]. apply nth_error_In in Hx, Hy. apply (Permutation_in _ (Permutation_sym P)) in Hx, Hy. apply H; assumption.
Qed.

Lemma double_transitive l : comparable l = true -> NegativelyTransitive dltb l.
Proof. intros H. apply comparable_spec in H as (_ & _ & T). exact T. Qed.

Lemma order_transitive {A} (lt : A -> A -> bool) l : StrictWeakOrder lt -> NegativelyTransitive lt l.
Proof. intros [_ _ T] x y z _ _ _. apply T. Qed.

Lemma computed_throw t z e : WidthModel.computed t z <> Throw e.
Proof. unfold WidthModel.computed. destruct (isigned _); [destruct (fits _ _)|]; discriminate. Qed.
Lemma halfInt_throw t x y e : halfInt t x y <> Throw e.
Proof. unfold halfInt. assert (H := computed_throw t (x + y)). destruct (WidthModel.computed t (x + y)); [discriminate|exfalso; now apply (H e0)|discriminate]. Qed.
Lemma dtruncTo_throw u x e : dtruncTo u x <> Throw e.
Proof. unfold dtruncTo. destruct x; try discriminate. destruct (fits _ _); discriminate. Qed.
Lemma halfTrunc_throw t u x y e : (h <- halfInt t x y ;; dtruncTo u h) <> Throw e.
Proof. assert (H := halfInt_throw t x y). destruct (halfInt t x y); cbn [bind]; [apply dtruncTo_throw|exfalso; now apply (H e0)|discriminate]. Qed.

(** An odd number of neighbors, with an order, and a defined conversion. *)
Lemma odd_outcome {A B} (lt : A -> A -> bool) ordered (conv : A -> res B) middle l r : ordered l = true -> Z.of_nat (length l) mod 2 = 1 ->
  Outcome lt ordered conv middle l r -> exists x, MiddleValue lt l x /\ r = conv x.
Proof. intros O M H. destruct H as [x _ _ H|x y _ M'|M'|O']; [exists x; auto|lia|lia|congruence]. Qed.

Lemma typed_odd_to {A B} (lt : A -> A -> bool) ordered (conv : A -> res B) middle zero n f b X region out ext : Runnable f b region X ext out ->
  windowSize f b mod 2 = 1 -> Partitions lt ordered -> NoThrow conv -> (forall x y e, middle x y <> Throw e) ->
  (forall p, InBox region p -> ordered (neighbors f b X p) = true) ->
  (forall p x, InBox region p -> In x (neighbors f b X p) -> conv x <> UB) ->
  exists enough, forall fuel, (enough <= fuel)%nat ->
  (exists r, typedApplyTo lt ordered conv middle zero fuel n (mkBox f b) region ext out r) /\
  forall r, typedApplyTo lt ordered conv middle zero fuel n (mkBox f b) region ext out r ->
    exists out', r = Ok out' /\ WF out' /\ rshape out' = rshape out /\
      (forall p, InBox region p -> exists x v, MiddleValue lt (neighbors f b X p) x /\ conv x = Ok v /\ rget n out' p = Ok v) /\
      (forall p, InDomain (rshape out) p -> ~ InBox region p -> rget n out' p = rget n out p).
Proof.
  intros R M Pa Nc Nm Ho Hc. destruct (typed_to lt ordered conv middle zero n f b X region out ext R) as (e & H). exists e. intros fuel Hf. destruct (H fuel Hf) as (Ex & G).
  split; [exact (Ex Pa Nc Nm)|]. intros r Hr.
  assert (Lm : forall p, Z.of_nat (length (neighbors f b X p)) mod 2 = 1) by (intros p; rewrite (neighbors_count f b X (proj1 (proj2 R)) p); exact M).
  destruct (G r Hr) as [(_ & p & Ip & Op)|(out' & -> & W & S' & P & Q)].
  - exfalso. destruct (odd_outcome _ _ _ _ _ _ (Ho p Ip) (Lm p) Op) as (x & (I & _) & E). exact (Hc p x Ip I (eq_sym E)).
  - exists out'. split; [reflexivity|]. split; [exact W|]. split; [exact S'|]. split; [|exact Q]. intros p Ip. destruct (P p Ip) as (v & E & O).
    destruct (odd_outcome _ _ _ _ _ _ (Ho p Ip) (Lm p) O) as (x & Mx & Ex'). exists x, v. split; [exact Mx|]. split; [congruence|exact E].
Qed.

(** If the neighbors of some pixel are not ordered, every run is undefined. *)
Lemma unordered_outcome {A B} (lt : A -> A -> bool) ordered (conv : A -> res B) middle l r : ordered l = false -> Outcome lt ordered conv middle l r -> r = UB.
Proof. intros O H. destruct H as [x O'|x y O'|_ _|_]; congruence. Qed.

Lemma typed_unordered_to {A B} (lt : A -> A -> bool) ordered (conv : A -> res B) middle zero n f b X region out ext : Runnable f b region X ext out ->
  Partitions lt ordered -> NoThrow conv -> (forall x y e, middle x y <> Throw e) -> (exists p, InBox region p /\ ordered (neighbors f b X p) = false) ->
  exists enough, forall fuel, (enough <= fuel)%nat ->
  (exists r, typedApplyTo lt ordered conv middle zero fuel n (mkBox f b) region ext out r) /\
  forall r, typedApplyTo lt ordered conv middle zero fuel n (mkBox f b) region ext out r -> r = UB.
Proof.
  intros R Pa Nc Nm (p & Ip & Op). destruct (typed_to lt ordered conv middle zero n f b X region out ext R) as (e & H). exists e. intros fuel Hf. destruct (H fuel Hf) as (Ex & G).
  split; [exact (Ex Pa Nc Nm)|]. intros r Hr. destruct (G r Hr) as [(-> & _)|(out' & -> & _ & _ & P & _)]; [reflexivity|].
  destruct (P p Ip) as (v & _ & O). discriminate (unordered_outcome _ _ _ _ _ _ Op O).
Qed.

(** Constant neighbors *)
Lemma constant_outcome {A B} (lt : A -> A -> bool) ordered (conv : A -> res B) middle c l r : ordered l = true -> Forall (eq c) l -> Outcome lt ordered conv middle l r ->
  r = constantResult conv middle (Z.of_nat (length l)) c.
Proof.
  unfold constantResult.
  intros O F H. rewrite Forall_forall in F. destruct H as [x _ M (I & _)|x y _ M L Ix _ (Iy & _)|M L|O']; [| | |congruence].
  - rewrite (proj2 (Z.eqb_eq _ _) M). now rewrite (F x I).
  - rewrite (proj2 (Z.eqb_neq _ 1)) by lia. rewrite (proj2 (Z.leb_gt _ _)) by lia. now rewrite <- (F x Ix), <- (F y Iy).
  - rewrite (proj2 (Z.eqb_neq _ 1)) by lia. now rewrite (proj2 (Z.leb_le _ _)) by lia.
Qed.

Lemma typed_constant_to {A B} (lt : A -> A -> bool) ordered (conv : A -> res B) middle zero n f b c region out ext : Runnable f b region (fun _ => c) ext out ->
  Partitions lt ordered -> NoThrow conv -> (forall x y e, middle x y <> Throw e) -> (forall k, ordered (repeat c k) = true) ->
  exists enough, forall fuel, (enough <= fuel)%nat ->
  (exists r, typedApplyTo lt ordered conv middle zero fuel n (mkBox f b) region ext out r) /\
  forall r, typedApplyTo lt ordered conv middle zero fuel n (mkBox f b) region ext out r ->
    match constantResult conv middle (windowSize f b) c with
    | Ok v => exists out', r = Ok out' /\ Filled n region out' v
    | _ => r = UB
    end.
Proof.
  intros R Pa Nc Nm Ho. destruct (typed_to lt ordered conv middle zero n f b (fun _ => c) region out ext R) as (e & H). exists e. intros fuel Hf. destruct (H fuel Hf) as (Ex & G).
  split; [exact (Ex Pa Nc Nm)|]. intros r Hr.
  assert (Hl : forall p, neighbors f b (fun _ => c) p = repeat c (length (positions f b))).
  { intros p. unfold neighbors. induction (positions f b) as [|q l IH]; [reflexivity|]. cbn [map length repeat]. now rewrite IH. }
  assert (K : forall p r, Outcome lt ordered conv middle (neighbors f b (fun _ => c) p) r -> r = constantResult conv middle (windowSize f b) c).
  { intros p r' O. rewrite <- (neighbors_count f b (fun _ => c) (proj1 (proj2 R)) p). refine (constant_outcome lt ordered conv middle c _ r' _ _ O); rewrite Hl; [apply Ho|].
    apply Forall_forall. intros x I. symmetry. exact (repeat_spec _ _ _ I). }
  destruct (G r Hr) as [(-> & p & Ip & Op)|(out' & -> & W & S' & P & Q)].
  - rewrite <- (K p UB Op). reflexivity.
  - destruct R as (_ & _ & _ & (p0 & I0) & _). destruct (P p0 I0) as (v & E & O). rewrite <- (K p0 _ O). exists out'. split; [reflexivity|]. intros p Ip.
    destruct (P p Ip) as (w & E' & O'). rewrite E'. rewrite (K p _ O'), (K p0 _ O). reflexivity.
Qed.
