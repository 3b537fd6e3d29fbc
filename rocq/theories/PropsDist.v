(** Properties C21 to C24 and C54: order statistics, quantiles, histograms, means.
    [reach] is any sequence of queries; [Sorting lt l s] says that [s] is a sorted arrangement of [l]. *)
From Coq Require Import Permutation Sorted Qabs.
From Verif Require Import Res VecModel TypesModel DistModel DistSpec ContainerSpec ContainerProofs DistProofs.
Open Scope Z_scope.

(** C21. nth(n), after any sequence of queries. *)
Theorem C21_nth : forall A (lt : A -> A -> bool), StrictWeakOrder lt -> forall l s d n,
  reach lt (distMake lt l) d -> Sorting lt l s -> 0 <= n < Z.of_nat (length l) ->
  (exists d' r, nthCall lt d n d' r) /\
  forall d' r, nthCall lt d n d' r ->
    Permutation l (dvalues d') /\ exists v w, r = Ok v /\ zget s n = Ok w /\ Equivalent lt v w.
Proof. exact @nth_spec. Qed.
Print Assumptions C21_nth.

(** Out of range, reading the result of nth(n) is undefined, and nothing changes. *)
Theorem C21_nth_outside : forall A (lt : A -> A -> bool) l d n,
  reach lt (distMake lt l) d -> n < 0 \/ Z.of_nat (length l) <= n ->
  nthCall lt d n d UB /\ forall d' r, nthCall lt d n d' r -> d' = d /\ r = UB.
Proof. exact @nth_out_spec. Qed.
Print Assumptions C21_nth_outside.
Example C21_nth_outside_met : dsorted (distMake Z.ltb [3; 1; 2]) = false /\ Z.of_nat (length [3; 1; 2]) <= 3 /\
  reach Z.ltb (distMake Z.ltb [3; 1; 2]) (distMake Z.ltb [3; 1; 2]).
Proof. split; [reflexivity|]. split; [cbn; lia|]. constructor. Qed.

Theorem C21_sort : forall A (lt : A -> A -> bool), StrictWeakOrder lt -> forall l d d',
  reach lt (distMake lt l) d -> sortCall lt d d' -> Sorting lt l (dvalues d') /\ dsorted d' = true.
Proof. exact @sort_spec. Qed.
Print Assumptions C21_sort.

Theorem C21_min_max : forall A (lt : A -> A -> bool), StrictWeakOrder lt -> forall l s d,
  reach lt (distMake lt l) d -> Sorting lt l s -> l <> [] -> Z.of_nat (length l) < 2 ^ 64 ->
  (forall d' r, minCall lt d d' r -> exists v w, r = Ok v /\ zget s 0 = Ok w /\ Equivalent lt v w) /\
  (forall d' r, maxCall lt d d' r ->
     exists v w, r = Ok v /\ zget s (Z.of_nat (length l) - 1) = Ok w /\ Equivalent lt v w).
Proof. exact @minmax_spec. Qed.
Print Assumptions C21_min_max.

(** The median, if the value of each nth() call is read before the other call is made, or if the data is sorted.
    Missing: the other evaluation orders allowed by C++, for which it fails. *)
Theorem C21_median_partial : forall o l s d d' r,
  reach qltb (distMake qltb l) d -> Sorting qltb l s -> l <> [] -> ReadBefore o \/ dsorted d = true ->
  medianCall o d d' r -> Permutation l (dvalues d') /\ exists v, r = Ok v /\ Median s v.
Proof. exact median_spec. Qed.
Print Assumptions C21_median_partial.

(** Both references returned before any is read: the second call may move the element the first reference denotes. *)
Theorem C21_median_refuted : exists l s d' r, Sorting qltb l s /\ medianCall CallLeftFirst (distMake qltb l) d' r /\
  exists v x y, r = Ok v /\ zget s 1 = Ok x /\ zget s 2 = Ok y /\ length l = 4%nat /\ ~ (v == (x + y) / 2)%Q.
Proof. exact median_unsequenced. Qed.
Print Assumptions C21_median_refuted.

(** The queries are always possible. *)
Theorem C21_possible : forall l d q o,
  reach qltb (distMake qltb l) d -> l <> [] -> (0 <= q)%Q -> (q <= 1)%Q -> exists d' r, quantileCall o d q d' r.
Proof. exact quantile_possible. Qed.
Print Assumptions C21_possible.

Example C21_met : Sorting Z.ltb [3; 1; 2] [1; 2; 3] /\
  reach Z.ltb (distMake Z.ltb [3; 1; 2]) (mkDist [2; 1; 3] false) /\ dsorted (distMake Z.ltb [3; 1; 2]) = false /\
  distMake Z.ltb [1; 2; 3] = mkDist [1; 2; 3] true.
Proof.
  assert (O : StrictWeakOrder Z.ltb) by (split; intros; lia).
  assert (P : Permutation [3; 1; 2] [2; 1; 3]).
  { apply (Permutation_trans (l' := [1; 3; 2])); [apply perm_swap|]. apply (Permutation_trans (l' := [1; 2; 3])); [apply perm_skip, perm_swap|apply perm_swap]. }
  split; [|split; [|split; reflexivity]].
  - apply (Sorting_iff _ O). split; [|repeat constructor]. apply (Permutation_trans P). apply perm_swap.
  - eapply reach_nth; [apply reach_here| |]; [eapply (nth_unsorted _ _ 2)|]; [reflexivity|cbn; lia| |discriminate].
    split; [exact P|]. intros i j x y Hi Hj Hx Hy. pose proof (Lemmas.zget_range _ _ _ Hy) as R. cbn in R.
    assert (j = 2) by lia. subst j. injection Hy as <-. assert (i = 0 \/ i = 1 \/ i = 2) as [->|[->| ->]] by lia; injection Hx as <-; reflexivity.
Qed.

(** C22. The weights of both neighbours are swapped. *)
Theorem C22_quantile_characterised : forall o l s d q d' r,
  reach qltb (distMake qltb l) d -> Sorting qltb l s -> l <> [] -> (0 <= q)%Q -> (q <= 1)%Q ->
  ReadBefore o \/ dsorted d = true -> quantileCall o d q d' r ->
  Permutation l (dvalues d') /\
  exists v k x, r = Ok v /\ (inject_Z k <= rankOf l q)%Q /\ (rankOf l q < inject_Z (k + 1))%Q /\ zget s k = Ok x /\
    ((rankOf l q == inject_Z k)%Q /\ (v == x)%Q \/
     ~ (rankOf l q == inject_Z k)%Q /\ exists y, zget s (k + 1) = Ok y /\
       (v == x * (rankOf l q - inject_Z k) + y * (1 - (rankOf l q - inject_Z k)))%Q).
Proof. exact quantile_characterised. Qed.
Print Assumptions C22_quantile_characterised.

(** Right at integral and half-integral ranks (thus for q = 0, 1/2, 1). Missing: all the other ranks. *)
Theorem C22_quantile_partial : forall o l s d q d' r,
  reach qltb (distMake qltb l) d -> Sorting qltb l s -> l <> [] -> (0 <= q)%Q -> (q <= 1)%Q ->
  ReadBefore o \/ dsorted d = true ->
  (exists k, (2 * rankOf l q == inject_Z k)%Q) ->
  quantileCall o d q d' r -> exists v, r = Ok v /\ ValueAtRank s (rankOf l q) v.
Proof. exact quantile_right. Qed.
Print Assumptions C22_quantile_partial.

Theorem C22_quantile_refuted : exists l s q, Sorting qltb l s /\ (0 <= q)%Q /\ (q <= 1)%Q /\
  dsorted (distMake qltb l) = true /\
  forall o d' r, quantileCall o (distMake qltb l) q d' r -> exists v, r = Ok v /\ ~ ValueAtRank s (rankOf l q) v.
Proof. exact quantile_refuted. Qed.
Print Assumptions C22_quantile_refuted.

(** Outside of [0, 1], but for ranks between -1 and 0: undefined. *)
Theorem C22_outside : forall o l d q d' r, reach qltb (distMake qltb l) d ->
  (rankOf l q <= -1)%Q \/ (0 <= rankOf l q)%Q /\ (inject_Z (Z.of_nat (length l) - 1) < rankOf l q)%Q -> quantileCall o d q d' r -> r = UB.
Proof. exact quantile_outside. Qed.
Print Assumptions C22_outside.
Example C22_outside_met : (rankOf [3; 1; 2]%Q (- (1 # 2)) <= -1)%Q /\ (inject_Z (Z.of_nat (length [3; 1; 2]%Q) - 1) < rankOf [3; 1; 2]%Q (6 # 5))%Q.
Proof. split; [discriminate|reflexivity]. Qed.

Example C22_met : (2 * rankOf [0; 10; 20]%Q (3 # 4) == inject_Z 3)%Q /\ ValueAtRank [0; 10; 20]%Q (3 # 2) 15.
Proof.
  split; [reflexivity|]. exists 1, 10%Q, 20%Q. split; [discriminate|]. split; [discriminate|]. split; [reflexivity|].
  split; [left; reflexivity|reflexivity].
Qed.

(** C23. The histogram, if no value equals the last bound; otherwise it writes out of its result. *)
Theorem C23_histogram_partial : forall A (lt : A -> A -> bool), StrictWeakOrder lt -> forall l bins top d d' r,
  reach lt (distMake lt l) d -> Sorting lt bins bins -> zget bins (Z.of_nat (length bins) - 1) = Ok top ->
  histogramCall lt d bins d' r ->
  (Forall (fun x => ~ Equivalent lt x top) l ->
    exists out, r = Ok out /\ Z.of_nat (length out) = Z.of_nat (length bins) - 1 /\
    forall k lo hi, 0 <= k -> zget bins k = Ok lo -> zget bins (k + 1) = Ok hi ->
      zget out k = Ok (count (fun x => negb (lt x lo) && lt x hi) l)) /\
  (Exists (fun x => Equivalent lt x top) l -> r = UB).
Proof. exact @histogram_spec. Qed.
Print Assumptions C23_histogram_partial.

Theorem C23_histogram_refuted : exists l bins,
  Sorting Z.ltb bins bins /\ histogramCall Z.ltb (distMake Z.ltb l) bins (distMake Z.ltb l) UB.
Proof. exact histogram_refuted. Qed.
Print Assumptions C23_histogram_refuted.

Example C23_met : histogramSorted Z.ltb [-1; 0; 1; 1; 2; 5; 7; 9] [0; 2; 4; 8] = Ok [3; 1; 2] /\
  histogramSorted Z.ltb [-1; 0; 1; 1; 2; 5; 8; 9] [0; 2; 4; 8] = UB.
Proof. split; reflexivity. Qed.

(** C24. The mean of integers is truncated as documented for a non-negative sum; for a negative one, it is positive. *)
Theorem C24_mean_integer_partial : forall l, l <> [] ->
  let s := fold_right Z.add 0 l in let n := Z.of_nat (length l) in
  - 2 ^ 63 <= s < 2 ^ 63 -> n < 2 ^ 63 ->
  (0 <= s -> meanInt l = Ok (Z.quot s n)) /\ (s < 0 -> meanInt l = Ok ((2 ^ 64 + s) / n)).
Proof. exact meanInt_spec. Qed.
Print Assumptions C24_mean_integer_partial.

Theorem C24_mean_integer_refuted : forall l, let s := fold_right Z.add 0 l in
  - 2 ^ 63 <= s < 0 -> Z.of_nat (length l) < 2 ^ 63 -> exists m, meanInt l = Ok m /\ 0 < m.
Proof. exact meanInt_negative. Qed.
Print Assumptions C24_mean_integer_refuted.

Theorem C24_mean_float : forall l, l <> [] -> (meanQ l * inject_Z (Z.of_nat (length l)) == fold_right Qplus 0 l)%Q.
Proof. exact meanQ_spec. Qed.
Print Assumptions C24_mean_float.

Example C24_met : meanInt [1; 2; 4] = Ok 2 /\ meanInt [-2; -4] = Ok 9223372036854775805 /\ (meanQ [1; 2; 4] == 7 # 3)%Q.
Proof. repeat split. Qed.

(** C54. Median absolute deviation, under the same condition as the median. *)
Theorem C54_mad_partial : forall o l s d d' r,
  reach qltb (distMake qltb l) d -> Sorting qltb l s -> l <> [] -> ReadBefore o ->
  madCall o d d' r ->
  Permutation l (dvalues d') /\
  exists m v, Median s m /\ r = Ok v /\ forall t, Sorting qltb (map (fun x => Qabs (x - m)) l) t -> Median t v.
Proof. exact mad_spec. Qed.
Print Assumptions C54_mad_partial.

(** There is an outcome. *)
Theorem C54_possible : forall o l d, reach qltb (distMake qltb l) d -> l <> [] -> ReadBefore o -> exists d' v, madCall o d d' (Ok v).
Proof. exact mad_possible. Qed.
Print Assumptions C54_possible.

(** For the other evaluation orders, the value may be wrong. *)
Theorem C54_order_refuted : exists l s m t d' v,
  Sorting qltb l s /\ Median s m /\ Sorting qltb (map (fun x => Qabs (x - m)) l) t /\
  madCall CallLeftFirst (distMake qltb l) d' (Ok v) /\ ~ Median t v.
Proof. exact mad_unsequenced. Qed.
Print Assumptions C54_order_refuted.

(** Integer data, if the median is an integer... *)
Theorem C54_integer_partial : forall o l s d d' r m,
  reach qltb (distMake qltb l) d -> Sorting qltb l s -> l <> [] -> ReadBefore o ->
  (forall x, In x l -> exists k, (x == inject_Z k)%Q) -> Median s m -> (exists k, (m == inject_Z k)%Q) ->
  madIntCall o d d' r ->
  Permutation l (dvalues d') /\
  exists v, r = Ok v /\ forall t, Sorting qltb (map (fun x => Qabs (x - m)) l) t -> Median t v.
Proof. exact mad_int. Qed.
Print Assumptions C54_integer_partial.
Example C54_integer_met : Sorting qltb [1; 5; 2]%Q [1; 2; 5]%Q /\ Median [1; 2; 5]%Q 2.
Proof.
  split; [|exists 2%Q, 2%Q; repeat split].
  apply (Sorting_iff qltb qltb_swo). split; [apply perm_skip, perm_swap|repeat constructor].
Qed.

(** ... and not otherwise: the deviations are truncated. *)
Theorem C54_integer_refuted : exists l s m t,
  Sorting qltb l s /\ (forall x, In x l -> exists k, x = inject_Z k) /\ Median s m /\
  Sorting qltb (map (fun x => Qabs (x - m)) l) t /\
  forall o d' r, madIntCall o (distMake qltb l) d' r -> exists v, r = Ok v /\ ~ Median t v.
Proof. exact mad_int_refuted. Qed.
Print Assumptions C54_integer_refuted.

Example C54_met : Median [1; 2; 4]%Q 2 /\ Median [0; 1; 2]%Q 1 /\ Median [0; 1]%Q (1 # 2).
Proof.
  split; [|split].
  - exists 2%Q, 2%Q. repeat split.
  - exists 1%Q, 1%Q. repeat split.
  - exists 0%Q, 1%Q. repeat split.
Qed.
