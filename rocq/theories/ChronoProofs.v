(** Chronometer. *)
From Coq Require Import QArith Lqa.
From Verif Require Import Res Lemmas ChronoModel ChronoSpec.
Open Scope Z_scope.

Lemma sumZ_app l m : sumZ (l ++ m) = sumZ l + sumZ m.
Proof. induction l as [|x l IH]; cbn [app sumZ]; lia. Qed.

Lemma tic_history u os : forall c, tic (performAll u c os) = lastStart (tic c) os.
Proof.
  unfold performAll. induction os as [|o os IH]; intros c; cbn [fold_left lastStart]; [reflexivity|]. rewrite IH. destruct o; reflexivity.
Qed.

Lemma container_history u os : NoReset os -> forall c,
  container (performAll u c os) = container c ++ increments u (tic c) os /\
  elapsed (performAll u c os) = elapsed c + sumZ (increments u (tic c) os).
Proof.
  unfold performAll. induction os as [|o os IH]; intros N c; cbn [fold_left increments sumZ]; [rewrite app_nil_r; split; [reflexivity|lia]|].
  assert (N' : NoReset os) by (intros x Hx; apply (N x); right; exact Hx). destruct (IH N' (perform u c o)) as [-> ->].
  destruct o as [x|t|t]; cbn [perform cstart cstop fst tic container elapsed sumZ].
  - exfalso. apply (N x). left. reflexivity.
  - split; reflexivity.
  - rewrite <- app_assoc. split; [reflexivity|lia].
Qed.

Lemma perform_app u c a b : performAll u c (a ++ b) = performAll u (performAll u c a) b.
Proof. unfold performAll. apply fold_left_app. Qed.

(** The chronometer after a construction or a reset, whatever happened before *)
Lemma chrono_history u first before offset after : NoReset after ->
  let c := performAll u (cnew first) (before ++ Reset offset :: after) in
  let l := increments u (lastStart 0 before) after in
  container c = l /\ elapsed c = offset + sumZ l /\ ccount c = Z.of_nat (length l).
Proof.
  intros N. cbv zeta. set (c0 := performAll u (cnew first) before).
  assert (S : performAll u (cnew first) (before ++ Reset offset :: after) = performAll u (creset offset c0) after) by (rewrite perform_app; reflexivity).
  rewrite S. destruct (container_history u after N (creset offset c0)) as [C E]. cbn [creset tic container elapsed app] in C, E.
  assert (T : tic c0 = lastStart 0 before) by (unfold c0; rewrite tic_history; reflexivity). rewrite T in C, E.
  unfold ccount. rewrite C. split; [reflexivity|]. split; [exact E|reflexivity].
Qed.

Lemma chrono_new u first after : NoReset after ->
  let c := performAll u (cnew first) after in
  let l := increments u 0 after in
  container c = l /\ elapsed c = first + sumZ l /\ ccount c = Z.of_nat (length l).
Proof.
  intros N. cbv zeta. destruct (container_history u after N (cnew first)) as [C E]. cbn in C, E. unfold ccount. rewrite C. auto.
Qed.

Lemma chrono_running u first history :
  running (performAll u (cnew first) history) = match rev history with Start _ :: _ => true | _ => false end.
Proof.
  destruct history as [|o history] using rev_ind; [reflexivity|]. rewrite rev_app_distr. cbn [rev app]. rewrite perform_app.
  unfold performAll at 1. cbn [fold_left]. destruct o; reflexivity.
Qed.

Lemma chrono_stop u first history now :
  let c := performAll u (cnew first) history in
  let inc := Z.quot (now - lastStart 0 history) u in
  snd (cstop u now c) = inc /\ container (fst (cstop u now c)) = container c ++ [inc] /\ elapsed (fst (cstop u now c)) = elapsed c + inc /\
  running (fst (cstop u now c)) = false /\ clast (fst (cstop u now c)) = Ok inc.
Proof.
  cbv zeta. pose proof (tic_history u history (cnew first)) as T. cbn in T. unfold cstop. cbn [fst snd container elapsed running]. rewrite T.
  repeat split. unfold clast. cbn [container]. rewrite app_length. cbn [length].
  replace (Z.of_nat (length (container (performAll u (cnew first) history)) + 1) - 1) with (Z.of_nat (length (container (performAll u (cnew first) history)))) by lia.
  unfold zget. destruct (Z.ltb_spec (Z.of_nat (length (container (performAll u (cnew first) history)))) 0); [lia|]. rewrite Nat2Z.id.
  rewrite nth_error_app2 by lia. rewrite Nat.sub_diag. reflexivity.
Qed.

Lemma chrono_empty c : container c = [] -> clast c = UB /\ cmin c = UB /\ cmax c = UB /\ cmean c = None /\ cvariance c = None.
Proof. intros E. unfold clast, cmin, cmax, cvariance, cmean, ccount. rewrite E. repeat split. Qed.

Lemma increments_alternate u t times : increments u t (alternate times) = map (fun ab => Z.quot (snd ab - fst ab) u) times.
Proof. revert t. induction times as [|[a b] times IH]; intros t; cbn [alternate increments map fst snd]; [reflexivity|]. f_equal. apply IH. Qed.

Lemma noreset_alternate times : NoReset (alternate times).
Proof. induction times as [|[a b] times IH]; intros o H; cbn in H; [exact H|]. destruct H as [H|[H|H]]; try discriminate. exact (IH o H). Qed.

Lemma chrono_alternate u first before offset times :
  let c := performAll u (cnew first) (before ++ Reset offset :: alternate times) in
  container c = map (fun ab => Z.quot (snd ab - fst ab) u) times /\
  elapsed c = offset + sumZ (map (fun ab => Z.quot (snd ab - fst ab) u) times).
Proof.
  cbv zeta. destruct (chrono_history u first before offset (alternate times) (noreset_alternate times)) as (C & E & _). rewrite increments_alternate in C, E. auto.
Qed.

(** With a monotone clock which starts after its epoch, increments are not negative. *)
Lemma clock_increments u t s os : 0 < u -> s <= t -> Clock t os -> Forall (fun x => 0 <= x) (increments u s os).
Proof.
  intros U. revert s t. induction os as [|[o|x|x] os IH]; intros s t H C; cbn [increments]; [constructor| | |].
  - apply (IH s t H). exact C.
  - destruct C as [C1 C2]. apply (IH x x); [lia|exact C2].
  - destruct C as [C1 C2]. constructor; [apply Z.quot_pos; lia|]. apply (IH s x); [lia|exact C2].
Qed.

(** Truncation loses less than one unit per increment. *)
Lemma quot_accuracy u a b : 0 < u -> a <= b -> 0 <= (b - a) - u * Z.quot (b - a) u < u.
Proof. intros U H. rewrite Z.quot_div_nonneg by lia. pose proof (Z.div_mod (b - a) u ltac:(lia)). pose proof (Z.mod_pos_bound (b - a) u U). lia. Qed.

(** Statistics *)
Lemma fold_sum l : forall a, (fold_left (fun s x => s + inject_Z x) l a == a + inject_Z (sumZ l))%Q.
Proof.
  induction l as [|x l IH]; intros a; cbn [fold_left sumZ]; [change (inject_Z 0) with 0%Q; ring|]. rewrite IH, inject_Z_plus. ring.
Qed.

Lemma chrono_mean c m : cmean c = Some m -> (m * inject_Z (ccount c) == inject_Z (sumZ (container c)))%Q.
Proof.
  unfold cmean. destruct (Z.eqb_spec (ccount c) 0) as [|N]; [discriminate|]. intros [= <-]. rewrite fold_sum. field.
  intros E. apply N. unfold Qeq in E. cbn in E. lia.
Qed.


Lemma fold_squares l : forall a, (fold_left (fun s x => s + inject_Z x * inject_Z x) l a == a + inject_Z (sqsum l))%Q.
Proof.
  induction l as [|x l IH]; intros a; cbn [fold_left sqsum]; [change (inject_Z 0) with 0%Q; ring|]. rewrite IH, inject_Z_plus, inject_Z_mult. ring.
Qed.

Lemma cauchy l : sumZ l * sumZ l <= Z.of_nat (length l) * sqsum l.
Proof.
  induction l as [|x l IH]; cbn [sumZ sqsum length]; [lia|]. rewrite Nat2Z.inj_succ.
  assert (S : 2 * x * sumZ l <= Z.of_nat (length l) * (x * x) + sqsum l).
  { clear IH. induction l as [|y l IH]; cbn [sumZ sqsum length]; [lia|]. rewrite Nat2Z.inj_succ. pose proof (Z.square_nonneg (x - y)). nia. }
  nia.
Qed.

Lemma chrono_variance c v : cvariance c = Some v -> (0 <= v)%Q /\ forall m, cmean c = Some m ->
  ((v + m * m) * inject_Z (ccount c) == inject_Z (sqsum (container c)))%Q.
Proof.
  unfold cvariance. destruct (cmean c) as [m|] eqn:M; [|discriminate]. intros [= <-].
  pose proof (chrono_mean c m M) as HM. unfold cmean in M. destruct (Z.eqb_spec (ccount c) 0) as [|N]; [discriminate|]. clear M.
  assert (P : 0 < ccount c) by (unfold ccount in *; lia).
  assert (PQ : (0 < inject_Z (ccount c))%Q) by (change 0%Q with (inject_Z 0); rewrite <- Zlt_Qlt; exact P).
  assert (NQ : ~ (inject_Z (ccount c) == 0)%Q) by lra. split; [rewrite fold_squares|].
  - assert (C : (inject_Z (sumZ (container c)) * inject_Z (sumZ (container c)) <= inject_Z (ccount c) * inject_Z (sqsum (container c)))%Q)
      by (rewrite <- !inject_Z_mult, <- Zle_Qle; apply cauchy).
    rewrite <- HM in C. set (n := inject_Z (ccount c)) in *. set (q := inject_Z (sqsum (container c))) in *.
    assert (D : (m * m * n <= q)%Q).
    { apply (Qmult_le_r _ _ n PQ). assert ((m * m * n * n == m * n * (m * n))%Q) as -> by ring. assert ((q * n == n * q)%Q) as -> by ring. exact C. }
    apply (Qmult_le_r _ _ n PQ). assert ((((0 + q) / n - m * m) * n == q - m * m * n)%Q) as -> by (field; exact NQ). lra.
  - intros m' [= <-]. rewrite fold_squares. field. exact NQ.
Qed.

Lemma fold_min l : forall x, let m := fold_left (fun m y => if y <? m then y else m) l x in In m (x :: l) /\ Forall (fun y => m <= y) (x :: l).
Proof.
  cbv zeta. induction l as [|y l IH]; intros x; cbn [fold_left]; [split; [left; reflexivity|constructor; [lia|constructor]]|].
  destruct (IH (if y <? x then y else x)) as [I F]. set (m := fold_left _ l _) in *. inversion F as [|? ? F1 F2]; subst. split.
  - destruct I as [I|I]; [|right; right; exact I]. rewrite <- I. destruct (y <? x); [right; left; reflexivity|left; reflexivity].
  - destruct (Z.ltb_spec y x); repeat constructor; try assumption; lia.
Qed.

Lemma fold_max l : forall x, let m := fold_left (fun m y => if m <? y then y else m) l x in In m (x :: l) /\ Forall (fun y => y <= m) (x :: l).
Proof.
  cbv zeta. induction l as [|y l IH]; intros x; cbn [fold_left]; [split; [left; reflexivity|constructor; [lia|constructor]]|].
  destruct (IH (if x <? y then y else x)) as [I F]. set (m := fold_left _ l _) in *. inversion F as [|? ? F1 F2]; subst. split.
  - destruct I as [I|I]; [|right; right; exact I]. rewrite <- I. destruct (x <? y); [right; left; reflexivity|left; reflexivity].
  - destruct (Z.ltb_spec x y); repeat constructor; try assumption; lia.
Qed.

Lemma chrono_extrema c : container c <> [] -> (exists m, cmin c = Ok m /\ In m (container c) /\ Forall (fun y => m <= y) (container c)) /\
  (exists m, cmax c = Ok m /\ In m (container c) /\ Forall (fun y => y <= m) (container c)).
Proof.
  intros N. unfold cmin, cmax. destruct (container c) as [|x l]; [congruence|]. split; eexists; (split; [reflexivity|]).
  - apply fold_min.
  - apply fold_max.
Qed.

(** Stopping twice counts the time from the start twice. *)
Lemma chrono_twice : exists u times, 0 < u /\ elapsed (performAll u (cnew 0) [Start 0; Stop 10; Stop 20]) = times /\ times <> 20.
Proof. exists 1, 30. split; [lia|]. split; [reflexivity|lia]. Qed.
