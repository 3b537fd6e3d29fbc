(** C45 and C46: pipelines and chronometers. *)
From Coq Require Import QArith.
From Verif Require Import Res PipelineModel PipelineSpec PipelineProofs ChronoModel ChronoSpec ChronoProofs.
Open Scope Z_scope.

(** C45. Any sequence of calls to get after a construction or a reset. [l] are the evaluations. *)
Theorem C45_history : forall D V pre (doEvaluate : nat -> D -> D * option Q) (doGet : nat -> D -> D * option V) rank, Acyclic pre rank ->
  forall ss p, milli p = [] ->
  exists enough, forall fuel, (enough <= fuel)%nat -> exists p' vs l, gets pre doEvaluate doGet fuel ss p = Some (p', vs) /\ length vs = length ss /\
    calls p' = calls p ++ l /\ Once l /\ Ordered pre l /\
    (forall t o, In (t, o) l -> exists s, In s ss /\ (t = s \/ Needs pre s t)) /\
    (forall t, evaluated p' t = true <-> exists q, In (t, Some q) l) /\
    (forall t q, In (t, Some q) l -> milliseconds p' t = q) /\
    (forall t, (forall q, ~ In (t, Some q) l) -> milliseconds p' t = (-1)%Q) /\
    (totalMilliseconds p' == duration l)%Q.
Proof. exact @pipeline_history. Qed.
Print Assumptions C45_history.
Example C45_history_met : Acyclic diamond (fun s => s) /\
  exists p, gets diamond failing (fun s d => (d, Some s)) 4 [3; 1; 3; 0]%nat (mkPipe 0%nat [] []) = Some (p, [None; Some 1; Some 3; Some 0]%nat) /\
    calls p = [(0, Some 0%Q); (1, Some 1%Q); (2, None); (2, Some 2%Q); (3, Some 3%Q)]%nat.
Proof.
  split.
  - intros [|[|[|[|s]]]] t H; cbn in H; lia.
  - eexists. split; [vm_compute; reflexivity|reflexivity].
Qed.

(** One more call to get, which succeeds or throws. *)
Theorem C45_get : forall D V pre (doEvaluate : nat -> D -> D * option Q) (doGet : nat -> D -> D * option V) ss p0 fuel p vs,
  milli p0 = [] -> gets pre doEvaluate doGet fuel ss p0 = Some (p, vs) ->
  forall fuel' s p' v, get pre doEvaluate doGet fuel' s p = Some (p', v) -> exists l, calls p' = calls p ++ l /\
    (forall t o, In (t, o) l -> (t = s \/ Needs pre s t) /\ evaluated p t = false) /\
    match v with
    | Some x => (exists d, doGet s d = (data p', Some x)) /\ (forall t o, In (t, o) l -> o <> None) /\
                (forall t, t = s \/ Needs pre s t -> evaluated p' t = true)
    | None => (forall t o, In (t, o) l -> o <> None) \/
              exists l' t, l = l' ++ [(t, None)] /\ (forall t o, In (t, o) l' -> o <> None) /\ evaluated p' t = false /\ forall u, Needs pre t u -> evaluated p' u = true
    end.
Proof. exact @pipeline_get. Qed.
Print Assumptions C45_get.
Example C45_get_met : exists p p', gets diamond failing (fun s d => (d, Some s)) 4 [1]%nat (mkPipe 0%nat [] []) = Some (p, [Some 1]%nat) /\
  get diamond failing (fun s d => (d, Some s)) 4 3%nat p = Some (p', None) /\ evaluated p' 2 = false /\ evaluated p' 1 = true.
Proof. eexists. eexists. split; [vm_compute; reflexivity|]. split; [vm_compute; reflexivity|]. split; reflexivity. Qed.

(** Nothing is evaluated to get a step which already is. *)
Theorem C45_cached : forall D V pre (doEvaluate : nat -> D -> D * option Q) (doGet : nat -> D -> D * option V) ss p0 fuel p vs,
  milli p0 = [] -> gets pre doEvaluate doGet fuel ss p0 = Some (p, vs) ->
  forall fuel' s p' v, evaluated p s = true -> get pre doEvaluate doGet fuel' s p = Some (p', v) -> calls p' = calls p.
Proof. exact @pipeline_cached. Qed.
Print Assumptions C45_cached.
Example C45_cached_met : exists p, gets diamond failing (fun s d => (d, Some s)) 4 [2; 3]%nat (mkPipe 0%nat [] []) = Some (p, [Some 2; Some 3]%nat) /\
  evaluated p 3 = true.
Proof. eexists. split; [vm_compute; reflexivity|reflexivity]. Qed.

(** A reset evaluates nothing and makes the pipeline as new. *)
Theorem C45_reset : forall D (p : @pipe D), milli (reset p) = [] /\ calls (reset p) = calls p /\ data (reset p) = data p /\
  (forall s, evaluated (reset p) s = false) /\ (forall s, milliseconds (reset p) s = (-1)%Q) /\ (totalMilliseconds (reset p) == 0)%Q.
Proof. exact @pipeline_reset. Qed.
Print Assumptions C45_reset.

(** C46. Any history of calls up to the last reset, and after it. *)
Theorem C46_history : forall u first before offset after, NoReset after ->
  let c := performAll u (cnew first) (before ++ Reset offset :: after) in
  let l := increments u (lastStart 0 before) after in
  container c = l /\ elapsed c = offset + sumZ l /\ ccount c = Z.of_nat (length l).
Proof. exact chrono_history. Qed.
Print Assumptions C46_history.
Example C46_history_met : elapsed (performAll 10 (cnew 5) ([Start 1; Stop 2] ++ Reset 7 :: [Start 10; Stop 35; Start 40; Stop 61])) = 11.
Proof. reflexivity. Qed.

(** The same if there is no reset after the construction. *)
Theorem C46_new : forall u first after, NoReset after ->
  let c := performAll u (cnew first) after in
  let l := increments u 0 after in
  container c = l /\ elapsed c = first + sumZ l /\ ccount c = Z.of_nat (length l).
Proof. exact chrono_new. Qed.
Print Assumptions C46_new.
Example C46_new_met : increments 10 0 [Start 10; Stop 35; Start 40; Stop 61] = [2; 2].
Proof. reflexivity. Qed.

Theorem C46_alternate : forall u first before offset times,
  let c := performAll u (cnew first) (before ++ Reset offset :: alternate times) in
  container c = map (fun ab => Z.quot (snd ab - fst ab) u) times /\
  elapsed c = offset + sumZ (map (fun ab => Z.quot (snd ab - fst ab) u) times).
Proof. exact chrono_alternate. Qed.
Print Assumptions C46_alternate.
Example C46_alternate_met : alternate [(10, 35); (40, 61)] = [Start 10; Stop 35; Start 40; Stop 61].
Proof. reflexivity. Qed.

Theorem C46_running : forall u first history,
  running (performAll u (cnew first) history) = match rev history with Start _ :: _ => true | _ => false end.
Proof. exact chrono_running. Qed.
Print Assumptions C46_running.
Example C46_running_met : running (performAll 1 (cnew 0) [Start 1; Stop 2; Start 3]) = true.
Proof. reflexivity. Qed.

(** Stop returns the increment, which becomes the last one. *)
Theorem C46_stop : forall u first history now,
  let c := performAll u (cnew first) history in
  let inc := Z.quot (now - lastStart 0 history) u in
  snd (cstop u now c) = inc /\ container (fst (cstop u now c)) = container c ++ [inc] /\ elapsed (fst (cstop u now c)) = elapsed c + inc /\
  running (fst (cstop u now c)) = false /\ clast (fst (cstop u now c)) = Ok inc.
Proof. exact chrono_stop. Qed.
Print Assumptions C46_stop.
Example C46_stop_met : cstop 10 35 (performAll 10 (cnew 0) [Start 10]) = (mkChrono 10 35 false [2] 2, 2).
Proof. reflexivity. Qed.

(** With a monotone clock, increments are not negative and differ from the exact times by less than one unit. *)
Theorem C46_clock : forall u t s os, 0 < u -> s <= t -> Clock t os -> Forall (fun x => 0 <= x) (increments u s os).
Proof. exact clock_increments. Qed.
Print Assumptions C46_clock.
Example C46_clock_met : Clock 5 [Start 10; Stop 35; Reset 0; Start 40; Stop 61].
Proof. cbn. lia. Qed.

Theorem C46_accuracy : forall u a b, 0 < u -> a <= b -> 0 <= (b - a) - u * Z.quot (b - a) u < u.
Proof. exact quot_accuracy. Qed.
Print Assumptions C46_accuracy.
Example C46_accuracy_met : Z.quot (35 - 10) 10 = 2.
Proof. reflexivity. Qed.

(** Statistics: without increments, the extrema and last increment are undefined. *)
Theorem C46_empty : forall c, container c = [] -> clast c = UB /\ cmin c = UB /\ cmax c = UB /\ cmean c = None /\ cvariance c = None.
Proof. exact chrono_empty. Qed.
Print Assumptions C46_empty.
Example C46_empty_met : container (cnew 3) = [].
Proof. reflexivity. Qed.

Theorem C46_mean : forall c m, cmean c = Some m -> (m * inject_Z (ccount c) == inject_Z (sumZ (container c)))%Q.
Proof. exact chrono_mean. Qed.
Print Assumptions C46_mean.
Theorem C46_variance : forall c v, cvariance c = Some v -> (0 <= v)%Q /\ forall m, cmean c = Some m ->
  ((v + m * m) * inject_Z (ccount c) == inject_Z (sqsum (container c)))%Q.
Proof. exact chrono_variance. Qed.
Print Assumptions C46_variance.
Theorem C46_extrema : forall c, container c <> [] -> (exists m, cmin c = Ok m /\ In m (container c) /\ Forall (fun y => m <= y) (container c)) /\
  (exists m, cmax c = Ok m /\ In m (container c) /\ Forall (fun y => y <= m) (container c)).
Proof. exact chrono_extrema. Qed.
Print Assumptions C46_extrema.
Example C46_statistics_met : let c := performAll 1 (cnew 0) [Start 1; Stop 4; Start 5; Stop 6] in
  (exists m, cmean c = Some m /\ m == 2)%Q /\ (exists v, cvariance c = Some v /\ v == 1)%Q /\ cmin c = Ok 1 /\ cmax c = Ok 3.
Proof. split; [|split; [|split]]; try reflexivity; eexists; split; reflexivity. Qed.
