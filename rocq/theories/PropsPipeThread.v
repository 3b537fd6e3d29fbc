(** C112: lazy pipelines used by several threads. *)
From Verif Require Import Res PipelineSpec PipeThreadModel PipeThreadSpec PipeThreadProofs.

(** If all the steps which the requests are about are evaluated already, then there is no data race in any interleaving, nothing is evaluated nor modified,
    and the threads are returned the values of the steps they requested, in order. *)
Theorem C112_read_only : forall (D V : Type) prerequisites (doEvaluate : nat -> D -> D) (doGet : nat -> D -> V) d m calls requests,
  (forall i s t, Requests requests i s -> About prerequisites s t -> In t m) ->
  forall sched g', prun prerequisites doEvaluate doGet (mkShared d m calls (asking requests)) sched = Some g' ->
  ~ racy g' /\ sdata g' = d /\ smap g' = m /\ scalls g' = calls /\
  (Finished g' -> map got (sthreads g') = map (map (fun s => doGet s d)) requests).
Proof. exact @threads_read_only. Qed.
Print Assumptions C112_read_only.
Example C112_read_only_met : let d := exampleEvaluate 1 (exampleEvaluate 0 []) in
  (forall i s t, Requests [[1; 0]; [1]]%nat i s -> About diamond s t -> In t [1; 0]%nat) /\
  option_map (fun g => (map got (sthreads g), scalls g)) (prun diamond exampleEvaluate exampleValue (mkShared d [1; 0] [0; 1] (asking [[1; 0]; [1]]))%nat [0; 1; 0; 1; 1; 0; 0; 1; 0; 1; 1; 0; 0; 0; 0]%nat) =
  Some ([[2; 0]; [2]], [0; 1])%nat.
Proof.
  cbv zeta. split; [|reflexivity].
  assert (N1 : forall t, Needs diamond 1 t -> t = 0%nat).
  { intros t H. inversion H as [? ? H1|? u ? H1 H2]; subst; cbn in H1; destruct H1 as [H1|[]]; [congruence|]. subst. inversion H2 as [? ? H3|? ? ? H3 ?]; subst; destruct H3. }
  assert (N0 : forall t, ~ Needs diamond 0 t) by (intros t H; inversion H as [? ? H3|? ? ? H3 ?]; subst; destruct H3).
  assert (K : forall s t, (s = 0 \/ s = 1)%nat -> About diamond s t -> In t [1; 0]%nat).
  { intros s t [->| ->] [->|H]; cbn [In]; auto; [destruct (N0 t H)|]. rewrite (N1 t H). auto. }
  intros [|[|i]] s t (ss & E & Hs) A; cbn in E; [| |destruct i; discriminate]; injection E as <-; apply (K s t); try exact A; cbn [In] in Hs; intuition congruence.
Qed.

(** Otherwise, if one of the requests of a thread is about a step which is not evaluated, and another thread has a request, whatever it is,
    then there is a data race in some interleaving. *)
Theorem C112_race : forall (D V : Type) prerequisites (doEvaluate : nat -> D -> D) (doGet : nat -> D -> V) rank, Acyclic prerequisites rank ->
  forall d m calls requests i j s t, i <> j -> Requests requests i s -> About prerequisites s t -> ~ In t m -> (exists u, Requests requests j u) ->
  exists sched g', prun prerequisites doEvaluate doGet (mkShared d m calls (asking requests)) sched = Some g' /\ racy g'.
Proof. exact (fun D V pre ev gt rank A => threads_race pre ev gt rank A). Qed.
Print Assumptions C112_race.
Example C112_race_met : Acyclic diamond (fun s => s) /\ Requests [[3]; [0]]%nat 0 3 /\ Requests [[3]; [0]]%nat 1 0 /\ About diamond 3 3.
Proof.
  split; [intros [|[|[|[|s]]]] t Ht; cbn in Ht; lia|]. split; [exists [3]%nat; split; [reflexivity|left; reflexivity]|]. split; [exists [0]%nat; split; [reflexivity|left; reflexivity]|].
  left. reflexivity.
Qed.

(** Even if the accesses to the map were atomic, two threads may evaluate the same step twice. *)
Theorem C112_twice : forall (D V : Type) prerequisites (doEvaluate : nat -> D -> D) (doGet : nat -> D -> V) d m calls s, prerequisites s = [] -> ~ In s m ->
  exists sched g', prun prerequisites doEvaluate doGet (mkShared d m calls (asking [[s]; [s]])) sched = Some g' /\ Finished g' /\ scalls g' = calls ++ [s; s].
Proof. exact @threads_twice. Qed.
Print Assumptions C112_twice.
Example C112_twice_met : diamond 0%nat = [] /\ option_map scalls (prun diamond exampleEvaluate exampleValue (mkShared [] [] [] (asking [[0]; [0]]))%nat [0; 0; 1; 1; 0; 0; 0; 1; 1; 1]%nat) = Some [0; 0]%nat.
Proof. split; reflexivity. Qed.

Theorem C112_refuted : ~ (forall (D V : Type) prerequisites (doEvaluate : nat -> D -> D) (doGet : nat -> D -> V) rank, Acyclic prerequisites rank ->
  forall d requests sched g', prun prerequisites doEvaluate doGet (mkShared d [] [] (asking requests)) sched = Some g' -> ~ racy g' /\ NoDup (scalls g')).
Proof. exact threads_refuted. Qed.
Print Assumptions C112_refuted.
Example C112_refuted_met : option_map scalls (prun diamond exampleEvaluate exampleValue (mkShared [] [] [] (asking [[3]; [0]]))%nat [0; 0; 0; 0; 1; 1; 1; 0; 0; 0; 1; 1]%nat) = Some [0; 0]%nat.
Proof. reflexivity. Qed.

(** Calls of get() which are made one at a time, by any threads, in any order, evaluate each step at most once, after those it needs,
    and only steps which the calls are about; these are evaluated in the end. *)
Theorem C112_serial : forall (D V : Type) prerequisites (doEvaluate : nat -> D -> D) (doGet : nat -> D -> V) rank, Acyclic prerequisites rank ->
  forall g ss g', Serial prerequisites doEvaluate doGet g ss g' -> (forall s t, In s (smap g) -> Needs prerequisites s t -> In t (smap g)) ->
  exists l, scalls g' = scalls g ++ l /\ NoDup l /\ (forall t, In t l -> ~ In t (smap g)) /\ InOrder prerequisites (smap g) l /\
    (forall t, In t (smap g') <-> In t (smap g) \/ In t l) /\
    (forall t, In t l -> exists s, In s ss /\ About prerequisites s t) /\ (forall s t, In s ss -> About prerequisites s t -> In t (smap g')).
Proof. exact (fun D V pre ev gt rank A => serial_made pre ev gt rank A). Qed.
Print Assumptions C112_serial.

(** Each one returns the value of its step. *)
Theorem C112_serial_value : forall (D V : Type) prerequisites (doEvaluate : nat -> D -> D) (doGet : nat -> D -> V) rank, Acyclic prerequisites rank ->
  forall g i s ss vs n g1 vs1, (forall s t, In s (smap g) -> Needs prerequisites s t -> In t (smap g)) ->
  nth_error (sthreads g) i = Some (mkPthread (map (Get true) (s :: ss)) vs) -> prun prerequisites doEvaluate doGet g (repeat i n) = Some g1 ->
  nth_error (sthreads g1) i = Some (mkPthread (map (Get true) ss) vs1) -> vs1 = vs ++ [doGet s (sdata g1)].
Proof. exact (fun D V pre ev gt rank A => serial_value pre ev gt rank A). Qed.
Print Assumptions C112_serial_value.
Example C112_serial_met : exists g', Serial diamond exampleEvaluate exampleValue (mkShared [] [] [] (asking [[3]; [0]]))%nat [0; 3]%nat g' /\
  scalls g' = [0; 1; 2; 3]%nat /\ map got (sthreads g') = [[6]; [0]]%nat.
Proof.
  eexists. split.
  - eapply Serial_call with (i := 1%nat) (ss := []) (n := 5%nat); [reflexivity|vm_compute; reflexivity|reflexivity|].
    eapply Serial_call with (i := 0%nat) (ss := []) (n := 21%nat); [reflexivity|vm_compute; reflexivity|reflexivity|]. apply Serial_nil.
  - split; reflexivity.
Qed.

(** All the interleavings are finite, and can be continued until all the threads have finished. *)
Theorem C112_finite : forall (D V : Type) prerequisites (doEvaluate : nat -> D -> D) (doGet : nat -> D -> V) rank, Acyclic prerequisites rank ->
  forall g, (exists most, forall sched g', prun prerequisites doEvaluate doGet g sched = Some g' -> (length sched <= most)%nat) /\
    exists sched g', prun prerequisites doEvaluate doGet g sched = Some g' /\ Finished g'.
Proof. exact (fun D V pre ev gt rank A => threads_finite pre ev gt rank A). Qed.
Print Assumptions C112_finite.
Example C112_finite_met : option_map (fun g => (scalls g, map todo (sthreads g)))
  (prun diamond exampleEvaluate exampleValue (mkShared [] [] [] (asking [[3]]))%nat (repeat 0 23)%nat) = Some ([0; 1; 2; 3]%nat, [[]]).
Proof. reflexivity. Qed.
