(** C112: lazy pipelines used by several threads, with exceptions. *)
From Coq Require Import QArith.
From Verif Require Import Res PipelineModel PipelineSpec PipeThreadSpec PipeThrowModel PipeThrowSpec PipeThrowProofs.

(** If all the steps which the requests are about are evaluated already, then there is no data race in any interleaving, nothing is evaluated nor modified,
    and each thread is returned what it would be, exceptions included, if it were alone. *)
Theorem C112_throw_read_only : forall (D V : Type) prerequisites (doEvaluate : nat -> D -> D * option Q) (doGet : nat -> D -> option V) rank, Acyclic prerequisites rank ->
  forall p requests, (forall i s t, Requests requests i s -> About prerequisites s t -> evaluated p t = true) ->
  forall sched g', erun prerequisites doEvaluate doGet (mkEshared p (easking requests)) sched = Some g' ->
  ~ eracy g' /\ epipe g' = p /\
  (EFinished g' -> forall i ss, nth_error requests i = Some ss -> exists fuel t,
    gets prerequisites doEvaluate (readOnly doGet) fuel ss p = Some (p, egot t) /\ nth_error (ethreads g') i = Some t).
Proof. exact (fun D V pre ev gt rank A => throw_read_only pre ev gt rank A). Qed.
Print Assumptions C112_throw_read_only.
Example C112_throw_read_only_met : let p := mkPipe 2%nat [(0%nat, 0%Q); (7%nat, 1%Q)] [] in
  (forall i s t, Requests [[7; 0]; [0]]%nat i s -> About diamond s t -> evaluated p t = true) /\
  option_map (fun g => map egot (ethreads g)) (erun diamond failing throwingValue (mkEshared p (easking [[7; 0]; [0]]))%nat [0; 1; 0; 1; 1; 0; 0; 0; 0]%nat) =
  Some [[None; Some 2]; [Some 2]]%nat.
Proof.
  cbv zeta. split; [|reflexivity].
  assert (N : forall s t, (s = 0 \/ s = 7)%nat -> ~ Needs diamond s t) by (intros s t [->| ->] H; inversion H as [? ? H3|? ? ? H3 ?]; subst; destruct H3).
  intros [|[|i]] s t (ss & E & Hs) A; cbn in E; [| |destruct i; discriminate]; injection E as <-; cbn [In] in Hs;
    (assert (Hs' : (s = 0 \/ s = 7)%nat) by intuition congruence); (destruct A as [->|H]; [|destruct (N s t Hs' H)]); destruct Hs' as [->| ->]; reflexivity.
Qed.

(** Otherwise, if a call evaluates some step, with success or not, then there is a data race in some interleaving of two threads which make it... *)
Theorem C112_throw_same_race : forall (D V : Type) prerequisites (doEvaluate : nat -> D -> D * option Q) (doGet : nat -> D -> option V) fuel p p' v s i j rest rest' vs vs' threads,
  get prerequisites doEvaluate (readOnly doGet) fuel s p = Some (p', v) -> calls p' <> calls p -> i <> j ->
  nth_error threads i = Some (mkEthread (EGet true s :: rest) vs) -> nth_error threads j = Some (mkEthread (EGet true s :: rest') vs') ->
  exists sched g', erun prerequisites doEvaluate doGet (mkEshared p threads) sched = Some g' /\ eracy g'.
Proof. exact @throw_same_race. Qed.
Print Assumptions C112_throw_same_race.
Example C112_throw_same_race_met : option_map (fun r => (calls (fst r), snd r)) (get diamond failing (readOnly throwingValue) 5 2 (mkPipe 2 [(0, 0%Q)] [])%nat) =
  Some ([(2, None)], None)%nat.
Proof. reflexivity. Qed.

(** ... and if it evaluates some step with success, then there is a data race in some interleaving with any other call by another thread. *)
Theorem C112_throw_race : forall (D V : Type) prerequisites (doEvaluate : nat -> D -> D * option Q) (doGet : nat -> D -> option V) rank fuel p p' v s u i j rest rest' vs vs' threads,
  Acyclic prerequisites rank -> get prerequisites doEvaluate (readOnly doGet) fuel s p = Some (p', v) -> milli p' <> milli p -> i <> j ->
  nth_error threads i = Some (mkEthread (EGet true s :: rest) vs) -> nth_error threads j = Some (mkEthread (EGet true u :: rest') vs') ->
  exists sched g', erun prerequisites doEvaluate doGet (mkEshared p threads) sched = Some g' /\ eracy g'.
Proof. exact @throw_any_race. Qed.
Print Assumptions C112_throw_race.
Example C112_throw_race_met : Acyclic diamond (fun s => s) /\
  option_map (fun r => (milli (fst r), snd r)) (get diamond failing (readOnly throwingValue) 5 3 (mkPipe 0 [] [])%nat) = Some ([(0, 0%Q); (1, 1%Q)], None)%nat.
Proof. split; [intros [|[|[|[|s]]]] t Ht; cbn in Ht; lia|reflexivity]. Qed.

(** Calls which are made one at a time, by any threads, in any order, do and return what they would if they were made by a single thread. *)
Theorem C112_throw_serial : forall (D V : Type) prerequisites (doEvaluate : nat -> D -> D * option Q) (doGet : nat -> D -> option V) rank, Acyclic prerequisites rank ->
  forall g l g', ESerial prerequisites doEvaluate doGet g l g' -> exists fuel vs,
  gets prerequisites doEvaluate (readOnly doGet) fuel (map snd l) (epipe g) = Some (epipe g', vs) /\ length vs = length l /\
  forall i t, nth_error (ethreads g) i = Some t -> exists t', nth_error (ethreads g') i = Some t' /\ egot t' = egot t ++ returnedTo i l vs.
Proof. exact (fun D V pre ev gt rank A => serial_gets pre ev gt rank A). Qed.
Print Assumptions C112_throw_serial.
Example C112_throw_serial_met : exists g', ESerial diamond failing throwingValue (mkEshared (mkPipe 0 [] []) (easking [[3; 3]; [2]]))%nat [(0, 3); (1, 2)]%nat g' /\
  map egot (ethreads g') = [[None]; [Some 6]]%nat /\ calls (epipe g') = [(0, Some 0%Q); (1, Some 1%Q); (2, None); (2, Some 2%Q)]%nat.
Proof.
  exists (mkEshared (mkPipe 4 [(0, 0%Q); (1, 1%Q); (2, 2%Q)] [(0, Some 0%Q); (1, Some 1%Q); (2, None); (2, Some 2%Q)]) [mkEthread [EGet true 3] [None]; mkEthread [] [Some 6]])%nat.
  split; [|split; reflexivity].
  eapply ESerial_call with (rest := [EGet true 3%nat]); [reflexivity| |].
  - repeat (eapply Alone_step; [reflexivity|discriminate|vm_compute; reflexivity|]). eapply Alone_end. reflexivity.
  - eapply ESerial_call with (rest := []); [reflexivity| |].
    + repeat (eapply Alone_step; [reflexivity|discriminate|vm_compute; reflexivity|]). eapply Alone_end. reflexivity.
    + match goal with |- ESerial _ _ _ ?g _ ?h => replace h with g; [apply ESerial_nil|reflexivity] end.
Qed.

(** All the interleavings are finite, and can be continued until all the threads have finished. *)
Theorem C112_throw_finite : forall (D V : Type) prerequisites (doEvaluate : nat -> D -> D * option Q) (doGet : nat -> D -> option V) rank, Acyclic prerequisites rank ->
  forall g, (exists most, forall sched g', erun prerequisites doEvaluate doGet g sched = Some g' -> (length sched <= most)%nat) /\
    exists sched g', erun prerequisites doEvaluate doGet g sched = Some g' /\ EFinished g'.
Proof. exact (fun D V pre ev gt rank A => throw_finite pre ev gt rank A). Qed.
Print Assumptions C112_throw_finite.
Example C112_throw_finite_met : option_map (fun g => map egot (ethreads g)) (erun diamond failing throwingValue (mkEshared (mkPipe 0 [] []) (easking [[3]]))%nat (repeat 0 17)%nat) = Some [[None]].
Proof. reflexivity. Qed.
