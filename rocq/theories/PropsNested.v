(** C111: lazy pipelines whose steps use the pipeline themselves. *)
From Coq Require Import QArith.
From Verif Require Import Res PipelineModel PipelineSpec NestedModel NestedSpec NestedProofs.
Open Scope Z_scope.

(** Any sequence of calls after a reset, if no step uses itself or resets the pipeline: all the calls end;
    a step begins only after those it needs ended with success, and not again unless it threw;
    only steps which are used are evaluated; the pipeline knows those which ended with success, and their durations. *)
Theorem C111_history : forall (D V : Type) prerequisites (doEvaluate : nat -> D -> @body D V Q) doGet rank,
  NoCycle prerequisites doEvaluate doGet rank -> NeverReset doEvaluate doGet -> forall ss p, nmilli p = [] ->
  exists enough, forall fuel, (enough <= fuel)%nat -> exists p' vs l,
    ngets prerequisites doEvaluate doGet fuel ss p = Some (p', vs) /\ length vs = length ss /\
    nlog p' = nlog p ++ l /\ Retried l /\ Bracketed l /\ Prepared prerequisites l /\
    (forall a s b, l = a ++ Began s :: b -> exists o, In (Ended s o) b) /\
    (forall e, In e l -> exists t s, stepOf e = Some t /\ In s ss /\ UsesAll prerequisites doEvaluate doGet s t) /\
    (forall t, nevaluated p' t = true <-> exists q, In (Ended t (Some q)) l) /\
    (forall t q, In (Ended t (Some q)) l -> nmilliseconds p' t = q) /\
    (forall t, (forall q, ~ In (Ended t (Some q)) l) -> nmilliseconds p' t = (-1)%Q).
Proof. exact (fun D V pre ev gt rank A K => nested_history pre ev gt rank A K). Qed.
Print Assumptions C111_history.
Example C111_history_met : NoCycle examplePrerequisites exampleBody exampleGet exampleRank /\ NeverReset exampleBody exampleGet /\
  option_map (fun r => (snd r, nlog (fst r))) (ngets examplePrerequisites exampleBody exampleGet 5 [3; 2; 3] (mkNpipe 0 [] []))%nat =
  Some ([Some 34; Some 24; Some 34]%nat,
        [Began 0; Ended 0 (Some 1%Q); Began 1; Began 2; Ended 2 None; Ended 1 (Some 2%Q); Began 3; Began 2; Ended 2 (Some 3%Q); Ended 3 (Some 4%Q)]%nat).
Proof. split; [exact example_nocycle|]. split; [exact example_noreset|]. vm_compute. reflexivity. Qed.

(** One more call: it evaluates used steps which were not yet; it returns what doGet returns, and then all the steps which are needed are evaluated,
    or an exception, and then some doEvaluate or doGet threw. *)
Theorem C111_get : forall (D V : Type) prerequisites (doEvaluate : nat -> D -> @body D V Q) doGet rank,
  NoCycle prerequisites doEvaluate doGet rank -> NeverReset doEvaluate doGet ->
  forall ss p0 fuel p vs, nmilli p0 = [] -> ngets prerequisites doEvaluate doGet fuel ss p0 = Some (p, vs) ->
  forall fuel' s p' v, nget prerequisites doEvaluate doGet fuel' s p = Some (p', v) -> exists l, nlog p' = nlog p ++ l /\
    (forall e, In e l -> exists t, stepOf e = Some t /\ UsesAll prerequisites doEvaluate doGet s t /\ nevaluated p t = false) /\
    match v with
    | Some x => (exists d, MayReturn (doGet s d) (ndata p') (Some x)) /\ (forall t, t = s \/ Needs prerequisites s t -> nevaluated p' t = true)
    | None => (exists t, In (Ended t None) l) \/ exists t d d', UsesAll prerequisites doEvaluate doGet s t /\ MayReturn (doGet t d) d' None
    end.
Proof. exact (fun D V pre ev gt rank A K => nested_get pre ev gt rank A K). Qed.
Print Assumptions C111_get.
Example C111_get_met :
  option_map (fun r => (snd r, nlog (fst r))) (ngets examplePrerequisites exampleBody exampleGet 5 [1] (mkNpipe 0 [] []))%nat =
  Some ([Some 13]%nat, [Began 0; Ended 0 (Some 1%Q); Began 1; Began 2; Ended 2 None; Ended 1 (Some 2%Q)]%nat).
Proof. vm_compute. reflexivity. Qed.

(** Whatever steps do, cycles and resets included: the steps known as evaluated are those which succeeded since the last reset, with their latest durations. *)
Theorem C111_duration : forall (D V : Type) prerequisites (doEvaluate : nat -> D -> @body D V Q) doGet fuel ss p p' vs, nmilli p = [] ->
  ngets prerequisites doEvaluate doGet fuel ss p = Some (p', vs) -> exists l, nlog p' = nlog p ++ l /\
  forall t, (nevaluated p' t = true <-> exists q, Latest l t q) /\ forall q, Latest l t q -> nmilliseconds p' t = q.
Proof. exact @nested_durations. Qed.
Print Assumptions C111_duration.
Example C111_duration_met :
  option_map (fun r => (nlog (fst r), nmilli (fst r))) (ngets examplePrerequisites againBody exampleGet 6 [1] (mkNpipe 0 [] []))%nat =
  Some ([Began 0; Ended 0 (Some 0%Q); Began 1; Began 1; Ended 1 (Some 2%Q); Began 3; Ended 3 (Some 3%Q); Ended 1 (Some 9%Q)]%nat, [(0, 0%Q); (1, 9%Q); (3, 3%Q)]%nat) /\
  Latest [Ended 1 (Some 2%Q); Ended 1 (Some 9%Q)]%nat 1 9%Q.
Proof. split; [vm_compute; reflexivity|]. exists [Ended 1%nat (Some 2%Q)], []. split; [reflexivity|]. split; [intros []|intros q' []]. Qed.

(** A call for a step which was evaluated evaluates nothing, if the values of steps are returned without asking for others. *)
Theorem C111_cached : forall (D V : Type) prerequisites (doEvaluate : nat -> D -> @body D V Q) doGet rank,
  NoCycle prerequisites doEvaluate doGet rank -> NeverReset doEvaluate doGet ->
  (forall s d t, ~ MayAsk (doGet s d) t) ->
  forall ss p0 fuel p vs, nmilli p0 = [] -> ngets prerequisites doEvaluate doGet fuel ss p0 = Some (p, vs) ->
  forall fuel' s p' v, nevaluated p s = true -> nget prerequisites doEvaluate doGet fuel' s p = Some (p', v) ->
  nlog p' = nlog p /\ nmilli p' = nmilli p.
Proof. exact (fun D V pre ev gt rank A K => nested_cached pre ev gt rank A K). Qed.
Print Assumptions C111_cached.
Example C111_cached_met : (forall s d t, ~ MayAsk (exampleGet s d) t) /\
  option_map (fun r => (nevaluated (fst r) 1, nevaluated (fst r) 2)) (ngets examplePrerequisites exampleBody exampleGet 5 [1] (mkNpipe 0 [] []))%nat = Some (true, false).
Proof. split; [intros s d t []|]. vm_compute. reflexivity. Qed.

(** Otherwise, it may evaluate others. *)
Theorem C111_cached_refuted : ~ (forall (D V : Type) prerequisites (doEvaluate : nat -> D -> @body D V Q) doGet rank,
  NoCycle prerequisites doEvaluate doGet rank -> NeverReset doEvaluate doGet ->
  forall ss p0 fuel p vs, nmilli p0 = [] -> ngets prerequisites doEvaluate doGet fuel ss p0 = Some (p, vs) ->
  forall fuel' s p' v, nevaluated p s = true -> nget prerequisites doEvaluate doGet fuel' s p = Some (p', v) -> nlog p' = nlog p).
Proof. exact cached_refuted. Qed.
Print Assumptions C111_cached_refuted.
Example C111_cached_refuted_met : NoCycle examplePrerequisites plainBody askingGet exampleRank /\ NeverReset plainBody askingGet /\
  option_map (fun r => (snd r, nlog (fst r))) (ngets examplePrerequisites plainBody askingGet 5 [1; 1] (mkNpipe 0 [] []))%nat =
  Some ([None; Some 24]%nat, [Began 0; Ended 0 (Some 1%Q); Began 1; Ended 1 (Some 1%Q); Began 2; Ended 2 None; Began 2; Ended 2 (Some 1%Q)]%nat).
Proof. split; [exact asking_nocycle|]. split; [exact asking_noreset|]. vm_compute. reflexivity. Qed.

(** Steps which use each other recurse endlessly: no depth of calls is enough. *)
Theorem C111_endless : forall (D V : Type) prerequisites (doEvaluate : nat -> D -> @body D V Q) doGet C, Endless prerequisites doEvaluate C ->
  forall fuel s p, C s -> (forall t, C t -> nevaluated p t = false) -> nget prerequisites doEvaluate doGet fuel s p = None.
Proof. exact @nested_endless. Qed.
Print Assumptions C111_endless.
Example C111_endless_met : Endless examplePrerequisites loopBody (fun s => s = 0 \/ s = 1)%nat.
Proof.
  intros s [->| ->].
  - right. split; [reflexivity|]. intros d. exists d, 1%nat, (fun d v => Return d (Some 1%Q)). split; [reflexivity|right; reflexivity].
  - left. exists 0%nat, []. split; [reflexivity|left; reflexivity].
Qed.

(** So do steps whose values are those of each other, once they are evaluated. *)
Theorem C111_endless_value : forall (D V : Type) prerequisites (doEvaluate : nat -> D -> @body D V Q) doGet C, Endless prerequisites doGet C ->
  forall fuel s p, C s -> (forall t, C t -> nevaluated p t = true) -> nget prerequisites doEvaluate doGet fuel s p = None.
Proof. exact @nested_endless_value. Qed.
Print Assumptions C111_endless_value.
Example C111_endless_value_met : Endless examplePrerequisites loopGet (fun s => s = 2)%nat.
Proof.
  intros s ->. right. split; [reflexivity|]. intros d. exists d, 2%nat, (fun d v => Return d v). split; reflexivity.
Qed.

(** A step which resets the pipeline is then known as evaluated whereas those it needs are not. *)
Theorem C111_refuted : ~ (forall (D V : Type) prerequisites (doEvaluate : nat -> D -> @body D V Q) doGet rank,
  NoCycle prerequisites doEvaluate doGet rank -> forall fuel s p p' x, nmilli p = [] -> nget prerequisites doEvaluate doGet fuel s p = Some (p', Some x) ->
  forall t, Needs prerequisites s t -> nevaluated p' t = true).
Proof. exact nested_refuted. Qed.
Print Assumptions C111_refuted.
Example C111_refuted_met :
  option_map (fun r => (snd r, nlog (fst r), nmilli (fst r))) (ngets examplePrerequisites resetBody exampleGet 5 [1; 1] (mkNpipe 0 [] []))%nat =
  Some ([Some 12; Some 13]%nat,
        [Began 0; Ended 0 (Some 1%Q); Began 1; Cleared; Ended 1 (Some 1%Q); Began 0; Ended 0 (Some 1%Q)]%nat, [(1, 1%Q); (0, 1%Q)]%nat).
Proof. vm_compute. reflexivity. Qed.
