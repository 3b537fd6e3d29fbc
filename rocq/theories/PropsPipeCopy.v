(** C122: copies and moves of pipelines. [prerequisites], [doEvaluate], [doGet]: the steps; [copyData], [movedData]: what copies make of the data members of the derived class
    and what moves leave in the source; [leftover]: what moves of std::map leave in the source. *)
From Coq Require Import QArith.
From Verif Require Import Res PipelineModel PipeCopyModel PipeCopySpec PipeCopyProofs.
Open Scope Z_scope.

(** C122. Whatever is done with the other pipelines, each one gives the values it would give alone. *)
Theorem C122_alone : forall D V prerequisites doEvaluate (doGet : nat -> D -> D * option V) copyData movedData leftover fuel os ops os' vs k p,
  pobject os k = Some p -> OnlyGets k ops -> prun prerequisites doEvaluate doGet copyData movedData leftover fuel os ops = Some (os', vs) ->
  exists p', gets prerequisites doEvaluate doGet fuel (stepsOf k ops) p = Some (p', valuesOf k vs) /\ pobject os' k = Some p'.
Proof. exact @run_alone. Qed.
Print Assumptions C122_alone.
Example C122_alone_met : let ops := [PGet 0%nat 0%nat; PCopy 0%nat; PReset 1%nat; PGet 1%nat 0%nat; PGet 0%nat 0%nat; PDestroy 1%nat] in
  OnlyGets 0 ops /\ exists os, prun (fun _ => []) doubleEvaluate doubleGet (fun d => d) cleared (fun _ => []) 1 [Some (mkPipe (21, 0) [] [])] ops =
    Some (os, [(0%nat, Some 42); (1%nat, Some 42); (0%nat, Some 42)]).
Proof.
  split; [|eexists; vm_compute; reflexivity].
  intros o I C. cbn [In] in I. repeat (destruct I as [I|I]; [subst o; cbn [Changes] in C; first [discriminate C|contradiction C|eexists; reflexivity]|]). contradiction.
Qed.

(** A copy is the pipeline as it was: neither changes when the other does. *)
Theorem C122_copy_partial : forall D V prerequisites doEvaluate (doGet : nat -> D -> D * option V) copyData movedData leftover fuel os i p ops os' vs,
  Regular copyData -> pobject os i = Some p -> prun prerequisites doEvaluate doGet copyData movedData leftover fuel os (PCopy i :: ops) = Some (os', vs) ->
  (Forall (fun o => ~ Changes (length os) o) ops -> pobject os' (length os) = Some p) /\
  (Forall (fun o => ~ Changes i o) ops -> pobject os' i = Some p).
Proof. exact @copy_same. Qed.
Print Assumptions C122_copy_partial.
Example C122_copy_met : exists os, Regular (fun d : Z * Z => d) /\
  prun (fun _ => []) doubleEvaluate doubleGet (fun d => d) cleared (fun _ => []) 1 [Some (mkPipe (21, 0) [] [])] [PCopy 0%nat; PGet 0%nat 0%nat] = Some (os, [(0%nat, Some 42)]) /\
  pobject os 1 = Some (mkPipe (21, 0) [] []).
Proof. eexists. split; [intros d; reflexivity|]. split; [vm_compute; reflexivity|reflexivity]. Qed.

(** Both give the values which the pipeline would have given, without another evaluation of the steps which were evaluated before. *)
Theorem C122_copy_values_partial : forall D V prerequisites doEvaluate (doGet : nat -> D -> D * option V) copyData movedData leftover fuel os i p ops os' vs,
  Regular copyData -> pobject os i = Some p -> prun prerequisites doEvaluate doGet copyData movedData leftover fuel os (PCopy i :: ops) = Some (os', vs) ->
  forall k, k = i \/ k = length os -> OnlyGets k ops ->
  exists p', gets prerequisites doEvaluate doGet fuel (stepsOf k ops) p = Some (p', valuesOf k vs) /\ pobject os' k = Some p'.
Proof. exact @copy_alone. Qed.
Print Assumptions C122_copy_values_partial.
Example C122_copy_values_met : exists os, prun (fun _ => []) doubleEvaluate doubleGet (fun d => d) cleared (fun _ => []) 1 [] [PNew (21, 0); PGet 0%nat 0%nat; PCopy 0%nat; PGet 1%nat 0%nat] =
    Some (os, [(0%nat, Some 42); (1%nat, Some 42)]) /\
  pobject os 1 = Some (mkPipe (21, 42) [(0%nat, 1%Q)] [(0%nat, Some 1%Q)]).
Proof. eexists. split; [vm_compute; reflexivity|reflexivity]. Qed.

(** So is it of assignments, to oneself included. *)
Theorem C122_assign_partial : forall D V prerequisites doEvaluate (doGet : nat -> D -> D * option V) copyData movedData leftover fuel os i j p ops os' vs,
  Regular copyData -> pobject os j = Some p -> prun prerequisites doEvaluate doGet copyData movedData leftover fuel os (PCopyAssign i j :: ops) = Some (os', vs) ->
  (Forall (fun o => ~ Changes i o) ops -> pobject os' i = Some p) /\
  (Forall (fun o => ~ Changes j o) ops -> pobject os' j = Some p).
Proof. exact @assign_same. Qed.
Print Assumptions C122_assign_partial.
Example C122_assign_met : exists os vs, prun (fun _ => []) doubleEvaluate doubleGet (fun d => d) cleared (fun _ => []) 1 [] [PNew (21, 0); PNew (4, 0); PGet 0%nat 0%nat; PCopyAssign 1%nat 0%nat; PGet 1%nat 0%nat] =
    Some (os, vs) /\ vs = [(0%nat, Some 42); (1%nat, Some 42)].
Proof. do 2 eexists. split; [vm_compute; reflexivity|reflexivity]. Qed.

(** The destination of a move is the pipeline as it was. *)
Theorem C122_move : forall D V prerequisites doEvaluate (doGet : nat -> D -> D * option V) copyData movedData leftover fuel os i p ops os' vs,
  pobject os i = Some p -> prun prerequisites doEvaluate doGet copyData movedData leftover fuel os (PMove i :: ops) = Some (os', vs) ->
  (Forall (fun o => ~ Changes (length os) o) ops -> pobject os' (length os) = Some p) /\
  (Forall (fun o => ~ Changes i o) ops -> pobject os' i = Some (movedPipe movedData leftover p)).
Proof. exact @move_same. Qed.
Print Assumptions C122_move.
Example C122_move_met : exists os, prun (fun _ => []) doubleEvaluate doubleGet (fun d => d) cleared (fun _ => []) 1 [] [PNew (21, 0); PGet 0%nat 0%nat; PMove 0%nat; PGet 1%nat 0%nat] =
    Some (os, [(0%nat, Some 42); (1%nat, Some 42)]) /\
  pobject os 1 = Some (mkPipe (21, 42) [(0%nat, 1%Q)] [(0%nat, Some 1%Q)]).
Proof. eexists. split; [vm_compute; reflexivity|reflexivity]. Qed.

Theorem C122_move_assign : forall D V prerequisites doEvaluate (doGet : nat -> D -> D * option V) copyData movedData leftover fuel os i j p ops os' vs,
  pobject os j = Some p -> prun prerequisites doEvaluate doGet copyData movedData leftover fuel os (PMoveAssign i j :: ops) = Some (os', vs) ->
  (Forall (fun o => ~ Changes i o) ops -> pobject os' i = Some p) /\
  (Forall (fun o => ~ Changes j o) ops -> pobject os' j = Some (movedPipe movedData leftover p)).
Proof. exact @move_assign_same. Qed.
Print Assumptions C122_move_assign.
Example C122_move_assign_met : exists os, prun (fun _ => []) doubleEvaluate doubleGet (fun d => d) cleared (fun _ => []) 1 [] [PNew (21, 0); PNew (4, 0); PGet 0%nat 0%nat; PMoveAssign 1%nat 0%nat; PGet 1%nat 0%nat] =
  Some (os, [(0%nat, Some 42); (1%nat, Some 42)]).
Proof. eexists. vm_compute. reflexivity. Qed.

(** If moves leave std::map empty, as they do in usual libraries, the source has no evaluated step, and starts again from the data which are left. *)
Theorem C122_source_partial : forall D movedData leftover (p : @pipe D), leftover (milli p) = [] ->
  (forall s, evaluated (movedPipe movedData leftover p) s = false /\ milliseconds (movedPipe movedData leftover p) s = (-1)%Q) /\
  totalMilliseconds (movedPipe movedData leftover p) = 0%Q /\ data (movedPipe movedData leftover p) = movedData (data p).
Proof. exact @moved_evaluated. Qed.
Print Assumptions C122_source_partial.
Example C122_source_met : (fun _ : list (nat * Q) => @nil (nat * Q)) (milli (mkPipe (21, 42) [(0%nat, 1%Q)] [(0%nat, Some 1%Q)])) = [] /\
  evaluated (mkPipe (21, 42) [(0%nat, 1%Q)] [(0%nat, Some 1%Q)]) 0 = true.
Proof. split; reflexivity. Qed.

(** The C++ standard does not require it: the source may take values which were moved away for evaluated ones. *)
Theorem C122_source_refuted : exists os,
  prun (fun _ => []) doubleEvaluate doubleGet (fun d => d) cleared (fun m => m) 1 [] [PNew (21, 0); PGet 0 0; PMove 0; PGet 1 0; PGet 0 0] = Some (os, [(0%nat, Some 42); (1%nat, Some 42); (0%nat, Some 0)]) /\
  exists p, pobject os 0 = Some p /\ evaluated p 0 = true /\ calls p = [(0%nat, Some 1%Q)].
Proof. exact moved_stale. Qed.
Print Assumptions C122_source_refuted.

(** Nor do copies evaluate again the steps whose values the copy constructor of the derived class does not copy. *)
Theorem C122_copy_refuted : exists os,
  prun (fun _ => []) doubleEvaluate doubleGet cleared (fun d => d) (fun m => m) 1 [] [PNew (21, 0); PGet 0 0; PCopy 0; PGet 1 0] = Some (os, [(0%nat, Some 42); (1%nat, Some 0)]) /\
  exists p, pobject os 1 = Some p /\ evaluated p 0 = true.
Proof. exact copy_irregular. Qed.
Print Assumptions C122_copy_refuted.
