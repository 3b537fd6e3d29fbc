(** Model of pipelines as objects which are copied, moved, assigned and destroyed (LitlRun/LitlRun/StepperPipeline.h: 75-208): StepperPipeline declares no copy
    or move member, hence has the implicit ones, which copy or move m_milliseconds (line 208); the derived class has its own. *)
From Coq Require Import QArith.
From Verif Require Import Res PipelineModel.
Open Scope Z_scope.

Section Copies.
Context {D V : Type}.
Variable prerequisites : nat -> list nat.
Variable doEvaluate : nat -> D -> D * option Q.
Variable doGet : nat -> D -> D * option V.
(** The data members of the derived class: what the copy members make of them, and what the move members leave in the source. *)
Variable copyData movedData : D -> D.
(** What the move members of std::map leave in the source, which is valid but unspecified according to the C++ standard. *)
Variable leftover : list (nat * Q) -> list (nat * Q).

(** A copy (StepperPipeline.h: 75-208, implicit copy members). The calls to doEvaluate which made the state are part of it. *)
Definition copyPipe (p : @pipe D) : @pipe D := mkPipe (copyData (data p)) (milli p) (calls p).
(** What a move leaves in the source (StepperPipeline.h: 75-208, implicit move members). *)
Definition movedPipe (p : @pipe D) : @pipe D := mkPipe (movedData (data p)) (leftover (milli p)) (calls p).

(** The pipelines of a program, in the order of their creation (None: destroyed), and what is done with them (StepperPipeline.h: 82-103, 139-141
    and implicit members). *)
Inductive pop :=
| PNew (d : D)
| PGet (i s : nat)
| PReset (i : nat)
| PCopy (i : nat)
| PMove (i : nat)
| PCopyAssign (i j : nat)   (* pipeline i = pipeline j *)
| PMoveAssign (i j : nat)   (* pipeline i = std::move(pipeline j) *)
| PDestroy (i : nat).

Definition pobject (os : list (option (@pipe D))) (i : nat) : option (@pipe D) := match nth_error os i with Some o => o | None => None end.

(** One operation (StepperPipeline.h: 75-208): the pipelines and, for get, the rank of the pipeline and the value (None if a step throws). None: the pipeline does not exist, or infinite template instantiation.
    Simplification: assignments of a moved pipeline to itself are left out. *)
Definition pstep (fuel : nat) (os : list (option (@pipe D))) (o : pop) : option (list (option (@pipe D)) * list (nat * option V)) :=
  match o with
  | PNew d => Some (os ++ [Some (mkPipe d [] [])], [])
  | PGet i s =>
      match pobject os i with
      | Some p => match get prerequisites doEvaluate doGet fuel s p with Some (p', v) => Some (replace os i (Some p'), [(i, v)]) | None => None end
      | None => None
      end
  | PReset i => match pobject os i with Some p => Some (replace os i (Some (reset p)), []) | None => None end
  | PCopy i => match pobject os i with Some p => Some (os ++ [Some (copyPipe p)], []) | None => None end
  | PMove i => match pobject os i with Some p => Some (replace os i (Some (movedPipe p)) ++ [Some p], []) | None => None end
  | PCopyAssign i j =>
      match pobject os i, pobject os j with
      | Some _, Some p => Some (replace os i (Some (copyPipe p)), [])
      | _, _ => None
      end
  | PMoveAssign i j =>
      match pobject os i, pobject os j with
      | Some _, Some p => if Nat.eqb i j then None else Some (replace (replace os i (Some p)) j (Some (movedPipe p)), [])
      | _, _ => None
      end
  | PDestroy i => match pobject os i with Some _ => Some (replace os i None, []) | None => None end
  end.

(** A program (StepperPipeline.h: 75-208): the pipelines at the end and the values which were got. *)
Fixpoint prun (fuel : nat) (os : list (option (@pipe D))) (ops : list pop) : option (list (option (@pipe D)) * list (nat * option V)) :=
  match ops with
  | [] => Some (os, [])
  | o :: ops' =>
      match pstep fuel os o with
      | Some (os', vs) => match prun fuel os' ops' with Some (os'', vs') => Some (os'', vs ++ vs') | None => None end
      | None => None
      end
  end.
End Copies.
Arguments pop : clear implicits.
