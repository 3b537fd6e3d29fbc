(** Model of the lazy pipelines whose steps use the pipeline themselves (LitlRun/LitlRun/StepperPipeline.h):
    specializations of doEvaluate<S>() and doGet<S>() are members of the derived class (lines 65-69, 163-174), and as such may call get<T>(),
    in order to read the values of other steps, and reset(), which is protected (lines 135-141).
    Other members are those of [PipelineModel]. *)
From Coq Require Import QArith.
From Verif Require Import Res PipelineModel.
Open Scope Z_scope.

(** The body of TDerived::doEvaluate<S>() (StepperPipeline.h: 163-166) or doGet<S>() (171-174), up to its end or to the next use of the pipeline. *)
Inductive body {D V R : Type} : Type :=
| Return (d : D) (o : option R)                         (* the final state and the measured duration, or the value, or None if it throws *)
| Ask (d : D) (t : nat) (k : D -> option V -> body)     (* the state, then get<T>(): k catches exceptions, or not *)
| Clear (d : D) (k : body).                             (* the state, then reset() *)

(** As a witness, what happened until now: beginnings and ends (or None for exceptions) of doEvaluate, calls to reset
    (StepperPipeline.h: 139-141, 184). *)
Inductive event := Began (s : nat) | Ended (s : nat) (o : option Q) | Cleared.

Section Nested.
Context {D V : Type}.
(** S::Prerequisite (StepperPipeline.h: 27-57, 223-243). *)
Variable prerequisites : nat -> list nat.
(** The bodies of doEvaluate<S>(), which start from the state of the derived class (StepperPipeline.h: 163-166). *)
Variable doEvaluate : nat -> D -> @body D V Q.
(** Those of doGet<S>() (StepperPipeline.h: 171-174). *)
Variable doGet : nat -> D -> @body D V V.

(** The data members of the derived class and m_milliseconds (StepperPipeline.h: 208), and the witness. *)
Record npipe := mkNpipe { ndata : D; nmilli : list (nat * Q); nlog : list event }.

(** evaluated (StepperPipeline.h: 108-111). *)
Definition nevaluated (p : npipe) (s : nat) : bool := match find s (nmilli p) with Some _ => true | None => false end.

(** milliseconds<S> (StepperPipeline.h: 117-124). *)
Definition nmilliseconds (p : npipe) (s : nat) : Q := match find s (nmilli p) with Some q => q | None => (-1)%Q end.

(** m_milliseconds[key<S>()] = q (StepperPipeline.h: 186): the value of the key is replaced if there is one. *)
Fixpoint record (s : nat) (q : Q) (m : list (nat * Q)) : list (nat * Q) :=
  match m with [] => [(s, q)] | (t, r) :: m' => if Nat.eqb s t then (s, q) :: m' else (t, r) :: record s q m' end.

(** Run a body (StepperPipeline.h: 184, 188), given what get does: None is endless recursion. *)
Fixpoint runBody {R : Type} (get : nat -> npipe -> option (npipe * option V)) (b : @body D V R) (p : npipe) : option (npipe * option R) :=
  match b with
  | Return d o => Some (mkNpipe d (nmilli p) (nlog p), o)
  | Ask d t k => match get t (mkNpipe d (nmilli p) (nlog p)) with
                 | None => None
                 | Some (p', v) => runBody get (k (ndata p') v) p'
                 end
  | Clear d k => runBody get k (mkNpipe d [] (nlog p ++ [Cleared]))
  end.

(** evaluateGet (StepperPipeline.h: 180-189). *)
Definition nevaluateGet (get : nat -> npipe -> option (npipe * option V)) (s : nat) (p : npipe) : option (npipe * option V) :=
  let value p := runBody get (doGet s (ndata p)) p in
  if nevaluated p s then value p else
  match runBody get (doEvaluate s (ndata p)) (mkNpipe (ndata p) (nmilli p) (nlog p ++ [Began s])) with
  | None => None
  | Some (p', Some q) => value (mkNpipe (ndata p') (record s q (nmilli p')) (nlog p' ++ [Ended s (Some q)]))
  | Some (p', None) => Some (mkNpipe (ndata p') (nmilli p') (nlog p' ++ [Ended s None]), None)
  end.

(** getMultiple (StepperPipeline.h: 147-152). *)
Fixpoint ngetMultiple (get : nat -> npipe -> option (npipe * option V)) (ss : list nat) (p : npipe) : option (npipe * bool) :=
  match ss with
  | [] => Some (p, true)
  | s :: ss' => match get s p with
                | None => None
                | Some (p', None) => Some (p', false)
                | Some (p', Some _) => ngetMultiple get ss' p'
                end
  end.

(** get (StepperPipeline.h: 82-103), the three overloads, with a depth of calls bounded by the fuel. *)
Fixpoint nget (fuel : nat) (s : nat) (p : npipe) : option (npipe * option V) :=
  match fuel with
  | O => None
  | S fuel' => match ngetMultiple (nget fuel') (prerequisites s) p with
               | None => None
               | Some (p', false) => Some (p', None)
               | Some (p', true) => nevaluateGet (nget fuel') s p'
               end
  end.

(** A sequence of calls to get (StepperPipeline.h: 82-103) by a user who catches exceptions. *)
Fixpoint ngets (fuel : nat) (ss : list nat) (p : npipe) : option (npipe * list (option V)) :=
  match ss with
  | [] => Some (p, [])
  | s :: ss' => match nget fuel s p with
                | None => None
                | Some (p', v) => match ngets fuel ss' p' with None => None | Some (p'', vs) => Some (p'', v :: vs) end
                end
  end.
End Nested.
