(** Model of the lazy pipelines (LitlRun/LitlRun/StepperPipeline.h).
    Steps are numbered (a number is a type, key<S>() of lines 201-203). Instances of the templates are defined by recursion
    on the prerequisites, with fuel: running out of it (None) is an infinite template instantiation, which does not compile. *)
From Coq Require Import QArith.
From Verif Require Import Res.
Open Scope Z_scope.

Section Pipeline.
(** The state of the derived class (including the clock and anything steps read), and the values steps return. *)
Context {D V : Type}.
(** S::Prerequisite: void is the empty list, any other type than a tuple is a singleton
    (TypeCardinality and prerequisiteCardinality, lines 27-57; PipelineStep, lines 223-243). *)
Variable prerequisites : nat -> list nat.
(** TDerived::doEvaluate<S>(): the new state, and the measured duration, or None if it throws (Accessor::evaluate, lines 163-166).
    Simplification: it does not call get() or reset() itself (see [NestedModel]). *)
Variable doEvaluate : nat -> D -> D * option Q.
(** TDerived::doGet<S>(): the new state, and the value, or None if it throws (Accessor::get, lines 171-174). *)
Variable doGet : nat -> D -> D * option V.

(** The pipeline: the data members of the derived class, m_milliseconds (line 208),
    and, as a witness, the calls to doEvaluate until now with the durations or None for those which threw. *)
Record pipe := mkPipe { data : D; milli : list (nat * Q); calls : list (nat * option Q) }.

(** std::map::find (StepperPipeline.h: 110, 119). *)
Fixpoint find (s : nat) (m : list (nat * Q)) : option Q :=
  match m with [] => None | (t, q) :: m' => if Nat.eqb s t then Some q else find s m' end.

(** evaluated (StepperPipeline.h: 108-111). *)
Definition evaluated (p : pipe) (s : nat) : bool := match find s (milli p) with Some _ => true | None => false end.

(** milliseconds<S> (StepperPipeline.h: 117-124). *)
Definition milliseconds (p : pipe) (s : nat) : Q := match find s (milli p) with Some q => q | None => (-1)%Q end.

(** milliseconds (StepperPipeline.h: 129-133). The order in which durations are summed is that of the keys;
    sums of rationals do not depend on it. *)
Definition totalMilliseconds (p : pipe) : Q := fold_left (fun sum e => (sum + snd e)%Q) (milli p) 0%Q.

(** reset (StepperPipeline.h: 139-141). *)
Definition reset (p : pipe) : pipe := mkPipe (data p) [] (calls p).

(** evaluateGet (StepperPipeline.h: 180-189): a value, or None if doEvaluate or doGet throws. *)
Definition evaluateGet (s : nat) (p : pipe) : pipe * option V :=
  let get p := let '(d, v) := doGet s (data p) in (mkPipe d (milli p) (calls p), v) in
  if evaluated p s then get p else
  match doEvaluate s (data p) with
  | (d, Some q) => get (mkPipe d (milli p ++ [(s, q)]) (calls p ++ [(s, Some q)]))
  | (d, None) => (mkPipe d (milli p) (calls p ++ [(s, None)]), None)
  end.

(** getMultiple (StepperPipeline.h: 147-152): braced initializers are evaluated in order; values are discarded. *)
Fixpoint getMultiple (get : nat -> pipe -> option (pipe * option V)) (ss : list nat) (p : pipe) : option (pipe * bool) :=
  match ss with
  | [] => Some (p, true)
  | s :: ss' => match get s p with
                | None => None
                | Some (p', None) => Some (p', false)
                | Some (p', Some _) => getMultiple get ss' p'
                end
  end.

(** get (StepperPipeline.h: 82-103), the three overloads. *)
Fixpoint get (fuel : nat) (s : nat) (p : pipe) : option (pipe * option V) :=
  match fuel with
  | O => None
  | S fuel' => match getMultiple (get fuel') (prerequisites s) p with
               | None => None
               | Some (p', false) => Some (p', None)
               | Some (p', true) => Some (evaluateGet s p')
               end
  end.

(** A sequence of calls to get (StepperPipeline.h: 82-103) by a user who catches exceptions. *)
Fixpoint gets (fuel : nat) (ss : list nat) (p : pipe) : option (pipe * list (option V)) :=
  match ss with
  | [] => Some (p, [])
  | s :: ss' => match get fuel s p with
                | None => None
                | Some (p', v) => match gets fuel ss' p' with None => None | Some (p'', vs) => Some (p'', v :: vs) end
                end
  end.
End Pipeline.
