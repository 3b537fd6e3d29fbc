(** Model of the lazy pipelines used by several threads (LitlRun/LitlRun/StepperPipeline.h).
    Each call to get<S>() is cut into its accesses to what threads share: the map of the evaluated steps,
    and the data members which doEvaluate<S>() writes and doGet<S>() reads.
    Simplifications: no exceptions (see [PipeThrowModel]); steps do not use the pipeline (see [NestedModel]);
    the durations are not modelled: the map is a set of steps; doGet<S>() modifies nothing. *)
From Verif Require Import Res.

(** What a thread has to do, in the order of the code. [top]: the value is returned to the user, and not discarded (lines 92, 101, 150). *)
Inductive item :=
| Get (top : bool) (s : nat)      (* get<S>() (StepperPipeline.h: 82-103) *)
| Check (top : bool) (s : nat)    (* if (not evaluated<S>()) (StepperPipeline.h: 182): reads the map *)
| Run (s : nat)                   (* Accessor<S>::evaluate(derived()) (StepperPipeline.h: 184): writes the data of S *)
| Insert (s : nat)                (* m_milliseconds[key<S>()] = ... (StepperPipeline.h: 186): writes the map *)
| Value (top : bool) (s : nat).   (* return Accessor<S>::get(derived()) (StepperPipeline.h: 188): reads the data of S *)

Section Threads.
Context {D V : Type}.
(** S::Prerequisite (StepperPipeline.h: 27-57, 223-243). *)
Variable prerequisites : nat -> list nat.
(** doEvaluate<S>() and doGet<S>() of the derived class (StepperPipeline.h: 163-174). *)
Variable doEvaluate : nat -> D -> D.
Variable doGet : nat -> D -> V.

(** A thread: what it has to do, and the values it was returned (StepperPipeline.h: 82-103). *)
Record pthread := mkPthread { todo : list item; got : list V }.

(** The shared pipeline: the data members of the derived class, the keys of m_milliseconds (StepperPipeline.h: 208),
    as a witness the evaluations until now, and the threads. *)
Record shared := mkShared { sdata : D; smap : list nat; scalls : list nat; sthreads : list pthread }.

(** m_milliseconds.find(key<S>()) != m_milliseconds.end() (StepperPipeline.h: 110). *)
Definition isIn (s : nat) (m : list nat) : bool := existsb (Nat.eqb s) m.

(** The first thing thread [i] has to do (StepperPipeline.h: 82-103, 180-189); None if it has finished. *)
Definition pstep (g : shared) (i : nat) : option shared :=
  match nth_error (sthreads g) i with
  | Some (mkPthread (x :: r) vs) =>
      let continue l vs := replace (sthreads g) i (mkPthread l vs) in
      Some match x with
      | Get top s => mkShared (sdata g) (smap g) (scalls g) (continue (map (Get false) (prerequisites s) ++ Check top s :: r) vs)
      | Check top s =>
          mkShared (sdata g) (smap g) (scalls g)
            (continue (if isIn s (smap g) then Value top s :: r else Run s :: Insert s :: Value top s :: r) vs)
      | Run s => mkShared (doEvaluate s (sdata g)) (smap g) (scalls g ++ [s]) (continue r vs)
      | Insert s => mkShared (sdata g) (s :: smap g) (scalls g) (continue r vs)
      | Value top s => mkShared (sdata g) (smap g) (scalls g) (continue r (if top then vs ++ [doGet s (sdata g)] else vs))
      end
  | _ => None
  end.

(** An interleaving: the threads which take each step (StepperPipeline.h: 82-103, 180-189). *)
Fixpoint prun (g : shared) (schedule : list nat) : option shared :=
  match schedule with
  | [] => Some g
  | i :: schedule' => match pstep g i with Some g' => prun g' schedule' | None => None end
  end.

(** Conflicting accesses ([intro.races]): to the map, one of which inserts; to the data of a step, one of which is its evaluation. *)
Definition clash (x y : item) : bool :=
  match x, y with
  | Insert _, Insert _ | Insert _, Check _ _ | Check _ _, Insert _ => true
  | Run s, Run t | Run s, Value _ t | Value _ s, Run t => Nat.eqb s t
  | _, _ => false
  end.

(** There is a data race, hence undefined behaviour, when two threads are about to make conflicting accesses ([intro.races]). *)
Definition racy (g : shared) : Prop :=
  exists i j x y r r' vs vs', i <> j /\ nth_error (sthreads g) i = Some (mkPthread (x :: r) vs) /\
    nth_error (sthreads g) j = Some (mkPthread (y :: r') vs') /\ clash x y = true.
End Threads.
