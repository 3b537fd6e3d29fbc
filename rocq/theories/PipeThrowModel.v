(** Model of the lazy pipelines used by several threads, with exceptions (LitlRun/LitlRun/StepperPipeline.h).
    As in [PipeThreadModel], each call to get<S>() is cut into its accesses to what threads share; here, doEvaluate<S>() and doGet<S>() may throw,
    which ends the call the user made; the user catches exceptions and makes the next call.
    Simplifications: steps do not use the pipeline (see [NestedModel]); doGet<S>() modifies nothing. *)
From Coq Require Import QArith.
From Verif Require Import Res PipelineModel NestedModel.

(** What a thread has to do for each pending call to get. [top]: the call was made by the user, and not by get itself (lines 92, 101, 150). *)
Inductive eitem :=
| EGet (top : bool) (s : nat)                 (* get<S>() (StepperPipeline.h: 82-103) *)
| ECheck (top : bool) (s : nat)               (* if (not evaluated<S>()) (StepperPipeline.h: 182): reads the map *)
| ERun (top : bool) (s : nat)                 (* Accessor<S>::evaluate(derived()) (StepperPipeline.h: 183-185): writes the data of S *)
| EInsert (top : bool) (s : nat) (q : Q)      (* m_milliseconds[key<S>()] = ... (StepperPipeline.h: 186): writes the map *)
| EValue (top : bool) (s : nat).              (* return Accessor<S>::get(derived()) (StepperPipeline.h: 188): reads the data of S *)

(** Made by the user (StepperPipeline.h: 82-103). *)
Definition isTop (x : eitem) : bool :=
  match x with EGet top _ | ECheck top _ | ERun top _ | EInsert top _ _ | EValue top _ => top end.

(** An exception thrown by a call made by get itself goes through the pending calls up to the one made by the user (StepperPipeline.h: 82-103, 147-152). *)
Fixpoint unwind (l : list eitem) : list eitem :=
  match l with [] => [] | x :: l' => if isTop x then l' else unwind l' end.

Section Threads.
Context {D V : Type}.
(** S::Prerequisite (StepperPipeline.h: 27-57, 223-243). *)
Variable prerequisites : nat -> list nat.
(** doEvaluate<S>() with the measured duration or None if it throws, and doGet<S>() with None if it throws (StepperPipeline.h: 163-174). *)
Variable doEvaluate : nat -> D -> D * option Q.
Variable doGet : nat -> D -> option V.

(** A thread: what it has to do, and what its calls returned, or None for exceptions (StepperPipeline.h: 82-103). *)
Record ethread := mkEthread { etodo : list eitem; egot : list (option V) }.

(** The shared pipeline (StepperPipeline.h: 208) and the threads. *)
Record eshared := mkEshared { epipe : @pipe D; ethreads : list ethread }.

(** The first thing thread [i] has to do (StepperPipeline.h: 82-103, 180-189); None if it has finished. *)
Definition estep (g : eshared) (i : nat) : option eshared :=
  match nth_error (ethreads g) i with
  | Some (mkEthread (x :: r) vs) =>
      let p := epipe g in
      let continue p l vs := mkEshared p (replace (ethreads g) i (mkEthread l vs)) in
      let throw (p : pipe) := continue p (unwind (x :: r)) (vs ++ [None]) in
      Some match x with
      | EGet top s => continue p (map (EGet false) (prerequisites s) ++ ECheck top s :: r) vs
      | ECheck top s => continue p ((if evaluated p s then EValue top s else ERun top s) :: r) vs
      | ERun top s =>
          match doEvaluate s (data p) with
          | (d, Some q) => continue (mkPipe d (milli p) (calls p ++ [(s, Some q)])) (EInsert top s q :: r) vs
          | (d, None) => throw (mkPipe d (milli p) (calls p ++ [(s, None)]))
          end
      | EInsert top s q => continue (mkPipe (data p) (record s q (milli p)) (calls p)) (EValue top s :: r) vs
      | EValue top s =>
          match doGet s (data p) with
          | Some v => continue p r (if top then vs ++ [Some v] else vs)
          | None => throw p
          end
      end
  | _ => None
  end.

(** An interleaving: the threads which take each step (StepperPipeline.h: 82-103, 180-189). *)
Fixpoint erun (g : eshared) (schedule : list nat) : option eshared :=
  match schedule with
  | [] => Some g
  | i :: schedule' => match estep g i with Some g' => erun g' schedule' | None => None end
  end.

(** Conflicting accesses ([intro.races]): to the map, one of which inserts; to the data of a step, one of which is its evaluation. *)
Definition eclash (x y : eitem) : bool :=
  match x, y with
  | EInsert _ _ _, EInsert _ _ _ | EInsert _ _ _, ECheck _ _ | ECheck _ _, EInsert _ _ _ => true
  | ERun _ s, ERun _ t | ERun _ s, EValue _ t | EValue _ s, ERun _ t => Nat.eqb s t
  | _, _ => false
  end.

(** There is a data race, hence undefined behaviour, when two threads are about to make conflicting accesses ([intro.races]). *)
Definition eracy (g : eshared) : Prop :=
  exists i j x y r r' vs vs', i <> j /\ nth_error (ethreads g) i = Some (mkEthread (x :: r) vs) /\
    nth_error (ethreads g) j = Some (mkEthread (y :: r') vs') /\ eclash x y = true.
End Threads.
