(** Specification of threads which create, execute and destroy DFT plans and use their rasters. *)
From Verif Require Import Res AlignedModel AlignedSpec PlanModel PlanSpec PlanThreadModel PlanThreadSpec PlanWorkModel.

(** The program only accesses the addresses in [A], whatever the values read. *)
Inductive WithinSet (A : Z -> Prop) : program -> Prop :=
| inset_done : WithinSet A Done
| inset_load a k : A a -> (forall v, WithinSet A (k v)) -> WithinSet A (Load a k)
| inset_store a v k : A a -> WithinSet A k -> WithinSet A (Store a v k).

(** Threads with programs [ps] which access the sets of addresses [As] do not interfere, from memory [m]: in each interleaving,
    no data race occurs, there are no more accesses than if the programs were executed one by one, the threads can finish, and when they have,
    the bytes of each set are as if its program had been executed alone, and the other bytes are unchanged. *)
Definition IndependentSets (As : list (Z -> Prop)) (ps : list program) (m : contents) : Prop :=
  forall sched s, interleaving (mkPool m ps) sched s ->
    ~ Race s /\ (length sched <= total ps m)%nat /\
    (exists sched' s', interleaving s sched' s' /\ Finished s') /\
    (Finished s ->
      length sched = total ps m /\
      (forall i A p a, nth_error As i = Some A -> nth_error ps i = Some p -> A a -> pmem s a = alone p m a) /\
      (forall a, (forall A, In A As -> ~ A a) -> pmem s a = m a)).

(** The plan of a task, whether FFTW's global variables are accessed, and the bytes which the task may access. *)
Definition planOf (t : task) : fftw := match t with Planning f | Transform f | Rasters f | Destruction f => f end.
Definition Global (t : task) : Prop := match t with Planning _ | Destruction _ => True | Transform _ | Rasters _ => False end.
Definition bytesOf (globals : Z -> Prop) (t : task) (a : Z) : Prop := InArrays (planOf t) a \/ Global t /\ globals a.
Definition bytesOfAll (globals : Z -> Prop) (l : list (task * program)) (a : Z) : Prop := exists t, In t l /\ bytesOf globals (fst t) a.

(** The programs of a thread access what their tasks may access, and its plans are some of those of indices [is], which own their arrays,
    or share the arrays of these, as inverses do. *)
Definition Employs (s : pstate) (globals : Z -> Prop) (is : list nat) (l : list (task * program)) : Prop :=
  Forall (fun t => WithinSet (bytesOf globals (fst t)) (snd t) /\
    exists i f, In i is /\ OwnPlan s i f /\ forall a, InArrays (planOf (fst t)) a -> InArrays f a) l.

(** At most one of the threads creates or destroys plans. *)
Definition OnePlanner (jobs : list (list (task * program))) : Prop :=
  forall i j l l' t t', nth_error jobs i = Some l -> nth_error jobs j = Some l' -> In t l -> In t' l' -> Global (fst t) -> Global (fst t') -> i = j.

(** The global variables are not in the arrays of plans. *)
Definition Elsewhere (s : pstate) (globals : Z -> Prop) : Prop := forall i f a, OwnPlan s i f -> InArrays f a -> ~ globals a.

(** A planner which counts the plans, at address [g]. *)
Definition counting (g : Z) : program := Load g (fun v => Store g (v + 1) Done).
