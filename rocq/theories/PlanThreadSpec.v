(** Specification of plans executed in parallel. *)
From Verif Require Import Res AlignedModel AlignedSpec PlanModel PlanSpec PlanThreadModel.

(** Address [a] is in the input or in the output of the FFTW plan. *)
Definition InArrays (f : fftw) (a : Z) : Prop := fwIn f <= a < fwIn f + fwInBytes f \/ fwOut f <= a < fwOut f + fwOutBytes f.

(** The program only accesses the input and the output of the FFTW plan, whatever the values read. *)
Inductive Within (f : fftw) : program -> Prop :=
| within_done : Within f Done
| within_load a k : InArrays f a -> (forall v, Within f (k v)) -> Within f (Load a k)
| within_store a v k : InArrays f a -> Within f k -> Within f (Store a v k).

(** No byte is common to the arrays of both FFTW plans. *)
Definition Apart (f g : fftw) : Prop := forall a, InArrays f a -> ~ InArrays g a.

(** The next access of the program: address, and whether it is a write. *)
Definition next (p : program) : option (Z * bool) :=
  match p with Done => None | Load a _ => Some (a, false) | Store a _ _ => Some (a, true) end.

(** A data race: the next accesses of two threads are to the same byte, and one of them is a write. *)
Definition Race (s : pool) : Prop :=
  exists i j p q a w w', i <> j /\ nth_error (threads s) i = Some p /\ nth_error (threads s) j = Some q /\
    next p = Some (a, w) /\ next q = Some (a, w') /\ w || w' = true.

Definition Finished (s : pool) : Prop := Forall (fun p => p = Done) (threads s).

(** The program executed alone: the memory it leaves, and its number of accesses. *)
Fixpoint alone (p : program) (m : contents) : contents :=
  match p with Done => m | Load a k => alone (k (m a)) m | Store a v k => alone k (upd m a v) end.
Fixpoint accesses (p : program) (m : contents) : nat :=
  match p with Done => 0%nat | Load a k => S (accesses (k (m a)) m) | Store a v k => S (accesses k (upd m a v)) end.
Definition total (ps : list program) (m : contents) : nat := fold_right (fun p n => (accesses p m + n)%nat) 0%nat ps.

(** The threads which execute the plans [fs] with the programs [ps] do not interfere, from memory [m]: in each interleaving,
    no data race occurs, there are no more accesses than if the plans were executed one by one, the threads can finish, and when they have,
    the arrays of each plan are as if it had been executed alone, and the other bytes are unchanged. *)
Definition Independent (fs : list fftw) (ps : list program) (m : contents) : Prop :=
  forall sched s, interleaving (mkPool m ps) sched s ->
    ~ Race s /\ (length sched <= total ps m)%nat /\
    (exists sched' s', interleaving s sched' s' /\ Finished s') /\
    (Finished s ->
      length sched = total ps m /\
      (forall i f p a, nth_error fs i = Some f -> nth_error ps i = Some p -> InArrays f a -> pmem s a = alone p m a) /\
      (forall a, (forall f, In f fs -> ~ InArrays f a) -> pmem s a = m a)).

(** Plan [i] is in scope, has a shape which fits in memory, holds FFTW plan [f], and owns its input and its output. *)
Definition OwnPlan (s : pstate) (i : nat) (f : fftw) : Prop :=
  exists p n bi bo, planAt s i p /\ PlanShape (dshape p) /\ dhandle p = Handle n /\ nth_error (fftws s) n = Some (Some f) /\
    alive (mem s) (din p) bi /\ owns bi = true /\ alive (mem s) (dout p) bo /\ owns bo = true.

(** The accesses of a program, if they do not depend on the values read: address, and whether it is a write. *)
Inductive Performs : program -> list (Z * bool) -> Prop :=
| performs_done : Performs Done []
| performs_load a k l : (forall v, Performs (k v) l) -> Performs (Load a k) ((a, false) :: l)
| performs_store a v k l : Performs k l -> Performs (Store a v k) ((a, true) :: l).

(** A program which reads the first byte of the input of the plan and writes it to the first byte of its output. *)
Definition firstByte (f : fftw) : program := Load (fwIn f) (fun v => Store (fwOut f) v Done).
