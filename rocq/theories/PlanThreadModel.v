(** Model of the execution of several DFT plans in parallel (DftPlan.h: 218-221: transform() calls fftw_execute; doc/dft.dox: 50-51:
    "plan execution is thread-safe, i.e. several plans can be executed in parallel in different threads").
    Each thread executes one plan. FFTW is outside the repository: its execution of a plan is any program which reads and writes bytes
    in the memory, one at a time, and whose next access may depend on the values read so far; the arrays it reads and writes are those of
    the FFTW plan (PlanModel.fftw; see [Within] in PlanThreadSpec). Its private temporaries and constants are not modelled. *)
From Verif Require Import Res PlanModel.

(** A program: what fftw_execute has still to do. *)
Inductive program :=
| Done
| Load (a : Z) (k : Z -> program)
| Store (a v : Z) (k : program).

(** The contents of the memory, by address. *)
Definition contents := Z -> Z.
Definition upd (m : contents) (a v : Z) : contents := fun b => if b =? a then v else m b.

(** The memory and the threads; each is in a call to transform() (DftPlan.h: 218-221). *)
Record pool := mkPool { pmem : contents; threads : list program }.

(** Thread [i] performs its next access (inside fftw_execute, DftPlan.h: 219). *)
Definition advance (s : pool) (i : nat) : option pool :=
  match nth_error (threads s) i with
  | Some (Load a k) => Some (mkPool (pmem s) (replace (threads s) i (k (pmem s a))))
  | Some (Store a v k) => Some (mkPool (upd (pmem s) a v) (replace (threads s) i k))
  | _ => None
  end.

(** An interleaving: the threads which perform the successive accesses. *)
Inductive interleaving (s : pool) : list nat -> pool -> Prop :=
| inter_nil : interleaving s [] s
| inter_cons i s1 sched s2 : advance s i = Some s1 -> interleaving s1 sched s2 -> interleaving s (i :: sched) s2.
