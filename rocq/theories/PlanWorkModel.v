(** Model of threads which create, execute and destroy DFT plans and use their rasters in turn (LitlTransforms/LitlTransforms/DftPlan.h, DftMemory.h;
    doc/dft.dox: 50-51: "plan instanciation comes with the modification of some global variables and is not thread-safe.
    Plan execution is thread-safe, i.e. several plans can be executed in parallel in different threads").
    As in [PlanThreadModel], what FFTW or the user does in a task is any program which reads and writes bytes, one at a time.
    Simplification: the buffers of the plans which are created are given, as operator new, which allocates them, is thread-safe. *)
From Verif Require Import Res PlanModel PlanThreadModel.

(** What a thread does with a plan, given by its FFTW plan. *)
Inductive task :=
| Planning (f : fftw)      (* createPlan (DftMemory.h: 74-78): FFTW's planner executes trials on the arrays of the plan, and modifies its global variables *)
| Transform (f : fftw)     (* transform() (DftPlan.h: 218-221): FFTW executes the plan *)
| Rasters (f : fftw)       (* in(), out() and normalize() (DftPlan.h: 176-206, 226-230): the user reads and writes the arrays of the plan *)
| Destruction (f : fftw).  (* destroyPlan (DftMemory.h: 83-87): fftw_destroy_plan modifies the global variables *)

(** One program and then the other (DftPlan.h: 218-221). *)
Fixpoint follow (p q : program) : program :=
  match p with
  | Done => q
  | Load a k => Load a (fun v => follow (k v) q)
  | Store a v k => Store a v (follow k q)
  end.

(** The tasks of a thread, in turn, with the programs which perform them (DftPlan.h: 107-122, 218-221). *)
Definition work (l : list (task * program)) : program := fold_right (fun t q => follow (snd t) q) Done l.
