(** Specification of the calls to FFTW up to the end of the program. *)
From Verif Require Import Res ExitModel.

(** After the calls [l], plan [n] was created and has not been destroyed, nor have all the plans by fftw_cleanup() (FFTW's manual: "all existing plans
    become undefined, and you should not attempt to execute them nor to destroy them"). *)
Definition Usable (l : list call) (n : nat) : Prop :=
  exists l1 l2, l = l1 ++ Create n :: l2 /\ ~ In (Destroy n) l2 /\ ~ In Cleanup l2.

(** Plans are executed and destroyed when they are usable only. *)
Definition Proper (l : list call) : Prop :=
  forall l1 c l2, l = l1 ++ c :: l2 -> match c with Execute n | Destroy n => Usable l1 n | _ => True end.

(** The FFTW plans which actions lose: those of the plans which others are assigned to. *)
Definition loses (p : prog) (a : action) : list nat :=
  match a with
  | AAssign i _ => match nth_error (locals p) i with Some (Some n) => [n] | _ => [] end
  | _ => []
  end.
Fixpoint lost (p : prog) (l : list action) : list nat :=
  match l with [] => [] | a :: l' => loses p a ++ match act p a with Some p' => lost p' l' | None => [] end end.

(** Nothing else remains at the end than the plans of [l0]: each plan which was created was destroyed except these, and fftw_cleanup() was called after the last
    call, once, if any plan was created. *)
Definition CleanBut (l0 : list nat) (l : list call) : Prop :=
  (forall n, In (Create n) l -> (In (Destroy n) l <-> ~ In n l0)) /\
  (l = [] \/ exists l', l = l' ++ [Cleanup] /\ ~ In Cleanup l').

(** Among the objects of static storage duration of a program, in the order of their construction: those constructed before the first plan,
    i.e. before the allocator, hold no plan and make no transform in their destructor; and if no plan was constructed, at most one of them makes a
    transform in its destructor. *)
Definition usesDft (e : entry) : bool := match e with Object _ u => u | Allocator => false end.
Definition Ordered (l : list entry) : Prop :=
  (forall l1 ps u l2, l = l1 ++ Object ps u :: l2 -> In Allocator l2 -> ps = [] /\ u = false) /\
  (~ In Allocator l -> (length (filter usesDft l) <= 1)%nat).

(** The actions which construct a plan. *)
Definition Creates (a : action) : Prop := a = ALocal \/ exists u, a = AStaticPlan u.

(** A plan is constructed before any object of static storage duration which may hold plans or make transforms later. *)
Definition PlanFirst (acs : list action) : Prop :=
  forall l1 u l2, acs = l1 ++ AStatic u :: l2 -> exists a, In a l1 /\ Creates a.
