(** Model of the calls a program makes to FFTW up to its end (LitlTransforms/LitlTransforms/DftMemory.h, DftPlan.h): the singleton FftwAllocator
    calls fftw_cleanup() when it is destroyed, with the other objects of static storage duration, after main() or std::exit().
    Simplifications: FFTW's planner succeeds (it otherwise gives no FFTW plan), and each DftPlan is told by its FFTW plan (see PlanModel for
    the buffers). *)
From Verif Require Import Res.

(** The calls to FFTW: plans are numbered in the order of their creation. *)
Inductive call := Create (n : nat) | Execute (n : nat) | Destroy (n : nat) | Cleanup.

(** An object of static storage duration: the FftwAllocator (DftMemory.h: 53-56), or an object of the user which holds plans -- a DftPlan, an optional,
    a vector or a class with such members -- and whose destructor makes a transform if [uses]. *)
Inductive entry := Allocator | Object (plans : list nat) (uses : bool).

(** The objects of static storage duration in the order of their construction, the plans of the objects of automatic storage duration,
    the innermost first (None: moved or destroyed), the number of plans created, and the calls to FFTW. *)
Record prog := mkProg { statics : list entry; locals : list (option nat); made : nat; calls : list call }.
Definition begin : prog := mkProg [] [] 0 [].

Definition isAllocator (e : entry) : bool := match e with Allocator => true | _ => false end.

(** instantiate() (DftMemory.h: 53-56): the allocator is constructed by the first call. *)
Definition instantiate (l : list entry) : list entry := if existsb isAllocator l then l else l ++ [Allocator].

(** The FFTW plan of a plan of automatic storage duration, if any (DftPlan.h: 251). *)
Definition localPlans (l : list (option nat)) : list nat := flat_map (fun o => match o with Some n => [n] | None => [] end) l.
(** Those of an object of static storage duration (DftPlan.h: 251). *)
Definition staticPlans (l : list entry) : list nat := flat_map (fun e => match e with Object ps _ => ps | Allocator => [] end) l.

(** What the program does until its end. *)
Inductive action :=
| AStatic (uses : bool)       (* an object of static storage duration, without plan yet *)
| AStaticPlan (uses : bool)   (* a plan of static storage duration, or an object with a plan as a member *)
| ALocal                      (* a plan of automatic storage duration *)
| AMove (i k : nat)           (* plan i of automatic storage duration is moved to static object k *)
| AAssign (i j : nat)         (* plan j of automatic storage duration is moved to plan i by assignment *)
| ATransform (n : nat)        (* transform() of the plan in scope which holds FFTW plan n *)
| AEndLocal                   (* end of the scope of the innermost plan of automatic storage duration *)
| AClear (k : nat).           (* static object k destroys its plans *)

(** One action; None if the objects it applies to do not exist. Construction and destruction of plans: DftPlan.h: 107-109, 120-122, and
    createPlan and destroyPlan, DftMemory.h: 74-87; moves: DftPlan.h: 112 -- assignment deletes the pointer to the FFTW plan of the left-hand side, and does not destroy this FFTW plan
    (DftMemory.h: 23), and assignments of plans to themselves are not considered; transform(): DftPlan.h: 218-221. *)
Definition act (p : prog) (a : action) : option prog :=
  match a with
  | AStatic u => Some (mkProg (statics p ++ [Object [] u]) (locals p) (made p) (calls p))
  | AStaticPlan u => Some (mkProg (instantiate (statics p) ++ [Object [made p] u]) (locals p) (S (made p)) (calls p ++ [Create (made p)]))
  | ALocal => Some (mkProg (instantiate (statics p)) (Some (made p) :: locals p) (S (made p)) (calls p ++ [Create (made p)]))
  | AMove i k =>
      match nth_error (locals p) i, nth_error (statics p) k with
      | Some (Some n), Some (Object ps u) =>
          Some (mkProg (replace (statics p) k (Object (ps ++ [n]) u)) (replace (locals p) i None) (made p) (calls p))
      | _, _ => None
      end
  | AAssign i j =>
      match nth_error (locals p) i, nth_error (locals p) j with
      | Some _, Some o => if Nat.eqb i j then None else Some (mkProg (statics p) (replace (replace (locals p) i o) j None) (made p) (calls p))
      | _, _ => None
      end
  | ATransform n =>
      if existsb (Nat.eqb n) (localPlans (locals p) ++ staticPlans (statics p))
      then Some (mkProg (statics p) (locals p) (made p) (calls p ++ [Execute n])) else None
  | AEndLocal =>
      match locals p with
      | o :: l => Some (mkProg (statics p) l (made p) (calls p ++ map Destroy (localPlans [o])))
      | [] => None
      end
  | AClear k =>
      match nth_error (statics p) k with
      | Some (Object ps u) => Some (mkProg (replace (statics p) k (Object [] u)) (locals p) (made p) (calls p ++ map Destroy ps))
      | _ => None
      end
  end.
Fixpoint acts (p : prog) (l : list action) : option prog :=
  match l with [] => Some p | a :: l' => match act p a with Some p' => acts p' l' | None => None end end.

(** Whether the allocator is not constructed yet, in its lifetime, or destroyed. *)
Inductive lifetime := Future | Present | Past.

(** The destruction of the objects of static storage duration, the last one first (see basic.start.term in the C++ standard): the allocator calls fftw_cleanup()
    (DftMemory.h: 43-45); the destructor of an object of the user makes a transform if it has to -- undefined if the allocator is destroyed, as
    instantiate() goes through its definition -- and then destroys the plans of the object. An allocator which is constructed by this transform is
    the last object to be constructed, and so the next one to be destroyed. *)
Fixpoint terminate (l : list entry) (t : lifetime) (n : nat) (tr : list call) : res (list call) :=
  match l with
  | [] => Ok tr
  | Allocator :: l' => terminate l' Past n (tr ++ [Cleanup])
  | Object ps false :: l' => terminate l' t n (tr ++ map Destroy ps)
  | Object ps true :: l' =>
      let tr' := tr ++ [Create n; Execute n; Destroy n] ++ map Destroy ps in
      match t with
      | Past => UB
      | Present => terminate l' Present (S n) tr'
      | Future => terminate l' Past (S n) (tr' ++ [Cleanup])
      end
  end.

(** The end of the program: return from main(), which destroys the plans of automatic storage duration (DftPlan.h: 120-122), or std::exit(),
    which does not; then the objects of static storage duration (DftMemory.h: 26-31). *)
Definition finish (p : prog) (returns : bool) : res (list call) :=
  terminate (rev (statics p)) (if existsb isAllocator (statics p) then Present else Future) (made p)
    (calls p ++ (if returns then map Destroy (localPlans (locals p)) else [])).
