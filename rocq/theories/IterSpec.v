(** Specification of the histories of iterators. *)
From Coq Require Import QArith.
From Verif Require Import Res VecModel BoxModel RasterModel BallModel LoopModel SubrasterModel IterModel.
Open Scope Z_scope.

(** The number of increments of [j] in a history. *)
Fixpoint increments (j : nat) (ops : list iop) : nat :=
  match ops with
  | [] => 0
  | Incr i :: ops' | PostIncr i :: ops' => if Nat.eqb i j then Datatypes.S (increments j ops') else increments j ops'
  | _ :: ops' => increments j ops'
  end.

(** An operation which does more than reading object [i]. *)
Definition Changes (o : iop) (i : nat) : Prop :=
  match o with
  | Incr j | PostIncr j | Reset j | SetBox j _ | SetBall j _ | Destroy j => j = i
  | _ => False
  end.

(** A history in which [i] is neither modified nor destroyed; or at most incremented. *)
Definition Unchanged (i : nat) (ops : list iop) : Prop := Forall (fun o => ~ Changes o i) ops.
Definition OnlyIncremented (i : nat) (ops : list iop) : Prop := Forall (fun o => Changes o i -> o = Incr i \/ o = PostIncr i) ops.

(** Object [j] is an iterator over box [r], which is worth [b], at rank [m] of [L], or at the end [e] if [m] is the size of [L]. *)
Definition BoxAt (s : store) (j r : nat) (b : box) (L : list (list Z)) (e : list Z) (m : nat) : Prop :=
  object_at s r = Some (BoxObj b) /\ exists p, nth_error (L ++ [e]) m = Some p /\ object_at s j = Some (IterObj r (BoxIter p)).

(** Object [j] is an iterator over ball [c], which is worth [b], obtained by copy of iterator [r], or [r] itself. *)
Definition BallAt (P : Z) (s : store) (j r c : nat) (b : ball) (L : list (list Z)) (e : list Z) (m : nat) : Prop :=
  let it p := IterObj r (BallIter (Qpower (bradius b) P) c (ballBox b) p e) in
  object_at s c = Some (BallObj b) /\ (exists q, object_at s r = Some (it q)) /\
  exists p, nth_error (L ++ [e]) m = Some p /\ object_at s j = Some (it p).

(** Object [j] is an iterator over a subraster, obtained by copy of iterator [r], or [r] itself,
    at the pixel of rank [m] of [L], or at pixel [e] if [m] is the size of [L]. *)
Definition SubAt (s : store) (j r : nat) (region : box) (L : list subIt) (e : Z) (m : nat) : Prop :=
  exists plane w, project region 0 = Ok plane /\ boxLength region 0 = Ok w /\
  (exists q, object_at s r = Some (IterObj r (SubIter plane w q))) /\
  exists c, object_at s j = Some (IterObj r (SubIter plane w c)) /\
    (nth_error L m = Some c \/ m = length L /\ siCurrent c = e).

(** The states of an iterator over a subraster, from begin() to end(), which is at pixel [e]. *)
Definition SubStates (fl : nat) (n : Z) (shape : list Z) (region : box) (L : list subIt) (e : Z) : Prop :=
  exists p ie ib, endPosition region = Ok p /\ subItMake n shape region p = Ok ie /\ e = siCurrent ie /\
  subItMake n shape region (beginPosition region) = Ok ib /\
  forLoop fl (fun c => siCurrent c =? e) (subNext n shape region) ib = Some (Ok L).
