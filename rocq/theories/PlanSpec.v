(** Specification of the lifetimes of the DFT plans. *)
From Verif Require Import Res VecModel Spec DftModel DftSpec AlignedModel AlignedSpec PlanModel.

(** Plan [i] is in scope and holds FFTW plan [n]. *)
Definition Holds (s : pstate) (i n : nat) : Prop := exists p, planAt s i p /\ dhandle p = Handle n.

(** FFTW plan [n] was created and not destroyed. *)
Definition LiveFftw (s : pstate) (n : nat) : Prop := exists f, nth_error (fftws s) n = Some (Some f).

(** An FFTW plan which nothing will destroy. *)
Definition Lost (s : pstate) (n : nat) : Prop := LiveFftw s n /\ forall i, ~ Holds s i n.

Definition NoPlan (s : pstate) : Prop := forall i p, ~ planAt s i p.

(** The move assignment to a plan which holds an FFTW plan. *)
Definition Overwrites (s : pstate) (o : pop) : Prop :=
  match o with PMoveAssign i j => i <> j /\ exists n, Holds s i n | _ => False end.

(** Histories in which all operations (resp. some operation) satisfy [P]. *)
Inductive runAll (P : pstate -> pop -> Prop) (s : pstate) : list pop -> pstate -> Prop :=
| runAll_nil : runAll P s [] s
| runAll_cons o s1 ops s2 : pstep s o (Ok s1) -> P s o -> runAll P s1 ops s2 -> runAll P s (o :: ops) s2.
Inductive runSome (P : pstate -> pop -> Prop) (s : pstate) : list pop -> pstate -> Prop :=
| runSome_here o s1 ops s2 : pstep s o (Ok s1) -> P s o -> prun s1 ops (Ok s2) -> runSome P s (o :: ops) s2
| runSome_later o s1 ops s2 : pstep s o (Ok s1) -> runSome P s1 ops s2 -> runSome P s (o :: ops) s2.

(** The objects the operation applies to are in scope; plans assigned to each other have the same type. *)
Definition PValid (s : pstate) (o : pop) : Prop :=
  match o with
  | PNew t shape i o => True
  | PInverse i | PCompose i _ _ | PMove i | PTransform i | PDestroy i => exists p, planAt s i p
  | PMoveAssign i j => exists p q, planAt s i p /\ planAt s j q /\ dtransform p = dtransform q
  | PBuffer o => Valid (mem s) o /\ forall k, o = ODestroy k -> ~ PlanBuffer s k
  | PAccess k => exists b, alive (mem s) k b
  end.

(** [n] bytes at address [a] are in an allocated block. *)
Definition Readable (s : pstate) (a n : Z) : Prop := exists q m, In (q, m) (live (mem s)) /\ q <= a /\ a + n <= q + m.

(** transform() of the plan: reads and writes allocated memory according to a live FFTW plan. *)
Definition Transformable (s : pstate) (p : dplan) : Prop :=
  exists n f, dhandle p = Handle n /\ nth_error (fftws s) n = Some (Some f) /\
    Readable s (fwIn f) (fwInBytes f) /\ Readable s (fwOut f) (fwOutBytes f).

(** The shapes of which the numbers of elements fit in memory, and FFTW's dimensions in int. *)
Definition PlanShape (shape : list Z) : Prop := IntShape shape /\ 16 * prod shape + 63 < 2 ^ 64.

(** The FFTW plan reads in() and writes out(): same addresses and numbers of bytes. *)
Definition Synced (s : pstate) (p : dplan) : Prop :=
  forall n f bi bo, dhandle p = Handle n -> nth_error (fftws s) n = Some (Some f) ->
    alive (mem s) (din p) bi -> alive (mem s) (dout p) bo ->
    fwIn f = bdata bi /\ fwOut f = bdata bo /\
    (PlanShape (dshape p) -> fwInBytes f = 8 * bsize bi /\ fwOutBytes f = 8 * bsize bo).

(** The operation modifies or destroys buffer [k]. *)
Definition PTouches (s : pstate) (o : pop) (k : nat) : Prop :=
  match o with
  | PMove i | PDestroy i => exists p, planAt s i p /\ (din p = k \/ dout p = k)
  | PMoveAssign i j => i <> j /\ exists p, (planAt s i p \/ planAt s j p) /\ (din p = k \/ dout p = k)
  | PBuffer o => Touches (mem s) o k
  | _ => False
  end.

(** The operation modifies or destroys plan [i]. *)
Definition PAlters (o : pop) (i : nat) : Prop :=
  match o with
  | PMove j | PDestroy j => i = j
  | PMoveAssign j k => j <> k /\ (i = j \/ i = k)
  | _ => False
  end.

(** The operation assigns, moves, resets or releases a buffer of a plan through in() or out(). *)
Definition Reassigns (s : pstate) (o : pop) : Prop :=
  match o with PBuffer o' => exists k, PlanBuffer s k /\ Touches (mem s) o' k | _ => False end.

(** The operation drops the address of an owned block: move construction of a plan which owns a buffer, move assignment to such a plan,
    careless operation on rasters (AlignedSpec). *)
Definition PCareless (s : pstate) (o : pop) : Prop :=
  match o with
  | PMove i => exists p q, planAt s i p /\ (Owns (mem s) (din p) q \/ Owns (mem s) (dout p) q)
  | PMoveAssign i j => i <> j /\ exists p q, planAt s i p /\ (Owns (mem s) (din p) q \/ Owns (mem s) (dout p) q)
  | PBuffer o => Careless (mem s) o
  | _ => False
  end.

(** The operation modifies neither plan [i] nor buffers [ki] and [ko]. *)
Definition Untouched (i ki ko : nat) (s : pstate) (o : pop) : Prop := ~ PAlters o i /\ ~ PTouches s o ki /\ ~ PTouches s o ko.
