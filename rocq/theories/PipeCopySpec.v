(** Specification of the copies and moves of pipelines. *)
From Coq Require Import QArith.
From Verif Require Import Res PipelineModel PipeCopyModel.
Open Scope Z_scope.

(** The operation may change pipeline [i]. *)
Definition Changes {D} (i : nat) (o : pop D) : Prop :=
  match o with
  | PGet k _ | PReset k | PMove k | PCopyAssign k _ | PDestroy k => k = i
  | PMoveAssign k j => k = i \/ j = i
  | PNew _ | PCopy _ => False
  end.

(** The copies of the data members are equal to them, as those of containers and numbers are (as opposed to those of pointers to other members). *)
Definition Regular {D} (copyData : D -> D) : Prop := forall d, copyData d = d.

(** The steps which are got from pipeline [k], and their values. *)
Definition stepsOf {D} (k : nat) (ops : list (pop D)) : list nat :=
  flat_map (fun o => match o with PGet i s => if Nat.eqb i k then [s] else [] | _ => [] end) ops.
Definition valuesOf {V} (k : nat) (vs : list (nat * option V)) : list (option V) := map snd (filter (fun v => Nat.eqb (fst v) k) vs).

(** Nothing else than get changes pipeline [k]. *)
Definition OnlyGets {D} (k : nat) (ops : list (pop D)) : Prop := forall o, In o ops -> Changes k o -> exists s, o = PGet k s.

(** An example: step 0 reads the input, which is the first number, and sets the second one to its double; its value is the second number. *)
Definition doubleEvaluate (s : nat) (d : Z * Z) : (Z * Z) * option Q := ((fst d, 2 * fst d), Some 1%Q).
Definition doubleGet (s : nat) (d : Z * Z) : (Z * Z) * option Z := (d, Some (snd d)).
Definition cleared (d : Z * Z) : Z * Z := (0, 0).
