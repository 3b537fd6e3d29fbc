(** Specification of samplings of doubles. *)
From Coq Require Import Reals Sorted.
From Flocq Require Import Core.
From Verif Require Import Res FloatModel FloatSpec FloatSamplingModel.
Open Scope R_scope.

(** The number of values from front to back, in the real numbers. *)
Definition exactCount (s : axis) : Z := Zfloor ((real (aback s) - real (afront s)) / real (astep s)) + 1.

(** The sampled values are [L]: any iteration which is long enough visits them. *)
Definition Sampled (s : axis) (L : list double) : Prop := exists enough, forall fuel, (enough <= fuel)%nat -> axisForeach fuel s = Some (Ok L).

(** A double of integer value. *)
Definition Integral (x : double) (z : Z) : Prop := Finite x /\ real x = IZR z.

(** Two runs which go on together, or end with the same integers. *)
Definition SameRun (r : option (res (list double))) (r' : option (res (list Z))) : Prop :=
  match r, r' with
  | None, None => True
  | Some (Ok L), Some (Ok L') => Forall2 Integral L L'
  | _, _ => False
  end.

(** Examples: the doubles 0.1, 0.3, 0.7. *)
Definition tenth : double := dlit 7205759403792794 (-56).
Definition threeTenths : double := dlit 5404319552844595 (-54).
Definition sevenTenths : double := dlit 6305039478318694 (-53).
