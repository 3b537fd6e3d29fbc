(** Specification of the transform plans. *)
From Coq Require Import QArith Qcanon.
From Verif Require Import Res Spec DftModel.
Open Scope Z_scope.

(** The lengths fit in type int. *)
Definition IntShape (shape : list Z) : Prop := shape <> [] /\ Forall (fun s => 0 < s < 2 ^ 31) shape.

Definition Direct (t : transform) : Prop := t = RealDft \/ t = ComplexDft.

(** The shapes of the buffers of a transform of logical shape [n :: rest]. *)
Definition BufferShapes (t : transform) (n : Z) (rest inShape outShape : list Z) : Prop :=
  match t with
  | RealDft => inShape = n :: rest /\ outShape = n / 2 + 1 :: rest
  | InverseRealDft => inShape = n / 2 + 1 :: rest /\ outShape = n :: rest
  | ComplexDft | InverseComplexDft => inShape = n :: rest /\ outShape = n :: rest
  end.

(** What is expected of FFTW for a direct transform and its inverse (FFTW documentation: transforms are not normalized)
    when the input values are [accepted]: all values, or the real ones only. *)
Definition Unnormalized {V} (fft : transform -> list Z -> list V -> list V) (scale : Q -> V -> V) (accepted : V -> Prop) (t : transform) (dims : list Z) : Prop :=
  forall l, Z.of_nat (length l) = fftwIn t dims -> Forall accepted l ->
    Z.of_nat (length (fft t dims l)) = fftwOut t dims /\
    fft (inverseTransform t) dims (fft t dims l) = map (scale (inject_Z (prod dims))) l.

(** The buffers of a plan exist, are not the same, and have the sizes of the shapes. *)
Definition Allocated {V} (p : plan) (h : list (list V)) : Prop :=
  exists si so, planInShape p = Ok si /\ planOutShape p = Ok so /\ planDims (ptransform p) (pshape p) = Ok (pdims p) /\
    (pin p < length h)%nat /\ (pout p < length h)%nat /\ pin p <> pout p /\
    Z.of_nat (length (content h (pin p))) = prod si /\ Z.of_nat (length (content h (pout p))) = prod so.

(** Example: the transform of two values. *)
Definition fft2 (t : transform) (dims : list Z) (l : list Qc) : list Qc := match l with [a; b] => [(a + b)%Qc; (a - b)%Qc] | _ => l end.
Definition scaleQc (q : Q) (v : Qc) : Qc := (Q2Qc q * v)%Qc.

(** Garbage left in place of some content. *)
Definition SameLength {V} (g l : list V) : Prop := length g = length l.

(** All the histories of plans: creation, inversion and composition of plans, filling of their inputs, transforms and normalizations.
    Composed plans have inputs of the same size as the outputs which they read. *)
Inductive History {V} (fft : transform -> list Z -> list V -> list V) (scale : Q -> V -> V) : list plan -> list (list V) -> Prop :=
| HistoryNil : History fft scale [] []
| HistoryNew t shape si so gi go ps h p h' : History fft scale ps h -> IntShape shape -> dftInShape t shape = Ok si -> dftOutShape t shape = Ok so ->
    Z.of_nat (length gi) = prod si -> Z.of_nat (length go) = prod so ->
    planNew t shape None None gi go h = Ok (p, h') -> History fft scale (p :: ps) h'
| HistoryInverse p gi go ps h q h' : History fft scale ps h -> In p ps -> SameLength gi (content h (pout p)) -> SameLength go (content h (pin p)) ->
    planInverse p gi go h = Ok (q, h') -> History fft scale (q :: ps) h'
| HistoryCompose p t shape si so gi go ps h q h' : History fft scale ps h -> In p ps -> IntShape shape -> dftInShape t shape = Ok si -> dftOutShape t shape = Ok so ->
    prod si = Z.of_nat (length (content h (pout p))) -> SameLength gi (content h (pout p)) -> Z.of_nat (length go) = prod so ->
    planCompose p t shape gi go h = Ok (q, h') -> History fft scale (q :: ps) h'
| HistoryFill p l ps h : History fft scale ps h -> In p ps -> SameLength l (content h (pin p)) -> History fft scale ps (write h (pin p) l)
| HistoryTransform p g ps h : History fft scale ps h -> In p ps -> SameLength g (content h (pin p)) -> History fft scale ps (planTransform fft p g h)
| HistoryNormalize p ps h h' : History fft scale ps h -> In p ps -> planNormalize scale p h = Ok h' -> History fft scale ps h'.

(** What FFTW writes fills the output. *)
Definition Sized {V} (fft : transform -> list Z -> list V -> list V) : Prop :=
  forall t dims l, Positive dims -> Z.of_nat (length l) = fftwIn t dims -> Z.of_nat (length (fft t dims l)) = fftwOut t dims.

(** Example: a transform which fills its output. *)
Definition fftFill (t : transform) (dims : list Z) (l : list Qc) : list Qc := if (Z.of_nat (length l) =? 2) && (fftwOut t dims =? 2) then fft2 t dims l else repeat 0%Qc (Z.to_nat (fftwOut t dims)).
