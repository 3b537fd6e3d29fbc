(** Specification of the transforms of any shape. *)
From Verif Require Import Res Spec DftModel DftSpec.

(** FFTW's planner makes plans of positive lengths only (FFTW's manual: "n must be a positive integer"). *)
Definition PositiveOnly (planner : transform -> list Z -> bool) : Prop := forall t dims, planner t dims = true -> Forall (fun d => 0 < d) dims.

(** Length [s] of type Index read as an int: the only one which differs from it by a multiple of 2^32. *)
Definition Narrowed (s d : Z) : Prop := - 2 ^ 31 <= d < 2 ^ 31 /\ exists k, s = d + k * 2 ^ 32.

(** The buffers have the sizes of inShape() and outShape(). *)
Definition Buffers {V} (t : transform) (shape : list Z) (inp out : list V) : Prop :=
  exists si so, dftInShape t shape = Ok si /\ dftOutShape t shape = Ok so /\ Z.of_nat (length inp) = prod si /\ Z.of_nat (length out) = prod so.

(** The numbers of elements of the input and of the output of a transform of lengths [shape], the first axis of which is halved for real transforms. *)
Definition halvedSize (shape : list Z) : Z := match shape with [] => 1 | n :: rest => (n / 2 + 1) * prod rest end.
Definition inSize (t : transform) (shape : list Z) : Z := match t with InverseRealDft => halvedSize shape | _ => prod shape end.
Definition outSize (t : transform) (shape : list Z) : Z := match t with RealDft => halvedSize shape | _ => prod shape end.

(** A planner which accepts all the positive lengths, and a transform. *)
Definition plannerAll (t : transform) (dims : list Z) : bool := forallb (fun d => 0 <? d) dims.
Definition fftZero (t : transform) (dims : list Z) (l : list Z) : list Z := repeat (hd 0 l) (Z.to_nat (fftwOut t dims)).
