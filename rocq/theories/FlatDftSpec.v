(** C98: plans over buffers which are supplied by the caller. *)
From Coq Require Import Reals QArith.
From Verif Require Import Res Spec VecModel DftModel FlatDftModel DftSpec FourierSpec.
Open Scope Z_scope.

(** The doubles from [a] to [a + n - 1]: whether they are in the array of the caller, and whether they are not those from [b] to [b + m - 1]. *)
Definition Fits (size a n : Z) : Prop := 0 <= a /\ a + n <= size.
Definition Disjoint (a n b m : Z) : Prop := a + n <= b \/ b + m <= a.

(** The number of doubles of the input and output rasters, for a logical shape [n :: rest]. *)
Definition doublesIn (t : transform) (n : Z) (rest : list Z) : Z :=
  match t with RealDft => prod (n :: rest) | InverseRealDft => 2 * prod (n / 2 + 1 :: rest) | _ => 2 * prod (n :: rest) end.
Definition doublesOut (t : transform) (n : Z) (rest : list Z) : Z :=
  match t with RealDft => 2 * prod (n / 2 + 1 :: rest) | InverseRealDft => prod (n :: rest) | _ => 2 * prod (n :: rest) end.

(** The number of doubles which are needed if the input and the output are at the same address: those of the complex raster. *)
Definition doublesInPlace (t : transform) (n : Z) (rest : list Z) : Z :=
  match t with RealDft | InverseRealDft => 2 * prod (n / 2 + 1 :: rest) | _ => 2 * prod (n :: rest) end.

(** What the caller has to ensure, for input and output buffers at addresses [i] and [o] of their array. *)
Definition GoodBuffers (t : transform) (n : Z) (rest : list Z) (i o size : Z) : Prop :=
  (i = o /\ Fits size i (doublesInPlace t n rest)) \/
  (i <> o /\ Fits size i (doublesIn t n rest) /\ Fits size o (doublesOut t n rest) /\ Disjoint i (doublesIn t n rest) o (doublesOut t n rest)).

(** An address which is in none of the buffers. *)
Definition Elsewhere (t : transform) (n : Z) (rest : list Z) (i o x : Z) : Prop :=
  if i =? o then ~ (i <= x < i + doublesInPlace t n rest) else ~ (i <= x < i + doublesIn t n rest) /\ ~ (o <= x < o + doublesOut t n rest).

(** Complex transforms. *)
Definition IsComplex (t : transform) : Prop := t = ComplexDft \/ t = InverseComplexDft.

(** The constructor gave plan [p] of buffers at [i] and [o] of an array of given size. *)
Definition Built (t : transform) (shape : list Z) (i o size : Z) (p : fplan) : Prop :=
  exists g c h, flatNew t shape i o g (mkHeap (A := R) size c) = Ok (p, h).

(** The heaps of that array. *)
Definition HeapOf (size : Z) (h : heap R) : Prop := hsize h = size.

(** Elements of the input raster: doubles for real transforms, as complex numbers with null imaginary parts. *)
Definition Elements (t : transform) (n : Z) (rest : list Z) (l : list C) : Prop :=
  Z.of_nat (length l) = (match t with InverseRealDft => prod (n / 2 + 1 :: rest) | _ => prod (n :: rest) end) /\ Forall (Accepted t) l.

(** The layouts of rasters and FFTW's arrays agree: complex data, different buffers, or only one row. *)
Definition SameLayout (t : transform) (rest : list Z) (i o : Z) : Prop := IsComplex t \/ i <> o \/ prod rest = 1.

(** Null values, except the one of index [k] which is 1. *)
Definition spike (count : nat) (k : nat) : list C := repeat czero k ++ (1%R, 0%R) :: repeat czero (count - k - 1).
