(** Specification of the discrete Fourier transform and of FFTW, over the complex numbers. *)
From Coq Require Import Reals QArith Qreals.
From Verif Require Import Res Spec DftModel.
Open Scope Z_scope.

(** Complex numbers. *)
Definition C := (R * R)%type.
Definition czero : C := (0%R, 0%R).
Definition cadd (a b : C) : C := (fst a + fst b, snd a + snd b)%R.
Definition cmul (a b : C) : C := (fst a * fst b - snd a * snd b, fst a * snd b + snd a * fst b)%R.
Definition conj (a : C) : C := (fst a, - snd a)%R.
Definition cscale (x : R) (a : C) : C := (x * fst a, x * snd a)%R.
Definition cis (x : R) : C := (cos x, sin x).
Definition scaleC (q : Q) (a : C) : C := cscale (Q2R q) a.

(** Real numbers, as complex ones. *)
Definition IsReal (a : C) : Prop := snd a = 0%R.

Definition csum {A} (l : list A) (f : A -> C) : C := fold_right (fun a s => cadd (f a) s) czero l.

(** The positions of a domain. *)
Definition domain (shape : list Z) : list (list Z) := positions (map (fun _ => 0) shape) (map (fun s => s - 1) shape).

(** The element of given index. *)
Definition valueAt (l : list C) (i : Z) : C := nth (Z.to_nat i) l czero.

(** The sum over the axes of p[i] k[i] / shape[i]. *)
Fixpoint phase (shape p k : list Z) : R :=
  match shape, p, k with
  | n :: shape', x :: p', y :: k' => (IZR (x * y) / IZR n + phase shape' p' k')%R
  | _, _, _ => 0%R
  end.

(** The coefficient at frequency [k] of the function [f] over the domain of a given shape: the sum of f(p) exp(± 2 i pi sum(p[i] k[i] / shape[i])). *)
Definition dft (shape : list Z) (f : list Z -> C) (k : list Z) : C :=
  csum (domain shape) (fun p => cmul (f p) (cis (- (2 * PI * phase shape p k)))).
Definition inverseDft (shape : list Z) (f : list Z -> C) (p : list Z) : C :=
  csum (domain shape) (fun k => cmul (f k) (cis (2 * PI * phase shape p k))).

(** Reduction of the coordinates to the domain. *)
Fixpoint wrap (shape p : list Z) : list Z :=
  match shape, p with
  | n :: shape', x :: p' => x mod n :: wrap shape' p'
  | _, _ => []
  end.
Fixpoint minus (p q : list Z) : list Z :=
  match p, q with
  | x :: p', y :: q' => x - y :: minus p' q'
  | _, _ => []
  end.

(** Hermitian symmetry: opposite frequencies have conjugate coefficients. *)
Definition Hermitian (shape : list Z) (f : list Z -> C) : Prop :=
  forall k, InDomain shape k -> f (wrap shape (map Z.opp k)) = conj (f k).

(** Circular convolution. *)
Definition circular (shape : list Z) (f g : list Z -> C) (p : list Z) : C :=
  csum (domain shape) (fun q => cmul (f q) (g (wrap shape (minus p q)))).

(** FFTW documentation, "Row-major Format": the last dimension varies the fastest. *)
Fixpoint rowMajor (dims k : list Z) : Z :=
  match dims, k with
  | _ :: dims', x :: k' => x * prod dims' + rowMajor dims' k'
  | _, _ => 0
  end.
Definition fftwAt (dims : list Z) (l : list C) (k : list Z) : C := valueAt l (rowMajor dims k).

(** FFTW documentation, "Multi-Dimensional DFTs of Real Data": the last dimension of the complex array is n / 2 + 1. *)
Definition halfLast (dims : list Z) : list Z :=
  match rev dims with
  | [] => []
  | n :: r => rev (n / 2 + 1 :: r)
  end.

(** What FFTW computes, in exact arithmetic (FFTW documentation, "What FFTW Really Computes"):
    unnormalized transforms of the arrays in row-major format; inverse real transforms are those of arrays with Hermitian symmetry,
    of which they read the first half, and their output is unspecified for other arrays. *)
Definition FftwComputes (t : transform) (dims : list Z) (x y : list C) : Prop :=
  match t with
  | ComplexDft => forall k, InDomain dims k -> fftwAt dims y k = dft dims (fftwAt dims x) k
  | InverseComplexDft => forall k, InDomain dims k -> fftwAt dims y k = inverseDft dims (fftwAt dims x) k
  | RealDft => Forall IsReal x -> forall k, InDomain (halfLast dims) k -> fftwAt (halfLast dims) y k = dft dims (fftwAt dims x) k
  | InverseRealDft => Forall IsReal y /\
      forall f, Hermitian dims f -> (forall k, InDomain (halfLast dims) k -> fftwAt (halfLast dims) x k = f k) ->
        forall p, InDomain dims p -> fftwAt dims y p = inverseDft dims f p
  end.

(** A transform function which complies with the documentation of FFTW. *)
Definition IsFftw (fft : transform -> list Z -> list C -> list C) : Prop :=
  forall t dims x, Positive dims -> Z.of_nat (length x) = fftwIn t dims ->
    Z.of_nat (length (fft t dims x)) = fftwOut t dims /\ FftwComputes t dims x (fft t dims x).

(** The value at a position of a raster of given shape and elements (see C01). *)
Definition rasterAt (shape : list Z) (l : list C) (p : list Z) : C := valueAt l (rank shape p).

(** What is expected of a transform of logical shape [n :: rest], in terms of the input and output rasters:
    real transforms give the coefficients of frequencies 0 to n / 2 along the first axis. *)
Definition TransformOf (t : transform) (n : Z) (rest : list Z) (x y : list C) : Prop :=
  match t with
  | ComplexDft => forall k, InDomain (n :: rest) k -> rasterAt (n :: rest) y k = dft (n :: rest) (rasterAt (n :: rest) x) k
  | InverseComplexDft => forall p, InDomain (n :: rest) p -> rasterAt (n :: rest) y p = inverseDft (n :: rest) (rasterAt (n :: rest) x) p
  | RealDft => Forall IsReal x -> forall k, InDomain (n / 2 + 1 :: rest) k -> rasterAt (n / 2 + 1 :: rest) y k = dft (n :: rest) (rasterAt (n :: rest) x) k
  | InverseRealDft => Forall IsReal y /\
      forall f, Hermitian (n :: rest) f -> (forall k, InDomain (n / 2 + 1 :: rest) k -> rasterAt (n / 2 + 1 :: rest) x k = f k) ->
        forall p, InDomain (n :: rest) p -> rasterAt (n :: rest) y p = inverseDft (n :: rest) f p
  end.

(** Convolution of functions which are null out of their domains. *)
Definition NullOut (shape : list Z) (f : list Z -> C) : Prop := forall p, ~ InDomain shape p -> f p = czero.
Definition linear (shape : list Z) (f g : list Z -> C) (p : list Z) : C :=
  csum (domain shape) (fun q => cmul (f q) (g (minus p q))).

(** The values that a transform accepts: doubles for real transforms. *)
Definition Accepted (t : transform) (a : C) : Prop := match t with RealDft => IsReal a | _ => True end.

(** Example: the transforms as computed by sums. The missing half of the input of real inverse transforms is restored by symmetry. *)
Definition rowMajorOrder (dims : list Z) : list (list Z) := map (@rev Z) (domain (rev dims)).
Definition restored (dims : list Z) (x : list C) (k : list Z) : C :=
  if last k 0 <=? last dims 0 / 2 then fftwAt (halfLast dims) x k else conj (fftwAt (halfLast dims) x (wrap dims (map Z.opp k))).
Definition exactFft (t : transform) (dims : list Z) (x : list C) : list C :=
  match t with
  | ComplexDft => map (dft dims (fftwAt dims x)) (rowMajorOrder dims)
  | InverseComplexDft => map (inverseDft dims (fftwAt dims x)) (rowMajorOrder dims)
  | RealDft => map (dft dims (fftwAt dims x)) (rowMajorOrder (halfLast dims))
  | InverseRealDft => map (fun p => (fst (inverseDft dims (restored dims x) p), 0%R)) (rowMajorOrder dims)
  end.
