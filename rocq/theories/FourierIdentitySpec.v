(** C95: identities between the transforms of related rasters. *)
From Coq Require Import Reals QArith.
From Verif Require Import Res Spec DftModel DftSpec FourierSpec.
Open Scope Z_scope.

(** The function (realDft, complexDft, inverseRealDft or inverseComplexDft) accepts the raster of logical shape [shape] and elements [x],
    and returns the raster of elements [y], whatever the contents of the allocated buffers and what the transform leaves in its input. *)
Definition Gives (fft : transform -> list Z -> list C -> list C) (t : transform) (normalized : bool) (shape : list Z) (x y : list C) : Prop :=
  exists si so, dftInShape t shape = Ok si /\ dftOutShape t shape = Ok so /\ Z.of_nat (length x) = prod si /\
    forall gi go g, Z.of_nat (length gi) = prod si -> Z.of_nat (length go) = prod so -> dftFunction fft scaleC t normalized shape x gi go g = Ok y.

(** The inputs for which the transform is specified: real values for real transforms, halves of Hermitian rasters for inverse real transforms. *)
Definition Valid (t : transform) (n : Z) (rest : list Z) (x : list C) : Prop :=
  match t with
  | RealDft => Forall IsReal x
  | InverseRealDft => exists f, Hermitian (n :: rest) f /\ forall k, InDomain (n / 2 + 1 :: rest) k -> rasterAt (n / 2 + 1 :: rest) x k = f k
  | _ => True
  end.

(** a x + b y, element by element. *)
Definition combination (a b : C) (x y : list C) : list C := map (fun uv => cadd (cmul a (fst uv)) (cmul b (snd uv))) (combine x y).

(** The sum of the elements, and of their squared moduli. *)
Definition total (x : list C) : C := fold_right cadd czero x.
Definition power (a : C) : R := (fst a * fst a + snd a * snd a)%R.
Definition energy (x : list C) : R := fold_right (fun a s => (power a + s)%R) 0%R x.

(** [x'] is [x] moved by [d], circularly. *)
Definition Moved (shape d : list Z) (x x' : list C) : Prop :=
  length x' = length x /\ forall p, InDomain shape p -> rasterAt shape x' p = rasterAt shape x (wrap shape (minus p d)).

(** How many times a coefficient of a real transform counts: once if it is its own symmetric along the first axis, else twice. *)
Definition weight (n : Z) (k : list Z) : R := if (hd 0 k =? 0) || (2 * hd 0 k =? n) then 1%R else 2%R.
Definition rsum {A} (l : list A) (f : A -> R) : R := fold_right (fun a s => (f a + s)%R) 0%R l.

(** The shapes of the input and output rasters of a transform of logical shape [n :: rest] (see C49). *)
Definition inDomain (t : transform) (n : Z) (rest : list Z) : list Z := match t with InverseRealDft => n / 2 + 1 :: rest | _ => n :: rest end.
Definition outDomain (t : transform) (n : Z) (rest : list Z) : list Z := match t with RealDft => n / 2 + 1 :: rest | _ => n :: rest end.
