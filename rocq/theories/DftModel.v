(** Model of the discrete Fourier transform plans (LitlTransforms/LitlTransforms/Dft.h, DftPlan.h and DftMemory.h).
    FFTW is external: what its plans compute is a parameter, which buffer elements they read and write is modelled.
    Buffers are designated by a number (the pointers); the memory is the list of their contents. *)
From Coq Require Import QArith.
From Verif Require Import Res VecModel.
Open Scope Z_scope.

(** The transforms: RealDftTransform, ComplexDftTransform and their Inverse (Dft.h: 132-136, 170-174, 129-130). *)
Inductive transform := RealDft | InverseRealDft | ComplexDft | InverseComplexDft.

(** InverseTransform (Dft.h: 76, 113). *)
Definition inverseTransform (t : transform) : transform :=
  match t with
  | RealDft => InverseRealDft
  | InverseRealDft => RealDft
  | ComplexDft => InverseComplexDft
  | InverseComplexDft => ComplexDft
  end.

(** RealDftTransform::Base::outShape (Dft.h: 138-144). *)
Definition halved (shape : list Z) : res (list Z) := s <- zget shape 0 ;; zset shape 0 (Z.quot s 2 + 1).

(** inShape and outShape (Dft.h: 82-94, 115-123, 138-144). *)
Definition dftInShape (t : transform) (shape : list Z) : res (list Z) :=
  match t with InverseRealDft => halved shape | _ => Ok shape end.
Definition dftOutShape (t : transform) (shape : list Z) : res (list Z) :=
  match t with RealDft => halved shape | _ => Ok shape end.

(** The conversion of Index to int (Dft.h: 34-39). *)
Definition toInt (z : Z) : Z := (z + 2 ^ 31) mod 2 ^ 32 - 2 ^ 31.

(** fftwShape (Dft.h: 34-39). *)
Definition fftwShape (shape : list Z) : list Z := rev (map toInt shape).

(** The shape given to FFTW: that of the input for direct transforms (Dft.h: 149, 179), that of the output for inverse ones (lines 161, 192). *)
Definition planDims (t : transform) (shape : list Z) : res (list Z) :=
  match t with
  | RealDft | ComplexDft => s <- dftInShape t shape ;; Ok (fftwShape s)
  | InverseRealDft | InverseComplexDft => s <- dftOutShape t shape ;; Ok (fftwShape s)
  end.

(** The number of elements that FFTW reads and writes for given dimensions, the last one of which varies the fastest
    (FFTW documentation: complex data have length n / 2 + 1 along the last dimension in r2c and c2r transforms). *)
Definition fftwReal (dims : list Z) : Z := fold_right Z.mul 1 dims.
Definition fftwComplex (dims : list Z) : Z :=
  match rev dims with
  | [] => 1
  | n :: dims' => (n / 2 + 1) * fold_right Z.mul 1 dims'
  end.
Definition fftwIn (t : transform) (dims : list Z) : Z := match t with InverseRealDft => fftwComplex dims | _ => fftwReal dims end.
Definition fftwOut (t : transform) (dims : list Z) : Z := match t with RealDft => fftwComplex dims | _ => fftwReal dims end.

(** DftPlan: logical shape and data pointers of m_in and m_out (DftPlan.h: 236-251). The FFTW plan holds the dimensions and the pointers. *)
Record plan := mkPlan { ptransform : transform; pshape : list Z; pin : nat; pout : nat; pdims : list Z }.

(** inShape() and outShape() (DftPlan.h: 167-169, 190-192). *)
Definition planInShape (p : plan) : res (list Z) := dftInShape (ptransform p) (pshape p).
Definition planOutShape (p : plan) : res (list Z) := dftOutShape (ptransform p) (pshape p).

Section Memory.
Context {V : Type}.

(** Overwriting a buffer. *)
Definition write (h : list (list V)) (b : nat) (l : list V) : list (list V) := replace h b l.
Definition content (h : list (list V)) (b : nat) : list V := nth b h [].

(** The holder of a buffer: a new one of given content if there is no data (AlignedRaster; LitlRaster/LitlRaster/AlignedRaster.h, see AlignedModel). *)
Definition hold (b : option nat) (g : list V) (h : list (list V)) : nat * list (list V) :=
  match b with Some b' => (b', h) | None => (length h, h ++ [g]) end.

(** The constructor (DftPlan.h: 107-109) with input and output data or None for nullptr. The contents of both buffers are
    garbage [gi] and [go] after creation with FFTW_MEASURE (Dft.h: 146-200, DftMemory.h: 74-78).
    It is undefined if buffers are too small for FFTW, or unallocated. Simplification: in-place plans are excluded, see FlatDftModel.v. *)
Definition planNew (t : transform) (shape : list Z) (i o : option nat) (gi go : list V) (h : list (list V)) : res (plan * list (list V)) :=
  dims <- planDims t shape ;;
  let '(bi, h1) := hold i gi h in
  let '(bo, h2) := hold o go h1 in
  if Nat.ltb bi (length h2) && Nat.ltb bo (length h2) && negb (Nat.eqb bi bo) &&
     (fftwIn t dims <=? Z.of_nat (length (content h2 bi))) && (fftwOut t dims <=? Z.of_nat (length (content h2 bo)))
  then Ok (mkPlan t shape bi bo dims, write (write h2 bi gi) bo go)
  else UB.

(** inverse (DftPlan.h: 136-138). *)
Definition planInverse (p : plan) (gi go : list V) (h : list (list V)) : res (plan * list (list V)) :=
  planNew (inverseTransform (ptransform p)) (pshape p) (Some (pout p)) (Some (pin p)) gi go h.

(** compose (DftPlan.h: 152-155). *)
Definition planCompose (p : plan) (t : transform) (shape : list Z) (gi go : list V) (h : list (list V)) : res (plan * list (list V)) :=
  planNew t shape (Some (pout p)) None gi go h.

(** normalizationFactor (DftPlan.h: 211-213). *)
Definition normalizationFactor (p : plan) : Z := shapeSize (pshape p).

(** transform (DftPlan.h: 218-221): FFTW computes [fft], and the input becomes garbage [g]. *)
Variable fft : transform -> list Z -> list V -> list V.
Definition planTransform (p : plan) (g : list V) (h : list (list V)) : list (list V) :=
  write (write h (pout p) (fft (ptransform p) (pdims p) (content h (pin p)))) (pin p) g.

(** normalize (DftPlan.h: 226-230): multiplication by the inverse of the factor; division by zero gives an infinity (UB here). *)
Variable scale : Q -> V -> V.
Definition planNormalize (p : plan) (h : list (list V)) : res (list (list V)) :=
  if normalizationFactor p =? 0 then UB else
  Ok (write h (pout p) (map (scale (1 / inject_Z (normalizationFactor p))) (content h (pout p)))).

(** std::copy to a buffer (Dft.h: 226, 238, 250, 262): undefined if it is too small. *)
Definition copyTo (l : list V) (b : nat) (h : list (list V)) : res (list (list V)) :=
  if Nat.leb (length l) (length (content h b)) then Ok (write h b (l ++ skipn (length l) (content h b))) else UB.

(** complexDft, realDft (Dft.h: 223-229, 247-253) and, normalized, inverseComplexDft, inverseRealDft (lines 235-241, 259-265). *)
Definition dftFunction (t : transform) (normalized : bool) (shape : list Z) (values gi go g : list V) : res (list V) :=
  r <- planNew t shape None None gi go [] ;;
  h <- copyTo values (pin (fst r)) (snd r) ;;
  let h' := planTransform (fst r) g h in
  h'' <- (if normalized then planNormalize (fst r) h' else Ok h') ;;
  Ok (content h'' (pout (fst r))).

(** The documented use of plans to filter in Fourier domain (DftPlan.h: 40-50), with element-wise product by given coefficients:
    construction of the plan and of its inverse, filling of the input, direct transform, product, inverse transform and normalization.
    The contents of the buffers are garbage [gi] and [go], then [go'] and [gi'] after both constructions, [g] and [g'] after transforms. *)
Variable mul : V -> V -> V.
Definition fourierFilter (t : transform) (shape : list Z) (values coefficients gi go gi' go' g g' : list V) (h : list (list V)) : res (list V * list (list V)) :=
  r <- planNew t shape None None gi go h ;;
  s <- planInverse (fst r) gi' go' (snd r) ;;
  h1 <- copyTo values (pin (fst r)) (snd s) ;;
  let h2 := planTransform (fst r) g h1 in
  let h3 := write h2 (pout (fst r)) (map (fun ab => mul (fst ab) (snd ab)) (combine (content h2 (pout (fst r))) coefficients)) in
  h4 <- planNormalize (fst s) (planTransform (fst s) g' h3) ;;
  Ok (content h4 (pout (fst s)), h4).
End Memory.
