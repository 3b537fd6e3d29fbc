(** Model of the discrete Fourier transform plans over buffers which are supplied by the caller
    (LitlTransforms/LitlTransforms/DftPlan.h: 107-109, Dft.h, DftMemory.h), possibly the same one for the input and the output.
    In DftModel.v buffers are either distinct or the same; here they are addresses in an array of the caller,
    which counts elements of 8 bytes: a complex number (std::complex<double>, fftw_complex) takes two of them. *)
From Coq Require Import QArith.
From Verif Require Import Res VecModel DftModel.
Open Scope Z_scope.

Section Flat.
(** Values of type double, and the null one. Complex numbers are pairs; real ones have a null imaginary part. *)
Context {A : Type}.
Variable zero : A.

(** The array of the caller: its size and its contents. *)
Record heap := mkHeap { hsize : Z; hcell : Z -> A }.
Definition within (h : heap) (a n : Z) : bool := (0 <=? a) && (a + n <=? hsize h).

(** The types of the input and the output of the transforms (Dft.h: 66-71, 106-112, 132-136, 170-174): double (true) or std::complex<double>. *)
Definition realIn (t : transform) : bool := match t with RealDft => true | _ => false end.
Definition realOut (t : transform) : bool := match t with InverseRealDft => true | _ => false end.
Definition elementWidth (real : bool) : Z := if real then 1 else 2.

(** An element at address [a]. *)
Definition getElement (real : bool) (c : Z -> A) (a : Z) : A * A := if real then (c a, zero) else (c a, c (a + 1)).
Definition putElement (real : bool) (c : Z -> A) (a : Z) (v : A * A) : Z -> A :=
  fun x => if x =? a then fst v else if negb real && (x =? a + 1) then snd v else c x.

(** The elements of indices [j] to [j + n - 1] of an array whose element of index [i] is at address [off i]. *)
Fixpoint readFrom (real : bool) (off : Z -> Z) (c : Z -> A) (n : nat) (j : Z) : list (A * A) :=
  match n with
  | O => []
  | S n' => getElement real c (off j) :: readFrom real off c n' (j + 1)
  end.
Fixpoint writeFrom (real : bool) (off : Z -> Z) (l : list (A * A)) (j : Z) (c : Z -> A) : Z -> A :=
  match l with
  | [] => c
  | v :: l' => writeFrom real off l' (j + 1) (putElement real c (off j) v)
  end.

(** The array of a raster of data pointer [a] (LitlContainer/LitlContainer/AlignedBuffer.h): contiguous elements. *)
Definition contiguous (real : bool) (a j : Z) : Z := a + elementWidth real * j.

(** The array which FFTW reads or writes, given the dimensions, the last one of which, [n], varies the fastest.
    FFTW documentation, "Real-data DFT Array Format": for in-place transforms, i.e. if the pointers are equal, the rows of the real array are padded
    to 2 (n / 2 + 1) elements; otherwise, there is no padding. *)
Definition padded (n : Z) : Z := 2 * (n / 2 + 1).
Definition fftwOffset (real inPlace : bool) (dims : list Z) (a j : Z) : Z :=
  if real && inPlace then a + (j / last dims 1) * padded (last dims 1) + j mod last dims 1 else contiguous real a j.

(** The number of elements of 8 bytes which FFTW may access from the pointer. *)
Definition fftwExtent (real inPlace : bool) (dims : list Z) (count : Z) : Z :=
  if real && inPlace then 2 * fftwComplex dims else elementWidth real * count.
Definition extentIn (t : transform) (inPlace : bool) (dims : list Z) : Z := fftwExtent (realIn t) inPlace dims (fftwIn t dims).
Definition extentOut (t : transform) (inPlace : bool) (dims : list Z) : Z := fftwExtent (realOut t) inPlace dims (fftwOut t dims).

(** Any content. *)
Definition scribble (a n : Z) (g : Z -> A) (c : Z -> A) : Z -> A := fun x => if (a <=? x) && (x <? a + n) then g x else c x.

(** DftPlan: transform, m_shape, data pointers of m_in and m_out, dimensions in the FFTW plan (DftPlan.h: 236-251). *)
Record fplan := mkFplan { ftransform : transform; fshape : list Z; fin : Z; fout : Z; fdims : list Z }.
Definition inPlace (p : fplan) : bool := fin p =? fout p.

(** DftPlan(shape, inData, outData) (DftPlan.h: 107-109), for non-null pointers, with FFTW_MEASURE (Dft.h: 146-200): the buffers become garbage [g].
    It is undefined if the array is too small, or if the buffers overlap and are not at the same address (FFTW documentation, "Complex DFTs").
    Simplification: if a dimension is not positive, FFTW returns a null plan, the execution of which is undefined (see PlanModel.v); the constructor is undefined here. *)
Definition flatNew (t : transform) (shape : list Z) (i o : Z) (g : Z -> A) (h : heap) : res (fplan * heap) :=
  dims <- planDims t shape ;;
  let ip := i =? o in
  let ni := extentIn t ip dims in
  let no := extentOut t ip dims in
  if forallb (fun d => 0 <? d) dims && within h i ni && within h o no && (ip || (i + ni <=? o) || (o + no <=? i))
  then Ok (mkFplan t shape i o dims, mkHeap (hsize h) (scribble o no g (scribble i ni g (hcell h))))
  else UB.

(** inverse() (DftPlan.h: 136-138). *)
Definition flatInverse (p : fplan) (g : Z -> A) (h : heap) : res (fplan * heap) :=
  flatNew (inverseTransform (ftransform p)) (fshape p) (fout p) (fin p) g h.

(** Reading and writing all the elements of in() or out() (DftPlan.h: 172-185, 194-206), a raster of [real] or complex elements and of given shape. *)
Definition readRaster (real : bool) (shape : list Z) (a : Z) (h : heap) : res (list (A * A)) :=
  if within h a (elementWidth real * shapeSize shape) then Ok (readFrom real (contiguous real a) (hcell h) (Z.to_nat (shapeSize shape)) 0) else UB.
Definition fillRaster (real : bool) (a : Z) (l : list (A * A)) (h : heap) : res heap :=
  if within h a (elementWidth real * Z.of_nat (length l)) then Ok (mkHeap (hsize h) (writeFrom real (contiguous real a) l 0 (hcell h))) else UB.
Definition readIn (p : fplan) (h : heap) : res (list (A * A)) := s <- dftInShape (ftransform p) (fshape p) ;; readRaster (realIn (ftransform p)) s (fin p) h.
Definition readOut (p : fplan) (h : heap) : res (list (A * A)) := s <- dftOutShape (ftransform p) (fshape p) ;; readRaster (realOut (ftransform p)) s (fout p) h.
Definition fillIn (p : fplan) (l : list (A * A)) (h : heap) : res heap := fillRaster (realIn (ftransform p)) (fin p) l h.

(** transform() (DftPlan.h: 218-221): FFTW computes [fft]; the rest of the input buffer becomes garbage [g], including the padding
    (FFTW documentation, "Planner Flags": the input of multi-dimensional inverse real transforms is destroyed). *)
Variable fft : transform -> list Z -> list (A * A) -> list (A * A).
Definition flatTransform (p : fplan) (g : Z -> A) (h : heap) : heap :=
  let t := ftransform p in
  let ip := inPlace p in
  let x := readFrom (realIn t) (fftwOffset (realIn t) ip (fdims p) (fin p)) (hcell h) (Z.to_nat (fftwIn t (fdims p))) 0 in
  let c := scribble (fin p) (extentIn t ip (fdims p)) g (hcell h) in
  mkHeap (hsize h) (writeFrom (realOut t) (fftwOffset (realOut t) ip (fdims p) (fout p)) (fft t (fdims p) x) 0 c).

(** normalize() (DftPlan.h: 226-230): the elements of out() are scaled. *)
Variable scale : Q -> A * A -> A * A.
Definition flatNormalize (p : fplan) (h : heap) : res heap :=
  let n := shapeSize (fshape p) in
  if n =? 0 then UB else
  l <- readOut p h ;; fillRaster (realOut (ftransform p)) (fout p) (map (scale (1 / inject_Z n)) l) h.
End Flat.
Arguments heap : clear implicits.
