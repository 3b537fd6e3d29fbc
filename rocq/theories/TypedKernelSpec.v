(** Specification of ND kernels of any types. *)
From Coq Require Import Reals.
From Verif Require Import Res Spec RasterModel KernelSpec FloatModel FloatSpec FloatKernelSpec.
Open Scope Z_scope.

(** An outcome which is not an exception. *)
Definition NoThrow {A} (r : res A) : Prop := forall e, r <> Throw e.

(** The weighted sum from left to right, where [step] adds one weighted element. *)
Fixpoint weighted {V Y : Type} (step : V -> V -> Y -> res V) (acc : V) (l : list (V * Y)) : res V :=
  match l with
  | [] => Ok acc
  | (k, x) :: l' => acc' <- step acc k x ;; weighted step acc' l'
  end.

(** The elements, or undefined behaviour if one of them is. *)
Fixpoint converted {X V : Type} (store : X -> res V) (l : list X) : res (list V) :=
  match l with
  | [] => Ok []
  | x :: l' => v <- store x ;; r <- converted store l' ;; Ok (v :: r)
  end.

(** The pixels of an image in the window from [f] to [b] around [p], in the order of memory. *)
Definition windowPixels {X : Type} (f b : list Z) (image : list Z -> X) (p : list Z) : list X :=
  map (fun q => image (map (fun xy => fst xy + snd xy) (combine p q))) (positions f b).

(** [xs] are [count] elements of the memory, read by rows of [width] consecutive elements;
    the first row starts at [start] and each row starts [stride] elements after the previous one. *)
Definition ReadByRows {X : Type} (mem : list X) (start width stride count : Z) (xs : list X) : Prop :=
  Forall2 (fun t x => zget mem (start + t mod width + t / width * stride) = Ok x) (zrange 0 (count - 1)) xs.

(** The pixels which are read for position [p]: those of its window where the latter goes out of the domain, else those from the first one in memory
    for the first inner position, and for the others those from an address which depends on the previous inner position. *)
Inductive PixelsRead {X : Type} (shape f b : list Z) (data : list X) (image : list Z -> X) : list Z -> list X -> Prop :=
| read_border p : InDomain shape p -> ~ Inner shape f b p -> PixelsRead shape f b data image p (windowPixels f b image p)
| read_first xs : ReadByRows data 0 (nth 0 b 0 - nth 0 f 0 + 1) (nth 0 shape 0) (windowSize f b) xs -> PixelsRead shape f b data image (map Z.opp f) xs
| read_next q p xs : InDomain shape p -> InDomain shape q -> Inner shape f b p -> PreviousInner shape f b q p ->
    ReadByRows data (rank shape q + 1 + rank shape f) (nth 0 b 0 - nth 0 f 0 + 1) (nth 0 shape 0) (windowSize f b) xs -> PixelsRead shape f b data image p xs.

Section Outcomes.
Context {X V : Type} (zero : V) (inner : V -> V -> X -> res V) (border : V -> V -> V -> res V) (store : X -> res V) (back : V -> res X).

(** What is written for pixels [xs], at the positions where they are read in memory, and at those where they are extrapolated. *)
Definition innerResult (values : list V) (xs : list X) : res X := s <- weighted inner zero (combine values xs) ;; back s.
Definition borderResult (values : list V) (xs : list X) : res X := vs <- converted store xs ;; s <- weighted border zero (combine values vs) ;; back s.

(** What each position gets. *)
Definition Gets (shape f b : list Z) (values : list V) (data : list X) (image : list Z -> X) (p : list Z) (v : res X) : Prop :=
  exists xs, PixelsRead shape f b data image p xs /\
    ((Inner shape f b p /\ v = innerResult values xs) \/ (~ Inner shape f b p /\ v = borderResult values xs)).
End Outcomes.

(** The kernel is applied to a raster of this shape and these pixels: its window contains the origin and fits in the raster, [image] is the extrapolated raster. *)
Definition Applies {X V : Type} (shape f b : list Z) (values : list V) (data : list X) (ext : list Z -> res X) (image : list Z -> X) : Prop :=
  shape <> [] /\ Positive shape /\ Z.of_nat (length data) = prod shape /\ length f = length shape /\ Forall2 (fun x y => x <= 0 <= y) f b /\
  Z.of_nat (length values) = windowSize f b /\ (exists p, length p = length shape /\ Inner shape f b p) /\
  forall q, length q = length shape -> ext q = Ok (image q).

(** The exact weighted sums. *)
Definition intSum (values xs : list Z) : Z := total (map (fun kx => fst kx * snd kx) (combine values xs)).
Definition realSum (values xs : list double) : R := totalR (map (fun kx => real (fst kx) * real (snd kx))%R (combine values xs)).
