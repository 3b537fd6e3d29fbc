(** Specification of what ND kernels in place compute. *)
From Coq Require Import Sorting.Sorted.
From Verif Require Import Res RasterModel Spec BoxSpec RasterSpec KernelSpec TypedKernelSpec.

(** When a position is visited: 0 if the window around it is in the domain; else 2 i + 1 if the last axis along which it goes out is axis [i] and it goes out before the domain,
    2 i + 2 if it goes out after. *)
Fixpoint phase (i : Z) (shape f b p : list Z) : Z :=
  match shape, f, b, p with
  | s :: shape', x :: f', y :: b', z :: p' =>
      let later := phase (i + 1) shape' f' b' p' in
      if 0 <? later then later else if z + x <? 0 then 2 * i + 1 else if s <=? z + y then 2 * i + 2 else 0
  | _, _, _, _ => 0
  end.

(** Positions are visited phase by phase, and in the order of memory in each phase. *)
Definition Earlier (shape f b p q : list Z) : Prop :=
  phase 0 shape f b p < phase 0 shape f b q \/ (phase 0 shape f b p = phase 0 shape f b q /\ lexLt p q).
Definition VisitOrder (shape f b : list Z) (order : list (list Z)) : Prop :=
  (forall p, In p order <-> InDomain shape p) /\ StronglySorted (Earlier shape f b) order.

(** [r'] is [r] where the pixel at [p] is [v]. *)
Definition WithPixel {X : Type} (shape : list Z) (r : raster X) (p : list Z) (v : X) (r' : raster X) : Prop :=
  rshape r' = rshape r /\ length (rdata r') = length (rdata r) /\ zget (rdata r') (rank shape p) = Ok v /\
  forall y, InDomain shape y -> y <> p -> zget (rdata r') (rank shape y) = zget (rdata r) (rank shape y).

Section Replaced.
Context {X V : Type} (zero : V) (inner : V -> V -> X -> res V) (border : V -> V -> V -> res V) (store : X -> res V) (back : V -> res X).
Variables (shape f b : list Z) (values : list V) (image : raster X -> list Z -> X).

(** The pixels at these positions are replaced one after the other: each of them gets what a kernel which is not in place would give, but for the raster
    where the former ones are replaced, and extrapolated as such. The first exception or undefined behaviour is the outcome. *)
Inductive Replaced : list (list Z) -> raster X -> res (raster X) -> Prop :=
| replaced_all r : Replaced [] r (Ok r)
| replaced_pixel p ps r v r' o : Gets zero inner border store back shape f b values (rdata r) (image r) p (Ok v) -> WithPixel shape r p v r' ->
    Replaced ps r' o -> Replaced (p :: ps) r o
| replaced_throw p ps r e : Gets zero inner border store back shape f b values (rdata r) (image r) p (Throw e) -> Replaced (p :: ps) r (Throw e)
| replaced_ub p ps r : Gets zero inner border store back shape f b values (rdata r) (image r) p UB -> Replaced (p :: ps) r UB.
End Replaced.

(** The kernel is applied in place to a raster of this shape: its window contains the origin and fits in the raster,
    [image r] is the extrapolation of raster [r]. *)
Definition AppliesInPlace {X V : Type} (shape f b : list Z) (values : list V) (data : list X) (view : raster X -> list Z -> res X) (image : raster X -> list Z -> X) : Prop :=
  shape <> [] /\ Positive shape /\ Z.of_nat (length data) = prod shape /\ length f = length shape /\ Forall2 (fun x y => x <= 0 <= y) f b /\
  Z.of_nat (length values) = windowSize f b /\ (exists p, length p = length shape /\ Inner shape f b p) /\
  forall r q, WF r -> rshape r = shape -> length q = length shape -> view r q = Ok (image r q).
