(** Specification vocabulary for the behaviour of filters when the image is moved or its values are changed. *)
From Verif Require Import Res TypesModel BoxModel RasterModel LineKernelModel SeparableModel Spec BoxSpec RasterSpec KernelSpec SeparableSpec MedianSpec.

(** A median filter of window from [f] to [b], with an odd number of neighbors, can run on region [region]: [ext] gives the value X
    of each neighbor of the region, and the region is in the domain of the output. *)
Definition Filterable (f b : list Z) (region : box) (X : list Z -> Q) (ext : list Z -> res Q) (out : raster Q) : Prop :=
  f <> [] /\ Forall2 Z.le f b /\ windowSize f b mod 2 = 1 /\
  (forall p q, InBox region p -> InBox (mkBox f b) q -> ext (neighbor p q) = Ok (X (neighbor p q))) /\
  Nonempty region /\ (forall p, InBox region p -> InDomain (rshape out) p) /\ WF out /\ length (rshape out) = length f.

(** A separable kernel of distinct axes, made of the line kernels [ks], can be applied to the raster of given shape and data. *)
Definition Applicable (ks : list (list Z * Z * nat)) (shape data : list Z) : Prop :=
  Positive shape /\ NoDup (map snd ks) /\ Forall (Fits shape) ks /\ Z.of_nat (length data) = prod shape.

(** Offset [q] is in the window of the kernel, for images of dimension [n]. *)
Definition InWindow (n : nat) (ks : list (list Z * Z * nat)) (q : list Z) : Prop :=
  Between (fst (productWindow n ks)) (snd (productWindow n ks)) q.

(** The product of the sums of the values of the line kernels. *)
Definition gain (ks : list (list Z * Z * nat)) : Z := fold_right Z.mul 1 (map (fun koa => total (fst (fst koa))) ks).
