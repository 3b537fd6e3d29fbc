(** Specification of filters in place. *)
From Verif Require Import Res BoxModel RasterModel TypesModel Spec BoxSpec RasterSpec.

(** [s] is the image in which the pixels of the region which come before [p] are those of [new], and the others are
    those of [old]. *)
Definition Halfway (n : Z) (region : box) (p : list Z) (old new s : raster Q) : Prop :=
  WF s /\ rshape s = rshape old /\
  forall y, InDomain (rshape old) y ->
    (InBox region y /\ lexLt y p -> rget n s y = rget n new y) /\
    (~ (InBox region y /\ lexLt y p) -> rget n s y = rget n old y).

(** A line of pixels, for examples. *)
Definition noisy : raster Q := mkRaster [5] [0; 5; 1; 6; 0]%Q.
