(** Specification of ND kernels in place. *)
From Verif Require Import Res BoxModel RasterModel Spec BoxSpec RasterSpec.

(** [y] is at or after [p] along each axis. *)
Definition AtOrAfter (p y : list Z) : Prop := Forall2 Z.le p y.

(** Beyond a pixel, i.e. at a position which is at or after it along each axis, the extrapolated raster depends only on the pixels which are at or after it. *)
Definition LooksAhead {X} (n : Z) (shape : list Z) (view : raster X -> list Z -> res X) : Prop :=
  forall s s' p q, WF s -> WF s' -> rshape s = shape -> rshape s' = shape -> InDomain shape p -> AtOrAfter p q ->
    (forall y, InDomain shape y -> AtOrAfter p y -> rget n s y = rget n s' y) -> view s q = view s' q.

(** Rasters, for examples. *)
Definition fourPixels : raster Z := mkRaster [4] [1; 2; 3; 4].
Definition ninePixels : raster Z := mkRaster [3; 3] [1; 2; 3; 4; 5; 6; 7; 8; 9].
