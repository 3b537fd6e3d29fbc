(** Specification of images with several channels. *)
From Coq Require Import QArith.
From Verif Require Import Res RasterModel.
Open Scope Z_scope.

(** The channels of the pixel at [p], along the first axis, are [xs]. *)
Definition Channels {A} (n : Z) (r : raster A) (p : list Z) (xs : list A) : Prop :=
  forall k, 0 <= k < Z.of_nat (length xs) -> rget n r (k :: p) = zget xs k.

(** Textbook conversion of a color whose components [r], [g], [b] are not all equal, in sixths of a turn:
    the hue is measured from the red (0), green (2) or blue (4) corner, whichever is the largest component, and is known modulo 6. *)
Definition Largest (x y z : Z) : Prop := y <= x /\ z <= x.
Definition HueOf (r g b : Z) (lo hi : Z) (h : Q) : Prop :=
  exists turns : Z,
    (Largest r g b /\ h == 60 * (inject_Z (g - b) / inject_Z (hi - lo)) + 360 * inject_Z turns)%Q \/
    (Largest g b r /\ h == 60 * (2 + inject_Z (b - r) / inject_Z (hi - lo)) + 360 * inject_Z turns)%Q \/
    (Largest b r g /\ h == 60 * (4 + inject_Z (r - g) / inject_Z (hi - lo)) + 360 * inject_Z turns)%Q.

(** The memory of a raster of structures, one after the other, seen as a raster with one more axis. *)
Definition flattened {A} (c : Z) (r : raster (list A)) : raster A := mkRaster (c :: rshape r) (concat (rdata r)).
Definition Structures {A} (c : Z) (r : raster (list A)) : Prop := Forall (fun x => Z.of_nat (length x) = c) (rdata r).
