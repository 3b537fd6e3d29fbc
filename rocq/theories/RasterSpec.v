(** Small specifications on rasters. *)
From Verif Require Import Res RasterModel Spec.

(** Well-formed rasters: dimension at least 1, no negative length, as many pixels as the product of the lengths. *)
Definition WF {A} (r : raster A) : Prop :=
  rshape r <> [] /\ Forall (fun s => 0 <= s) (rshape r) /\ Z.of_nat (length (rdata r)) = prod (rshape r).

(** The region is contiguous in dimension [m]: the axes before the last one are full, those after it are flat. *)
Definition Contiguous (m : Z) (shape f b : list Z) : Prop :=
  forall i x y s, zget f i = Ok x -> zget b i = Ok y -> zget shape i = Ok s ->
    (i < m - 1 -> x = 0 /\ y = s - 1) /\ (m <= i -> x = y).
