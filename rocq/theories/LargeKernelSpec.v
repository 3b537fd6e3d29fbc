(** Specification of ND kernels whose window does not fit in the raster. *)
From Verif Require Import Res Spec RasterModel KernelSpec TypedKernelSpec.

(** Along each axis the window is longer than the raster by at most one. *)
Definition AtMostOneLonger (shape f b : list Z) : Prop := Forall2 (fun s xy => snd xy - fst xy + 1 <= s + 1) shape (combine f b).
(** Along some axis the window is longer than the raster by exactly one. *)
Definition OneLonger (shape f b : list Z) : Prop := exists i, (i < length shape)%nat /\ nth i b 0 - nth i f 0 + 1 = nth i shape 0 + 1.

(** A window which does not fit in the raster but for which all pixels are computed. The first axis is [s0], along which the window goes from [f0] to [b0];
    along the others it is at most one longer than the raster.
    Excluded although the pixels are computed: [- f0 = s0] and [s0 + 1 < b0 - f0 + 1], where the code names the element after the last one ([&out[box.front()]], Kernel.h). *)
Definition LargeWindow (s0 : Z) (s' : list Z) (f0 : Z) (f' : list Z) (b0 : Z) (b' : list Z) : Prop :=
  f0 <= 0 <= b0 /\ Forall2 (fun x y => x <= 0 <= y) f' b' /\ length f' = length s' /\ AtMostOneLonger s' f' b' /\
  (OneLonger s' f' b' \/ b0 - f0 + 1 = s0 + 1 \/ (s0 + 1 < b0 - f0 + 1 /\ - f0 < s0 /\ b0 <= s0)).
