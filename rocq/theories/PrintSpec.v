(** Specification of the prints of correlations. *)
From Verif Require Import Res Spec KernelSpec SeparableSpec WidthModel WidthSpec PrintModel.

(** The types of pixels which printf may print as int: the integral types of at most 32 bits... *)
Definition PassedAsInt (t : vtype) : Prop := match t with VInt t => ibits t <= 32 | VFloat => False end.
(** ...with a value which int can represent. *)
Definition Printable (t : vtype) (z : Z) : Prop := PassedAsInt t /\ - 2 ^ 31 <= z < 2 ^ 31.

(** The first pixel of a raster. *)
Definition firstPosition (shape : list Z) : list Z := map (fun _ => 0) shape.

(** The first pixel after the correlations along the [j] first axes. *)
Definition stage (shape : list Z) (ks : list (list Z * Z * nat)) (X : list Z -> Z) (j : nat) : Z :=
  axesCorrelation shape (firstn j ks) X (firstPosition shape).

(** What is printed when a separable kernel is applied: one line per axis, from the last one to the first one,
    with the first pixel after this axis, and the first pixel at the end. *)
Definition separableCalls (shape : list Z) (ks : list (list Z * Z * nat)) (X : list Z -> Z) : list call :=
  rev (map (fun j => mkCall "%li: %i -> %i" [Z.of_nat (nth j (map snd ks) O); stage shape ks X (S j); stage shape ks X (length ks)])
        (seq 0 (length ks))).

(** What is printed when a whole line of [size] pixels is correlated: the sampling, then one line per pixel, with the bound of the loop which
    computes it (the pixels near the first border, those of the center, those near the last border), its index and its value. *)
Definition lineCall (length o size : Z) (value : Z -> Z) (i : Z) : call :=
  let forward := length - o - 1 in
  if i <? o then mkCall "Begin (<%li): out[%li] = %i" [o; i; value i]
  else if i <? size - forward then mkCall "Center (<=%li): out[%li] = %i" [size - forward - 1; i; value i]
  else mkCall "End (<=%li): out[%li] = %i" [size - 1; i; value i].

(** What is printed for a whole raster of dimension 2: its lengths, then its pixels row by row, with a line feed after each row. *)
Definition rasterCalls (title : String.string) (w h : Z) (data : list Z) : list call :=
  mkCall title [w; h] ::
  concat (map (fun y => map (fun x => mkCall "%i " [pixel [w; h] data [x; y]]) (zrange 0 (w - 1)) ++ [mkCall "" []]) (zrange 0 (h - 1))).
