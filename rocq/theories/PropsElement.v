(** C117: access to the elements of containers and rasters without bound checking. *)
From Verif Require Import Res VecModel BoxModel RasterModel ContainerModel ElementModel Spec BoxSpec RasterSpec ElementProofs.

(** front() and back() are the first and last elements; they are undefined for empty containers only, which emtpy() tells. *)
Theorem C117_first_last : forall A (l : list A), Z.of_nat (length l) < 2 ^ 64 ->
  (forall a, efront l = Ok a <-> exists l', l = a :: l') /\ (forall a, eback l = Ok a <-> exists l', l = l' ++ [a]) /\
  (efront l = UB <-> l = []) /\ (eback l = UB <-> l = []) /\ (eempty l = true <-> l = []).
Proof. exact @element_bounds. Qed.
Print Assumptions C117_first_last.
Example C117_first_last_met : efront [5; 6; 7] = Ok 5 /\ eback [5; 6; 7] = Ok 7 /\ eempty [5; 6; 7] = false /\ eback (@nil Z) = UB.
Proof. repeat split. Qed.

(** Writing through them replaces that element only. *)
Theorem C117_write : forall A (l : list A) a, Z.of_nat (length l) < 2 ^ 64 ->
  (forall x l', l = x :: l' -> efrontSet l a = Ok (a :: l')) /\ (forall l' x, l = l' ++ [x] -> ebackSet l a = Ok (l' ++ [a])) /\
  (l = [] -> efrontSet l a = UB /\ ebackSet l a = UB).
Proof. exact @element_write. Qed.
Print Assumptions C117_write.
Example C117_write_met : efrontSet [5; 6; 7] 9 = Ok [9; 6; 7] /\ ebackSet [5; 6; 7] 9 = Ok [5; 6; 9].
Proof. split; reflexivity. Qed.

(** container[i], read and write: the element of index i, and no other; as opposed to at(i), undefined out of the bounds, negative indices included. *)
Theorem C117_index : forall A (l : list A) i a, Z.of_nat (length l) < 2 ^ 63 -> - 2 ^ 63 <= i < 2 ^ 63 ->
  (0 <= i < Z.of_nat (length l) -> exists x, nth_error l (Z.to_nat i) = Some x /\ eget l i = Ok x) /\
  (0 <= i < Z.of_nat (length l) -> exists l', eset l i a = Ok l' /\ length l' = length l /\ eget l' i = Ok a /\ forall j, j <> i -> zget l' j = zget l j) /\
  (i < 0 \/ Z.of_nat (length l) <= i -> eget l i = UB /\ eset l i a = UB).
Proof. exact @element_get. Qed.
Print Assumptions C117_index.
Example C117_index_met : eget [5; 6; 7] 1 = Ok 6 /\ eset [5; 6; 7] 1 9 = Ok [5; 9; 7] /\ eget [5; 6; 7] (-1) = UB.
Proof. repeat split. Qed.

(** A raster which is not empty: front() and back() are the pixels at the first and last positions of its domain, as are at(0) and at(-1);
    raster[raster.index(position)] is raster[position]. *)
Theorem C117_raster : forall A n (r : raster A), WF r -> Positive (rshape r) -> prod (rshape r) < 2 ^ 63 ->
  (exists a, efront (rdata r) = Ok a /\ rget n r (repeat 0 (length (rshape r))) = Ok a /\ cat (rdata r) 0 = Ok a) /\
  (exists a, eback (rdata r) = Ok a /\ rget n r (vsubs (rshape r) 1) = Ok a /\ cat (rdata r) (-1) = Ok a) /\
  (forall p, InDomain (rshape r) p -> exists a i, rindex n (rshape r) p = Ok i /\ rget n r p = Ok a /\ eget (rdata r) i = Ok a).
Proof. exact @element_raster. Qed.
Print Assumptions C117_raster.
Example C117_raster_met : let r := mkRaster [2; 3] [1; 2; 3; 4; 5; 6] in WF r /\ Positive (rshape r) /\
  eback (rdata r) = Ok 6 /\ rget 2 r [1; 2] = Ok 6 /\ rget 2 r [0; 2] = Ok 5.
Proof. cbv zeta. repeat split; try discriminate; repeat constructor; lia. Qed.

(** The same for rasters which point to the memory of others, like sections (see C12 for the pixel of the parent this is). *)
Theorem C117_view : forall A m (mem : list A) v, vshape v <> [] -> Positive (vshape v) -> prod (vshape v) < 2 ^ 63 ->
  viewFront mem v = viewGet m mem v (repeat 0 (length (vshape v))) /\
  viewBack mem v = viewGet m mem v (vsubs (vshape v) 1) /\
  (forall p, InDomain (vshape v) p -> exists i, rindex m (vshape v) p = Ok i /\ viewElement mem v i = viewGet m mem v p).
Proof. exact @element_view. Qed.
Print Assumptions C117_view.
Example C117_view_met : let v := mkView [2; 2] 2 in Positive (vshape v) /\ section2 2 [2; 4] 1 2 = Ok v /\
  viewFront [1; 2; 3; 4; 5; 6; 7; 8] v = Ok 3 /\ viewBack [1; 2; 3; 4; 5; 6; 7; 8] v = Ok 6.
Proof. cbv zeta. repeat split; try (repeat constructor; lia). Qed.
