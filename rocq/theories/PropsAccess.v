(** Properties C08 to C14: element access, membership, construction, views, equality. *)
From Coq Require Import Sorted.
From Verif Require Import Res VecModel BoxModel RasterModel ContainerModel LoopModel SubrasterModel
  Spec BoxSpec RasterSpec Lemmas IndexProofs BoxIterProofs BoxGeomProofs AccessProofs LoopProofs ViewProofs SubrasterProofs.

(** C08. at(i), for any 64-bit index. *)
Theorem C08_at_index : forall A (data : list A) i,
  Z.of_nat (length data) < 2 ^ 63 -> - 2 ^ 63 <= i < 2 ^ 63 ->
  let s := Z.of_nat (length data) in
  (0 <= i < s -> exists a, nth_error data (Z.to_nat i) = Some a /\ cat data i = Ok a) /\
  (- s <= i < 0 -> exists a, nth_error data (Z.to_nat (s + i)) = Some a /\ cat data i = Ok a) /\
  (i < - s \/ s <= i -> cat data i = Throw EOutOfBounds).
Proof. exact @cat_spec. Qed.
Print Assumptions C08_at_index.

(** Assignment through at(i). *)
Theorem C08_at_index_write : forall A (data : list A) i (a : A),
  Z.of_nat (length data) < 2 ^ 63 -> - 2 ^ 63 <= i < 2 ^ 63 ->
  let s := Z.of_nat (length data) in
  (- s <= i < s -> exists data', catSet data i a = Ok data' /\ length data' = length data /\ cat data' i = Ok a /\
     forall j, 0 <= j < s -> j <> i -> j <> s + i -> zget data' j = zget data j) /\
  (i < - s \/ s <= i -> catSet data i a = Throw EOutOfBounds).
Proof. exact @catSet_spec. Qed.
Print Assumptions C08_at_index_write.

Example C08_at_index_met :
  cat [10; 11; 12] 1 = Ok 11 /\ cat [10; 11; 12] (-1) = Ok 12 /\ cat [10; 11; 12] (-3) = Ok 10 /\
  cat [10; 11; 12] 3 = Throw EOutOfBounds /\ cat [10; 11; 12] (-4) = Throw EOutOfBounds /\
  cat (@nil Z) 0 = Throw EOutOfBounds /\ cat (@nil Z) (-1) = Throw EOutOfBounds.
Proof. repeat split. Qed.

(** C09. at(position). *)
Theorem C09_at_position : forall A n (r : raster A) pos,
  WF r -> length pos = length (rshape r) ->
  (Forall2 (fun s p => - s <= p < s) (rshape r) pos ->
     exists a q, q = map2 (fun s p => if p <? 0 then p + s else p) (rshape r) pos /\ InDomain (rshape r) q /\
       rget n r q = Ok a /\ rat n r pos = Ok a) /\
  (~ Forall2 (fun s p => - s <= p < s) (rshape r) pos -> rat n r pos = Throw EOutOfBounds).
Proof. exact @rat_spec. Qed.
Print Assumptions C09_at_position.

Theorem C09_at_position_write : forall A n (r : raster A) pos a,
  WF r -> length pos = length (rshape r) ->
  (Forall2 (fun s p => - s <= p < s) (rshape r) pos ->
     exists r' q, q = map2 (fun s p => if p <? 0 then p + s else p) (rshape r) pos /\
       ratSet n r pos a = Ok r' /\ rshape r' = rshape r /\ rget n r' q = Ok a /\
       forall q', InDomain (rshape r) q' -> q' <> q -> rget n r' q' = rget n r q') /\
  (~ Forall2 (fun s p => - s <= p < s) (rshape r) pos -> ratSet n r pos a = Throw EOutOfBounds).
Proof. exact @ratSet_spec. Qed.
Print Assumptions C09_at_position_write.

Example C09_at_position_met :
  WF (mkRaster [3; 2] [0; 1; 2; 3; 4; 5]) /\
  rat 2 (mkRaster [3; 2] [0; 1; 2; 3; 4; 5]) [1; -1] = Ok 4 /\
  rat (-1) (mkRaster [3; 2] [0; 1; 2; 3; 4; 5]) [-3; 0] = Ok 0 /\
  rat 2 (mkRaster [3; 2] [0; 1; 2; 3; 4; 5]) [1; 2] = Throw EOutOfBounds.
Proof. repeat split; try discriminate. repeat constructor; lia. Qed.

(** C10. contains(position). *)
Theorem C10_contains : forall A n (r : raster A) pos,
  WF r -> length pos = length (rshape r) ->
  exists c, contains r pos = Ok c /\
    (c = true <-> InDomain (rshape r) pos) /\
    (c = true -> exists i a, rindex n (rshape r) pos = Ok i /\ zget (rdata r) i = Ok a /\
       forall q, contains r q = Ok true -> length q = length (rshape r) -> rindex n (rshape r) q = Ok i -> q = pos).
Proof. exact @contains_spec. Qed.
Print Assumptions C10_contains.

Example C10_contains_met :
  contains (mkRaster [3; 2] [0; 1; 2; 3; 4; 5]) [2; 1] = Ok true /\
  contains (mkRaster [3; 2] [0; 1; 2; 3; 4; 5]) [3; 0] = Ok false /\
  contains (mkRaster [3; 2] [0; 1; 2; 3; 4; 5]) [-1; 1] = Ok false.
Proof. repeat split. Qed.

(** C11. Construction from a list of values, fixed dimension. *)
Theorem C11_from_list_partial : forall n shape values,
  n = Z.of_nat (length shape) -> shape <> [] ->
  (Z.of_nat (length values) = prod shape -> rasterOfList n HVector shape values = Ok (mkRaster shape values)) /\
  (Z.of_nat (length values) <> prod shape -> rasterOfList n HVector shape values = Throw ESize).
Proof. exact rasterOfList_vector. Qed.
Print Assumptions C11_from_list_partial.

Theorem C11_from_list_array_partial : forall n cap shape values,
  n = Z.of_nat (length shape) -> shape <> [] -> values <> [] ->
  (Z.of_nat (length values) = prod shape /\ length values = cap ->
     rasterOfList n (HArray cap) shape values = Ok (mkRaster shape values)) /\
  (~ (Z.of_nat (length values) = prod shape /\ length values = cap) ->
     exists e, rasterOfList n (HArray cap) shape values = Throw e).
Proof. exact rasterOfList_array. Qed.
Print Assumptions C11_from_list_array_partial.

(** From a moved container, both kinds of dimension. *)
Theorem C11_from_container : forall shape values,
  shape <> [] ->
  (Z.of_nat (length values) = prod shape -> rasterOfContainer shape values = Ok (mkRaster shape values)) /\
  (Z.of_nat (length values) <> prod shape -> rasterOfContainer shape values = Throw ESize).
Proof. exact rasterOfContainer_spec. Qed.
Print Assumptions C11_from_container.

Theorem C11_from_shape : forall shape,
  shape <> [] -> Forall (fun s => 0 <= s) shape ->
  exists r, rasterOfShape HVector shape = Ok r /\ rshape r = shape /\ Z.of_nat (length (rdata r)) = prod shape /\
            Forall (fun a => a = 0) (rdata r).
Proof. exact rasterOfShape_vector. Qed.
Print Assumptions C11_from_shape.

(** With an array as memory: the size must be that of the array, or 0 (see below). *)
Theorem C11_from_shape_array_partial : forall cap shape, shape <> [] ->
  (prod shape = Z.of_nat cap \/ prod shape = 0 -> rasterOfShape (HArray cap) shape = Ok (mkRaster shape (repeat 0 cap))) /\
  (prod shape <> Z.of_nat cap -> prod shape <> 0 -> exists e, rasterOfShape (HArray cap) shape = Throw e).
Proof. exact rasterOfShape_array. Qed.
Print Assumptions C11_from_shape_array_partial.

(** A raster of no pixel over an array contains the elements of the array. *)
Theorem C11_array_refuted : exists r, rasterOfShape (HArray 4) [0; 2] = Ok r /\ prod (rshape r) = 0 /\ length (rdata r) = 4%nat.
Proof. exact (ex_intro _ (mkRaster [0; 2] [0; 0; 0; 0]) (conj eq_refl (conj eq_refl eq_refl))). Qed.
Print Assumptions C11_array_refuted.

Example C11_met :
  rasterOfList 2 HVector [2; 2] [1; 2; 3; 4] = Ok (mkRaster [2; 2] [1; 2; 3; 4]) /\
  rasterOfList 2 HVector [2; 2] [1; 2; 3] = Throw ESize /\
  rasterOfList 2 (HArray 4) [2; 2] [1; 2; 3; 4] = Ok (mkRaster [2; 2] [1; 2; 3; 4]) /\
  rasterOfContainer [2; 2] [1; 2; 3; 4] = Ok (mkRaster [2; 2] [1; 2; 3; 4]) /\
  rasterOfShape HVector [2; 2] = Ok (mkRaster [2; 2] [0; 0; 0; 0]) /\
  rasterOfShape (HArray 4) [2; 2] = Ok (mkRaster [2; 2] [0; 0; 0; 0]) /\ rasterOfShape (HArray 4) [2; 3] = Throw EGeneric.
Proof. repeat split. Qed.

(** For run-time dimension, the constructor from a list throws whenever there are values, whatever the shape,
    and accepts an empty list whatever the shape. *)
Theorem C11_runtime_refuted : forall shape values,
  (values <> [] -> rasterOfList (-1) HVector shape values = Throw ESize) /\
  (values = [] -> rasterOfList (-1) HVector shape values = Ok (mkRaster shape [])).
Proof. exact rasterOfList_runtime. Qed.
Print Assumptions C11_runtime_refuted.

Example C11_runtime_refuted_met :
  rasterOfList (-1) HVector [2; 2] [1; 2; 3; 4] = Throw ESize /\
  rasterOfList (-1) HVector [2; 2] [] = Ok (mkRaster [2; 2] []).
Proof. repeat split. Qed.

(** C12. Slices: the pixels of the view are the ones of the region, at increasing addresses in the parent. *)
Theorem C12_slice : forall n m m' shape f b,
  shape <> [] -> n = -1 \/ n = Z.of_nat (length shape) -> m' = -1 \/ m' = m ->
  1 <= m <= Z.of_nat (length shape) -> InDomain shape f -> InDomain shape b -> Nonempty (mkBox f b) ->
  (Contiguous m shape f b ->
   exists v, slice n m shape (mkBox f b) = Ok v /\ Z.of_nat (length (vshape v)) = m /\
     vshape v = firstn (Z.to_nat m) (boxShape (mkBox f b)) /\
     (forall p, InBox (mkBox f b) p <->
        exists q, InDomain (vshape v) q /\ p = vadd f (q ++ repeat 0 (length shape - Z.to_nat m))) /\
     (forall q, InDomain (vshape v) q -> exists i, rindex m' (vshape v) q = Ok i /\
        rindex n shape (vadd f (q ++ repeat 0 (length shape - Z.to_nat m))) = Ok (voffset v + i) /\
        0 <= voffset v + i < prod shape)) /\
  (~ Contiguous m shape f b -> slice n m shape (mkBox f b) = Throw EGeneric).
Proof. exact slice_spec. Qed.
Print Assumptions C12_slice.

(** Reading and writing through a slice is reading and writing the pixel front + q of the parent. *)
Theorem C12_slice_access : forall A n m m' (r : raster A) f b v q a,
  WF r -> n = -1 \/ n = Z.of_nat (length (rshape r)) -> m' = -1 \/ m' = m ->
  1 <= m <= Z.of_nat (length (rshape r)) -> InDomain (rshape r) f -> InDomain (rshape r) b -> Nonempty (mkBox f b) ->
  slice n m (rshape r) (mkBox f b) = Ok v -> InDomain (vshape v) q ->
  let p := vadd f (q ++ repeat 0 (length (rshape r) - Z.to_nat m)) in
  InBox (mkBox f b) p /\ InDomain (rshape r) p /\
  (exists a0, rget n r p = Ok a0 /\ viewGet m' (rdata r) v q = Ok a0) /\
  (exists r', rset n r p a = Ok r' /\ viewSet m' (rdata r) v q a = Ok (rdata r')).
Proof. exact @slice_access. Qed.
Print Assumptions C12_slice_access.

(** What writing a pixel does: this pixel gets the value, no other changes. *)
Theorem C12_write_frame : forall A n (r : raster A) p a,
  WF r -> InDomain (rshape r) p ->
  exists r', rset n r p a = Ok r' /\ WF r' /\ rshape r' = rshape r /\ rget n r' p = Ok a /\
    forall q, InDomain (rshape r) q -> q <> p -> rget n r' q = rget n r q.
Proof. exact @rset_domain. Qed.
Print Assumptions C12_write_frame.

(** Sections along the last axis, fixed dimension. *)
Theorem C12_section_range_partial : forall n s1 l fr bk m',
  n = Z.of_nat (length (s1 ++ [l])) -> m' = -1 \/ m' = n -> Positive s1 -> 0 <= fr <= bk -> bk < l ->
  exists v, section2 n (s1 ++ [l]) fr bk = Ok v /\ vshape v = s1 ++ [bk - fr + 1] /\
    forall q z, InDomain s1 q -> 0 <= z <= bk - fr ->
      exists i, rindex m' (vshape v) (q ++ [z]) = Ok i /\ rindex n (s1 ++ [l]) (q ++ [fr + z]) = Ok (voffset v + i) /\
                0 <= voffset v + i < prod (s1 ++ [l]).
Proof. exact section2_spec. Qed.
Print Assumptions C12_section_range_partial.

Theorem C12_section_partial : forall n s1 l k m',
  n = Z.of_nat (length (s1 ++ [l])) -> m' = -1 \/ m' = n - 1 -> s1 <> [] -> Positive s1 -> 0 <= k < l ->
  exists v, section1 n (s1 ++ [l]) k = Ok v /\ vshape v = s1 /\
    forall q, InDomain s1 q ->
      exists i, rindex m' (vshape v) q = Ok i /\ rindex n (s1 ++ [l]) (q ++ [k]) = Ok (voffset v + i) /\
                0 <= voffset v + i < prod (s1 ++ [l]).
Proof. exact section1_spec. Qed.
Print Assumptions C12_section_partial.

Example C12_met :
  slice 3 2 [3; 4; 5] (mkBox [0; 1; 2] [2; 2; 2]) = Ok (mkView [3; 2] 27) /\
  slice 3 2 [3; 4; 5] (mkBox [1; 1; 2] [2; 2; 2]) = Throw EGeneric /\
  section2 2 [3; 4] 1 2 = Ok (mkView [3; 2] 3) /\ section1 3 [3; 4; 5] 2 = Ok (mkView [3; 4] 24) /\
  Contiguous 2 [3; 4; 5] [0; 1; 2] [2; 2; 2] /\ Nonempty (mkBox [0; 1; 2] [2; 2; 2]).
Proof.
  do 4 (split; [reflexivity|]). split; [|exists [0; 1; 2]; repeat constructor; lia].
  intros i x y s Hx Hy Hs. destruct (zget_range _ _ _ Hx) as [? ?]. cbn [length] in *.
  assert (i = 0 \/ i = 1 \/ i = 2) as [-> | [-> | ->]] by lia; vm_compute in Hx, Hy, Hs;
    injection Hx as <-; injection Hy as <-; injection Hs as <-; lia.
Qed.

(** Sections of rasters with run-time dimension are undefined behaviour. *)
Theorem C12_runtime_section_refuted : section2 (-1) [3; 4] 1 2 = UB /\ section1 (-1) [3; 4] 1 = UB.
Proof. exact (conj eq_refl eq_refl). Qed.
Print Assumptions C12_runtime_section_refuted.

(** C13. Subrasters: access... *)
Theorem C13_subraster_access : forall A n (r : raster A) f b q a,
  WF r -> n = -1 \/ n = Z.of_nat (length (rshape r)) ->
  InDomain (rshape r) f -> InDomain (rshape r) b -> InDomain (subShape (mkBox f b)) q ->
  let p := vadd f q in
  InBox (mkBox f b) p /\ InDomain (rshape r) p /\
  (exists a0, rget n r p = Ok a0 /\ subGet n r (mkBox f b) q = Ok a0) /\
  (exists r', rset n r p a = Ok r' /\ subSet n r (mkBox f b) q a = Ok r').
Proof. exact @sub_access. Qed.
Print Assumptions C13_subraster_access.

(** ... and iteration: the addresses [L] visited are those of the positions [P] of the region, in order. *)
Theorem C13_subraster_iteration : forall A n (r : raster A) f b,
  WF r -> n = -1 \/ n = Z.of_nat (length (rshape r)) ->
  InDomain (rshape r) f -> InDomain (rshape r) b -> Nonempty (mkBox f b) ->
  exists P L, (exists enough, forall fuel, (enough <= fuel)%nat -> subForeach fuel n (rshape r) (mkBox f b) = Some (Ok L)) /\
    NoDup P /\ (forall p, In p P <-> InBox (mkBox f b) p) /\
    Forall2 (fun p i => rindex n (rshape r) p = Ok i /\ exists a, zget (rdata r) i = Ok a) P L /\
    StronglySorted Z.lt L /\ subSize (mkBox f b) = Z.of_nat (length L).
Proof. exact @sub_iteration. Qed.
Print Assumptions C13_subraster_iteration.

Example C13_met :
  WF (mkRaster [3; 2] [0; 1; 2; 3; 4; 5]) /\ InDomain [3; 2] [1; 0] /\ InDomain [3; 2] [2; 1] /\
  Nonempty (mkBox [1; 0] [2; 1]) /\
  subForeach 5 2 [3; 2] (mkBox [1; 0] [2; 1]) = Some (Ok [1; 2; 4; 5]) /\
  subGet 2 (mkRaster [3; 2] [0; 1; 2; 3; 4; 5]) (mkBox [1; 0] [2; 1]) [1; 1] = Ok 5.
Proof. repeat split; try discriminate; [| | |exists [1; 1]]; repeat constructor; lia. Qed.

(** The iterator relies on a pointer before the first pixel: end() of a region which starts at the first pixel. *)
Theorem C13_end_pointer : forall n shape y b,
  n = -1 \/ n = Z.of_nat (length shape) -> shape <> [] -> length shape = S (length b) ->
  exists p s, endPosition (mkBox (repeat 0 (length shape)) (y :: b)) = Ok p /\
    subItMake n shape (mkBox (repeat 0 (length shape)) (y :: b)) p = Ok s /\ siCurrent s = -1.
Proof. exact sub_end_pointer. Qed.
Print Assumptions C13_end_pointer.
Example C13_end_pointer_met : exists s, endPosition (mkBox [0; 0] [2; 1]) = Ok [-1; 0] /\ subItMake 2 [3; 2] (mkBox [0; 0] [2; 1]) [-1; 0] = Ok s /\ siCurrent s = -1.
Proof. eexists. split; [reflexivity|]. split; reflexivity. Qed.

(** C14. Equality, for pixel types whose operator== is equality. *)
Theorem C14_equality : forall A (eqb : A -> A -> bool) n a b,
  (forall x y, eqb x y = true <-> x = y) -> WF a -> WF b ->
  (rasterEqb eqb a b = true <->
   rshape a = rshape b /\ forall p, InDomain (rshape a) p -> rget n a p = rget n b p).
Proof. exact @equality_spec. Qed.
Print Assumptions C14_equality.

Theorem C14_equivalence : forall A (eqb : A -> A -> bool) (a b c : raster A),
  (forall x y, eqb x y = true <-> x = y) ->
  rasterEqb eqb a a = true /\ rasterEqb eqb a b = rasterEqb eqb b a /\
  (rasterEqb eqb a b = true -> rasterEqb eqb b c = true -> rasterEqb eqb a c = true) /\
  (rshape a <> rshape b -> rasterEqb eqb a b = false).
Proof. exact @equality_equiv. Qed.
Print Assumptions C14_equivalence.

Example C14_met :
  (forall x y, Z.eqb x y = true <-> x = y) /\
  rasterEqb Z.eqb (mkRaster [3; 2] [0; 1; 2; 3; 4; 5]) (mkRaster [3; 2] [0; 1; 2; 3; 4; 5]) = true /\
  rasterEqb Z.eqb (mkRaster [3; 2] [0; 1; 2; 3; 4; 5]) (mkRaster [2; 3] [0; 1; 2; 3; 4; 5]) = false /\
  rasterEqb Z.eqb (mkRaster [3; 2] [0; 1; 2; 3; 4; 5]) (mkRaster [3; 2] [0; 1; 2; 3; 4; 6]) = false.
Proof. split; [apply Z.eqb_eq | repeat split]. Qed.
