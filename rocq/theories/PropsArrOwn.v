(** C102: rasters which hold an array are values, whose pixels stay in place.
    [Living s i o]: the [i]-th raster which was created exists and is [o]; [Attainable s]: [s] is the state after some program of creations,
    copies, moves, assignments (to oneself too), writes and destructions, whatever the assignment of a moved vector to itself leaves;
    [Unaltered s s' j]: raster [j] is the same with the same pixels; see ArrOwnSpec. *)
From Verif Require Import Res VecModel RasterModel ArithModel ArrOwnModel ArrOwnSpec ArrOwnProofs ArrPixelsProofs.

(** The constructor accepts exactly the shapes whose size is the capacity or 0, and makes pixels which are all T(). *)
Theorem C102_new : forall (A : Type) (zero : A) selfMoved s cap n sh, Attainable zero selfMoved s -> arrTyped n sh = true ->
  (shapeSize sh = Z.of_nat cap \/ shapeSize sh = 0 -> exists s' o, astep zero selfMoved s (ANew cap n sh) = Some (Ok s') /\ Living s' (length (arasters s)) o /\
     OnArray o /\ adim o = n /\ ashape o = sh /\ apixels s' (length (arasters s)) = Ok (repeat zero cap) /\ (forall j, Unaltered s s' j) /\ arrays s' = arrays s) /\
  (shapeSize sh <> Z.of_nat cap -> shapeSize sh <> 0 -> astep zero selfMoved s (ANew cap n sh) = Some (Throw EGeneric)).
Proof. exact @new_arr. Qed.
Print Assumptions C102_new.

(** From a temporary array, the size of the shape must be the capacity. *)
Theorem C102_new_from : forall (A : Type) (zero : A) selfMoved s n sh vs, Attainable zero selfMoved s -> arrTyped n sh = true ->
  (shapeSize sh = Z.of_nat (length vs) -> exists s' o, astep zero selfMoved s (ANewFrom n sh vs) = Some (Ok s') /\ Living s' (length (arasters s)) o /\
     OnArray o /\ adim o = n /\ ashape o = sh /\ apixels s' (length (arasters s)) = Ok vs /\ (forall j, Unaltered s s' j) /\ arrays s' = arrays s) /\
  (shapeSize sh <> Z.of_nat (length vs) -> astep zero selfMoved s (ANewFrom n sh vs) = Some (Throw ESize)).
Proof. exact @new_from. Qed.
Print Assumptions C102_new_from.

(** A copy has the shape and the pixels of its source; nothing else changes. *)
Theorem C102_copy : forall (A : Type) (zero : A) selfMoved s i o, Attainable zero selfMoved s -> Living s i o -> exists s',
  astep zero selfMoved s (ACopy i) = Some (Ok s') /\ Living s' (length (arasters s)) o /\ apixels s' (length (arasters s)) = apixels s i /\
  (forall j, Unaltered s s' j) /\ arrays s' = arrays s.
Proof. exact @copy_arr. Qed.
Print Assumptions C102_copy.

(** A move copies the pixels: the source keeps them, and the views on the source still read the source.
    The shape of the source is empty for variable dimension, and unchanged otherwise. *)
Theorem C102_move : forall (A : Type) (zero : A) selfMoved s i o, Attainable zero selfMoved s -> Living s i o -> exists s' p,
  astep zero selfMoved s (AMove i) = Some (Ok s') /\ Living s' (length (arasters s)) o /\ apixels s' (length (arasters s)) = apixels s i /\
  Living s' i p /\ ashape p = movedFrom (adim o) (ashape o) /\ adim p = adim o /\ aholds p = aholds o /\ apixels s' i = apixels s i /\
  (forall j, j <> i -> Unaltered s s' j) /\ arrays s' = arrays s.
Proof. exact @move_arr. Qed.
Print Assumptions C102_move.

(** After raster i = raster j, raster [i] has the shape and the pixels of raster [j]; the rasters which do not point to raster [i] are unaltered;
    those which point to it remain valid, and read the new pixels. The assignment of a raster to itself alters nothing. *)
Theorem C102_copy_assign : forall (A : Type) (zero : A) selfMoved s i j d o, Attainable zero selfMoved s -> Living s i d -> Living s j o -> arrSameType d o = true -> exists s',
  astep zero selfMoved s (ACopyAssign i j) = Some (Ok s') /\ Living s' i o /\ apixels s' i = apixels s j /\
  (forall k q, k <> i -> Living s k q -> (forall off, ~ PointsTo q i off) -> Unaltered s s' k) /\
  (forall k q off, Living s k q -> PointsTo q i off -> Living s' k q /\ forall e, areadAt s' k e = areadAt s j (off + e)) /\
  (i = j -> forall k, Unaltered s s' k) /\ arrays s' = arrays s.
Proof. exact @copyAssign_arr. Qed.
Print Assumptions C102_copy_assign.

Theorem C102_move_assign : forall (A : Type) (zero : A) selfMoved s i j d o, Attainable zero selfMoved s -> i <> j -> Living s i d -> Living s j o -> arrSameType d o = true -> exists s' p,
  astep zero selfMoved s (AMoveAssign i j) = Some (Ok s') /\ Living s' i o /\ apixels s' i = apixels s j /\
  Living s' j p /\ ashape p = movedFrom (adim o) (ashape o) /\ adim p = adim o /\ aholds p = aholds o /\ apixels s' j = apixels s j /\
  (forall k q, k <> i -> k <> j -> Living s k q -> (forall off, ~ PointsTo q i off) -> Unaltered s s' k) /\
  (forall k q off, Living s k q -> PointsTo q i off -> k <> j -> Living s' k q /\ forall e, areadAt s' k e = areadAt s j (off + e)) /\ arrays s' = arrays s.
Proof. exact @moveAssign_arr. Qed.
Print Assumptions C102_move_assign.

(** The assignment of a moved raster to itself keeps the pixels, and the shape if the dimension is fixed. *)
Theorem C102_self_move : forall (A : Type) (zero : A) selfMoved s i o, Attainable zero selfMoved s -> Living s i o -> exists s' p,
  astep zero selfMoved s (AMoveAssign i i) = Some (Ok s') /\ Living s' i p /\ adim p = adim o /\ aholds p = aholds o /\ (adim o <> -1 -> p = o) /\
  apixels s' i = apixels s i /\ (forall k, k <> i -> Unaltered s s' k) /\ arrays s' = arrays s.
Proof. exact @selfMove_arr. Qed.
Print Assumptions C102_self_move.

(** moveTo copies all the pixels into the array; the raster keeps them. *)
Theorem C102_move_to : forall (A : Type) (zero : A) selfMoved s i o, Attainable zero selfMoved s -> Living s i o -> OnArray o -> exists s' l,
  astep zero selfMoved s (AMoveTo i) = Some (Ok s') /\ apixels s i = Ok l /\ arrays s' = arrays s ++ [l] /\ forall j, Unaltered s s' j.
Proof. exact @moveTo_arr. Qed.
Print Assumptions C102_move_to.

(** A new view reads the pixels of its source from the given offset; in all states, a view reads the array it points to, and none once it is destroyed. *)
Theorem C102_view : forall (A : Type) (zero : A) selfMoved s i o off n sh, Attainable zero selfMoved s -> Living s i o -> arrTyped n sh = true -> exists s' p,
  astep zero selfMoved s (APointer i off n sh) = Some (Ok s') /\ Living s' (length (arasters s)) p /\ adim p = n /\ ashape p = sh /\ asize (aholds p) = shapeSize sh /\ ~ OnArray p /\
  (forall k, areadAt s' (length (arasters s)) k = areadAt s i (off + k)) /\ (forall j, Unaltered s s' j) /\ arrays s' = arrays s /\
  (forall k, address (length (arasters s)) p k = address i o (off + k)).
Proof. exact @pointer_arr. Qed.
Print Assumptions C102_view.

Theorem C102_view_reads : forall (A : Type) (zero : A) selfMoved s k q t off, Attainable zero selfMoved s -> Living s k q -> PointsTo q t off ->
  (forall e, areadAt s k e = areadAt s t (off + e)) /\ ((forall o, ~ Living s t o) -> forall e, areadAt s k e = UB) /\ k <> t.
Proof. exact @pointer_reads. Qed.
Print Assumptions C102_view_reads.

(** A write changes exactly the pixel at this address, in each raster which has it, and no other raster which owns its pixels if the written one does. *)
Theorem C102_write : forall (A : Type) (zero : A) selfMoved s i o k v s', Attainable zero selfMoved s -> Living s i o -> astep zero selfMoved s (AWrite i k v) = Some (Ok s') ->
  arrays s' = arrays s /\ (forall j p, Living s j p -> exists p', Living s' j p' /\ adim p' = adim p /\ ashape p' = ashape p /\ (forall e, address j p' e = address j p e) /\
    forall e, areadAt s' j e = if Nat.eqb (fst (address j p e)) (fst (address i o k)) && (snd (address j p e) =? snd (address i o k)) then Ok v else areadAt s j e) /\
  (forall j p, Living s j p -> j <> i -> OnArray o -> OnArray p -> Unaltered s s' j).
Proof. exact @write_arr. Qed.
Print Assumptions C102_write.

(** Destroying a raster makes the accesses through the views on it undefined, and alters nothing else. *)
Theorem C102_destroy : forall (A : Type) (zero : A) selfMoved s i o, Attainable zero selfMoved s -> Living s i o -> exists s',
  astep zero selfMoved s (ADestroy i) = Some (Ok s') /\ (forall p, ~ Living s' i p) /\
  (forall k q, k <> i -> Living s k q -> (forall off, ~ PointsTo q i off) -> Unaltered s s' k) /\
  (forall k q off, Living s k q -> PointsTo q i off -> Living s' k q /\ forall e, areadAt s' k e = UB) /\ arrays s' = arrays s.
Proof. exact @destroy_arr. Qed.
Print Assumptions C102_destroy.

(** The pixels from begin() to end(), of a raster or of a view, are the elements which are read one by one, as many as its size(). *)
Theorem C102_pixels : forall (A : Type) (s : astate A) i o l, Living s i o -> apixels s i = Ok l ->
  Z.of_nat (length l) = Z.max 0 (asize (aholds o)) /\ forall k, 0 <= k < Z.of_nat (length l) -> areadAt s i k = zget l k.
Proof. exact @arr_pixels. Qed.
Print Assumptions C102_pixels.

(** In every program, a raster which holds an array has defined pixels, as many as its size(), and the only undefined operations are writes,
    through a view or outside of the pixels. *)
Theorem C102_defined : forall (A : Type) (zero : A) selfMoved s, Attainable zero selfMoved s ->
  (forall i o, Living s i o -> OnArray o -> exists l, apixels s i = Ok l /\ Z.of_nat (length l) = asize (aholds o)) /\
  (forall o, astep zero selfMoved s o = Some UB -> exists i x k v, o = AWrite i k v /\ Living s i x /\ (OnArray x -> ~ 0 <= k < asize (aholds x))).
Proof. exact @defined_arr. Qed.
Print Assumptions C102_defined.

(** The size of a raster is that of its shape, in the programs which make no array raster without a shape and move from none of variable dimension. *)
Theorem C102_size_partial : forall (A : Type) (zero : A) selfMoved s i o, Tidy zero selfMoved s -> Living s i o -> OnArray o -> asize (aholds o) = shapeSize (ashape o).
Proof. exact @consistent_arr. Qed.
Print Assumptions C102_size_partial.

(** A raster made without a shape has as many pixels as its capacity, and so has one of variable dimension which was moved from. *)
Theorem C102_size_refuted : forall (A : Type) (zero : A) selfMoved, exists s o p,
  aexec zero selfMoved astart [ANew 4 2 [0; 0]; ANew 6 (-1) [2; 3]; AMove 1] = Some (Ok s) /\
  Living s 0 o /\ ashape o = [0; 0] /\ shapeSize (ashape o) = 0 /\ asize (aholds o) = 4 /\
  Living s 1 p /\ ashape p = [] /\ shapeSize (ashape p) = 0 /\ asize (aholds p) = 6.
Proof. exact @arr_size_refuted. Qed.
Print Assumptions C102_size_refuted.

(** Contrary to the views on a raster which holds a vector, those on a raster which holds an array do not follow the pixels which are moved:
    after a move then a write to the new raster, the view still reads the former raster. *)
Theorem C102_follow_refuted : exists s, aexec 0 (fun x => x) astart [ANewFrom 1 [2] [7; 8]; APointer 0 1 1 [1]; AMove 0; AWrite 2 1 9] = Some (Ok s) /\
  areadAt s 2 1 = Ok 9 /\ areadAt s 1 0 = Ok 8 /\ areadAt s 0 1 = Ok 8.
Proof. exact arr_follow_refuted. Qed.
Print Assumptions C102_follow_refuted.

Example C102_met : exists s,
  aexec 0 (fun _ => []) astart [ANewFrom 1 [2] [7; 8]; APointer 0 1 1 [1]; ACopy 0; ANew 2 1 [2]; ACopyAssign 0 3; AWrite 1 0 5; AMoveAssign 3 2; AMoveTo 2; ADestroy 2; ANew 2 1 [3]] = Some (Ok s) /\
  Attainable 0 (fun _ => []) s /\ apixels s 0 = Ok [0; 5] /\ apixels s 1 = Ok [5] /\ apixels s 3 = Ok [7; 8] /\ arrays s = [[7; 8]] /\
  (exists q, Living s 1 q /\ PointsTo q 0 1) /\ (exists o, Living s 0 o /\ OnArray o) /\ (forall o, ~ Living s 2 o).
Proof.
  eexists. split; [reflexivity|]. split; [exists [ANewFrom 1 [2] [7; 8]; APointer 0 1 1 [1]; ACopy 0; ANew 2 1 [2]; ACopyAssign 0 3; AWrite 1 0 5; AMoveAssign 3 2; AMoveTo 2; ADestroy 2; ANew 2 1 [3]]; reflexivity|]. split; [reflexivity|]. split; [reflexivity|]. split; [reflexivity|]. split; [reflexivity|].
  split; [eexists; split; [reflexivity|eexists; reflexivity]|]. split; [eexists; split; [reflexivity|eexists; reflexivity]|]. intros o H. discriminate H.
Qed.
Example C102_tidy_met : exists s, Tidy 0 (fun _ => []) s /\ (exists o, Living s 0 o /\ OnArray o) /\ length (arasters s) = 2%nat.
Proof.
  eexists. split.
  - eapply (tidy_step _ _ _ (AMove 0)); [eapply (tidy_step _ _ _ (ANew 2 1 [2])); [constructor| |reflexivity]| |reflexivity].
    + cbn. discriminate.
    + cbn. intros x L _. injection L as <-. discriminate.
  - split; [eexists; split; [reflexivity|eexists; reflexivity]|reflexivity].
Qed.
