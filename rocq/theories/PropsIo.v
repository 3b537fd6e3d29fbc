(** C62: FITS files. [oracle] decides which CFITSIO calls fail; a raster is given by its shape and by the bytes of its pixels. *)
From Verif Require Import Res VecModel FitsModel FitsSpec FitsProofs.

(** For pixels of one byte, read() gives back the raster given to write(), for a new file, when no call fails; other files are untouched and none is left open. *)
Theorem C62_round_trip_partial : forall oracle n name w r, Reliable oracle w -> files w name = None -> RasterOf n 1 r ->
  exists w1 w2, fitsWrite oracle (newFits name, w) r = (newFits name, w1) /\ fitsRead oracle n 1 (newFits name, w1) = ((newFits name, w2), Ok r) /\
  opened w1 = opened w /\ opened w2 = opened w /\ (forall k, k <> name -> files w1 k = files w k) /\ (forall k, files w2 k = files w1 k).
Proof. exact round_trip_bytes. Qed.
Print Assumptions C62_round_trip_partial.
Definition noFile : world := mkWorld (fun _ => None) 0 0.
Definition never : nat -> option (positive * image) := fun _ => None.
Example C62_round_trip_met : Reliable never noFile /\ RasterOf 2 1 (mkBytesRaster [2; 3] [1; 2; 3; 4; 5; 6]) /\
  snd (fitsRead never 2 1 (fitsWrite never (newFits 5, noFile) (mkBytesRaster [2; 3] [1; 2; 3; 4; 5; 6]))) = Ok (mkBytesRaster [2; 3] [1; 2; 3; 4; 5; 6]).
Proof. split; [intros k _; reflexivity|]. split; [|reflexivity]. unfold RasterOf. cbn. repeat split; auto; try lia. repeat (constructor; [lia|]). constructor. Qed.

(** For pixels of [ww] bytes, as many bytes as there are pixels are kept, and the other ones are lost: this is what holds instead of the round trip. *)
Theorem C62_bytes : forall oracle n ww name w r, Reliable oracle w -> files w name = None -> RasterOf n ww r ->
  exists w1 w2, fitsWrite oracle (newFits name, w) r = (newFits name, w1) /\
  fitsRead oracle n ww (newFits name, w1) = ((newFits name, w2), Ok (mkBytesRaster (bshape r) (firstn (Z.to_nat (shapeSize (bshape r))) (bdata r) ++ repeat 0 (Z.to_nat (shapeSize (bshape r) * (ww - 1)))))) /\
  opened w1 = opened w /\ opened w2 = opened w /\ (forall k, k <> name -> files w1 k = files w k) /\ (forall k, files w2 k = files w1 k).
Proof. exact round_trip. Qed.
Print Assumptions C62_bytes.

(** Two pixels of type short: 258 and 772 are read back as 258 and 0. *)
Theorem C62_wide_refuted : exists r r', RasterOf 1 2 r /\ snd (fitsRead (fun _ => None) 1 2 (fitsWrite (fun _ => None) (newFits 0, mkWorld (fun _ => None) 0 0) r)) = Ok r' /\ r' <> r.
Proof. exact wide_lost. Qed.
Print Assumptions C62_wide_refuted.

(** Any image of the right dimension is read. *)
Theorem C62_read : forall oracle n ww name w i, Reliable oracle w -> files w name = Some i -> ImageFile i -> (n = -1 \/ n = Z.of_nat (length (naxes i))) -> 0 < ww ->
  exists w', fitsRead oracle n ww (newFits name, w) = ((newFits name, w'), Ok (mkBytesRaster (naxes i) (ibytes i ++ repeat 0 (Z.to_nat (shapeSize (naxes i) * (ww - 1)))))) /\
  opened w' = opened w /\ (calls w <= calls w')%nat /\ forall k, files w' k = files w k.
Proof. exact read_ok. Qed.
Print Assumptions C62_read.
Example C62_read_met : ImageFile (mkImage [2; 2] [9; 8; 7; 6]).
Proof. split; [repeat (constructor; [lia|]); constructor|reflexivity]. Qed.

(** A file of another dimension makes read() throw, and stays open. *)
Theorem C62_dimension_refuted : forall oracle n ww name w i, Reliable oracle w -> files w name = Some i -> 0 <= n -> Z.of_nat (length (naxes i)) <> n -> naxes i <> [] ->
  exists f w', fitsRead oracle n ww (newFits name, w) = ((f, w'), Throw EGeneric) /\ opened w' = opened w + 1 /\ fptr f = Some name.
Proof. exact wrong_dimension. Qed.
Print Assumptions C62_dimension_refuted.

(** Writing to a file which exists changes nothing and does not throw. *)
Theorem C62_overwrite_refuted : forall oracle name w r i, files w name = Some i ->
  exists f w', fitsWrite oracle (newFits name, w) r = (f, w') /\ files w' = files w /\ 0 < fstatus f.
Proof. exact existing_stuck. Qed.
Print Assumptions C62_overwrite_refuted.

(** Reading a file which does not exist gives an empty raster and does not throw. *)
Theorem C62_missing_refuted : forall oracle n ww name w, n = -1 \/ 0 <= n -> files w name = None ->
  exists f w', fitsRead oracle n ww (newFits name, w) = ((f, w'), Ok (mkBytesRaster (emptyShape n) [])) /\ files w' = files w /\ 0 < fstatus f.
Proof. exact absent_read. Qed.
Print Assumptions C62_missing_refuted.

(** Once a call failed, the object is of no use: whatever it is asked, it writes no file, and reads empty rasters, silently. *)
Theorem C62_sticky_refuted : forall oracle x l, Forall (fun o => match o with FWrite _ => True | FRead n _ => n = -1 \/ 0 <= n end) l -> 0 < fstatus (fst x) ->
  let y := fsteps oracle x l in 0 < fstatus (fst y) /\ files (snd y) = files (snd x) /\ fname (fst y) = fname (fst x) /\
  forall n ww, n = -1 \/ 0 <= n -> snd (fitsRead oracle n ww y) = Ok (mkBytesRaster (emptyShape n) []).
Proof. exact sticky. Qed.
Print Assumptions C62_sticky_refuted.
(** Reading before the file is written prevents from writing it. *)
Example C62_sticky_met : let y := fsteps never (newFits 0, noFile) [FRead (-1) 1; FWrite (mkBytesRaster [2] [3; 4])] in fstatus (fst y) = 115 /\ files (snd y) 0%nat = None.
Proof. split; reflexivity. Qed.

(** Whichever calls fail, for a new file and pixels of one byte: the status is null if and only if no call of write() failed, and then the file contains the raster.
    No file is left open, and the other files are untouched. *)
Theorem C62_status_partial : forall oracle name w r, files w name = None -> Forall (fun d => 0 <= d) (bshape r) -> shapeSize (bshape r) = Z.of_nat (length (bdata r)) ->
  let y := fitsWrite oracle (newFits name, w) r in
  0 <= fstatus (fst y) /\ (fstatus (fst y) = 0 <-> forall k, (calls w <= k < calls (snd y))%nat -> oracle k = None) /\
  (fstatus (fst y) = 0 -> files (snd y) name = Some (mkImage (bshape r) (bdata r))) /\
  opened (snd y) = opened w /\ forall k, k <> name -> files (snd y) k = files w k.
Proof. exact write_status. Qed.
Print Assumptions C62_status_partial.
Example C62_status_met : let y := fitsWrite (fun k => if Nat.eqb k 2 then Some (108%positive, mkImage [2] [0; 9]) else None) (newFits 5, noFile) (mkBytesRaster [2] [3; 4]) in
  fstatus (fst y) = 108 /\ files (snd y) 5%nat = Some (mkImage [2] [0; 9]) /\ opened (snd y) = 0.
Proof. repeat split. Qed.
