(** Model of Fits (LitlIo/LitlIo/Fits.h).
    CFITSIO is external: its calls follow its documentation, and may fail at any time, as decided by an oracle. *)
From Verif Require Import Res VecModel.

(** A file: the lengths of its image and the bytes thereof. *)
Record image := mkImage { naxes : list Z; ibytes : list Z }.

(** The files by name, the number of files which are open, and the number of calls so far. *)
Record world := mkWorld { files : nat -> option image; opened : Z; calls : nat }.

(** m_filename, m_fptr (the name of the open file), m_status (Fits.h: 66-69). *)
Record fits := mkFits { fname : nat; fptr : option nat; fstatus : Z }.

(** A raster whose pixels take [w] bytes: m_shape, and the bytes of the pixels from data(). *)
Record bytesRaster := mkBytesRaster { bshape : list Z; bdata : list Z }.

Definition setFile (f : nat -> option image) (n : nat) (x : option image) : nat -> option image := fun k => if Nat.eqb k n then x else f k.

Section Cfitsio.
(** The failure of the k-th call: a positive error code, and what becomes of the file; None: it does not fail. *)
Variable oracle : nat -> option (positive * image).

Definition tick (w : world) : world := mkWorld (files w) (opened w) (S (calls w)).

(** Each function returns immediately if the status is positive; [fail] is the effect of a failure, [ok] that of a success. *)
Definition call (x : fits * world) (fail : positive -> image -> fits * world -> fits * world) (ok : fits * world -> fits * world) : fits * world :=
  if 0 <? fstatus (fst x) then x
  else let y := (fst x, tick (snd x)) in
       match oracle (calls (snd x)) with Some (e, junk) => fail e junk y | None => ok y end.

Definition setStatus (x : fits * world) (e : Z) : fits * world := (mkFits (fname (fst x)) (fptr (fst x)) e, snd x).
Definition failAt (e : positive) (_ : image) (x : fits * world) : fits * world := setStatus x (Zpos e).
(** A failure while writing leaves some content. *)
Definition failWriting (e : positive) (junk : image) (x : fits * world) : fits * world :=
  match fptr (fst x) with
  | Some n => setStatus (fst x, mkWorld (setFile (files (snd x)) n (Some junk)) (opened (snd x)) (calls (snd x))) (Zpos e)
  | None => setStatus x (Zpos e)
  end.

(** fits_open_file: FILE_NOT_OPENED (104) if the file does not exist. *)
Definition openFile (x : fits * world) : fits * world :=
  call x failAt (fun x => match files (snd x) (fname (fst x)) with
    | Some _ => (mkFits (fname (fst x)) (Some (fname (fst x))) 0, mkWorld (files (snd x)) (opened (snd x) + 1) (calls (snd x)))
    | None => (mkFits (fname (fst x)) None 104, snd x)
    end).

(** fits_create_file: FILE_NOT_CREATED (105) if the file exists. *)
Definition createFile (x : fits * world) : fits * world :=
  call x failAt (fun x => match files (snd x) (fname (fst x)) with
    | Some _ => (mkFits (fname (fst x)) None 105, snd x)
    | None => (mkFits (fname (fst x)) (Some (fname (fst x))) 0,
               mkWorld (setFile (files (snd x)) (fname (fst x)) (Some (mkImage [] []))) (opened (snd x) + 1) (calls (snd x)))
    end).

(** The image of the open file; NULL_INPUT_PTR (115) if there is none. *)
Definition current (x : fits * world) : option image := match fptr (fst x) with Some n => files (snd x) n | None => None end.

(** fits_get_img_dim and fits_get_img_size: the lengths, to which [d] is the initial value. *)
Definition getLengths (x : fits * world) (d : list Z) : (fits * world) * list Z :=
  let y := call x failAt (fun x => match current x with Some _ => x | None => setStatus x 115 end) in
  (y, if 0 <? fstatus (fst y) then d else match current y with Some i => naxes i | None => d end).

(** fits_create_img: BAD_NAXES (213) if a length is negative; the pixels are null. *)
Definition createImage (x : fits * world) (shape : list Z) : fits * world :=
  call x failWriting (fun x => match fptr (fst x) with
    | None => setStatus x 115
    | Some n => if existsb (fun d => d <? 0) shape then setStatus x 213
                else (fst x, mkWorld (setFile (files (snd x)) n (Some (mkImage shape (repeat 0 (Z.to_nat (shapeSize shape)))))) (opened (snd x)) (calls (snd x)))
    end).

(** fits_write_img with TBYTE: the first [n] bytes of data become the first [n] pixels of the image. *)
Definition writeImage (x : fits * world) (n : Z) (data : list Z) : fits * world :=
  call x failWriting (fun x => match fptr (fst x), current x with
    | Some f, Some i => (fst x, mkWorld (setFile (files (snd x)) f (Some (mkImage (naxes i) (firstn (Z.to_nat n) data ++ skipn (Z.to_nat n) (ibytes i))))) (opened (snd x)) (calls (snd x)))
    | _, _ => setStatus x 115
    end).

(** fits_read_img with TBYTE: the first [n] pixels of the image become the first [n] bytes of data. *)
Definition readImage (x : fits * world) (n : Z) (data : list Z) : (fits * world) * list Z :=
  let y := call x failAt (fun x => match current x with Some _ => x | None => setStatus x 115 end) in
  (y, if 0 <? fstatus (fst y) then data else match current y with Some i => firstn (Z.to_nat n) (ibytes i) ++ skipn (Z.to_nat n) data | None => data end).

(** fits_close_file closes whatever the status; NULL_INPUT_PTR if there is no file. *)
Definition closeFile (x : fits * world) : fits * world :=
  match fptr (fst x) with
  | None => setStatus x 115
  | Some _ =>
      let y := (fst x, mkWorld (files (snd x)) (opened (snd x) - 1) (calls (snd x))) in
      call y failWriting (fun x => x)
  end.

Definition nullify (x : fits * world) : fits * world := (mkFits (fname (fst x)) None (fstatus (fst x)), snd x).

(** Fits(filename) (Fits.h: 19). *)
Definition newFits (name : nat) : fits := mkFits name None 0.

(** write(raster) (Fits.h: 43-64): BYTE_IMG and TBYTE whatever the type of the pixels; the status is never checked. *)
Definition fitsWrite (x : fits * world) (r : bytesRaster) : fits * world :=
  nullify (closeFile (writeImage (createImage (createFile x) (bshape r)) (shapeSize (bshape r)) (bdata r))).

(** Position<N>(naxis) (Vector.h: 74, Holders.h: 77-82, 157-166). *)
Definition positionOfDim (n : Z) (dim : Z) : res (list Z) :=
  if n =? -1 then Ok (repeat 0 (Z.to_nat dim))
  else if negb (dim =? n) && negb (dim =? 0) then Throw EGeneric
  else Ok (repeat 0 (Z.to_nat n)).

(** read<Raster<T, n>>() (Fits.h: 21-41), where T takes [w] bytes, with its effects: when the constructor of the shape or of the raster throws,
    the file is not closed. *)
Definition fitsRead (n w : Z) (x : fits * world) : (fits * world) * res bytesRaster :=
  let x1 := openFile x in
  let '(x2, lengths) := getLengths x1 [] in
  match positionOfDim n (Z.of_nat (length lengths)) with
  | Throw e => (x2, Throw e)
  | UB => (x2, UB)
  | Ok zeros =>
      let '(x3, shape) := getLengths x2 zeros in
      let shape := if (0 <? fstatus (fst x3)) || (Z.of_nat (length lengths) =? 0) then zeros else shape in
      if shapeSize shape <? 0 then (x3, Throw EGeneric)
      else let '(x4, data) := readImage x3 (shapeSize shape) (repeat 0 (Z.to_nat (shapeSize shape * w))) in
           (nullify (closeFile x4), Ok (mkBytesRaster shape data))
  end.
End Cfitsio.
