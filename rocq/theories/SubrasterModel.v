(** Model of Subraster (LitlRaster/LitlRaster/Subraster.h, LitlRaster/LitlRaster/SubrasterIterator.h). *)
From Verif Require Import Res VecModel BoxModel RasterModel LoopModel.

(** Subraster::operator[] (Subraster.h: 84-93), read and write, for a parent of template parameter [n]. *)
Definition subGet {A} (n : Z) (r : raster A) (region : box) (pos : list Z) : res A :=
  rget n r (vadd pos (bfront region)).
Definition subSet {A} (n : Z) (r : raster A) (region : box) (pos : list Z) (a : A) : res (raster A) :=
  rset n r (vadd pos (bfront region)) a.

(** Subraster::size and shape (Subraster.h: 47-56). *)
Definition subShape (region : box) : list Z := boxShape region.
Definition subSize (region : box) : Z := boxSize region.

(** State of Subraster::Iterator (SubrasterIterator.h: 81-109).
    Pointers to the pixels are offsets from the beginning of the parent data.
    Simplification: computing an offset out of the block is allowed, only accesses are checked. *)
Record subIt := mkSubIt { siBegin : list Z; siCurrent : Z; siEol : Z }.

(** Constructor (SubrasterIterator.h: 23-25). *)
Definition subItMake (n : Z) (shape : list Z) (region : box) (pos : list Z) : res subIt :=
  _ <- project region 0 ;;
  w <- boxLength region 0 ;;
  i <- rindex n shape pos ;;
  Ok (mkSubIt pos i (i + w)).

(** next() (SubrasterIterator.h: 70-79). *)
Definition subNext (n : Z) (shape : list Z) (region : box) (s : subIt) : res subIt :=
  if negb (siCurrent s + 1 =? siEol s) then Ok (mkSubIt (siBegin s) (siCurrent s + 1) (siEol s))
  else
    plane <- project region 0 ;;
    b <- next plane (siBegin s) ;;
    w <- boxLength region 0 ;;
    i <- rindex n shape b ;;
    Ok (mkSubIt b i (i + w)).

(** [for (auto& e : subraster)]: the offsets of the visited pixels.
    begin() and end() use Box::Iterator::beginPosition and endPosition of the region
    (SubrasterIterator.h: 112-132, BoxIterator.h: 24-35). *)
Definition subForeach (fuel : nat) (n : Z) (shape : list Z) (region : box) : option (res (list Z)) :=
  match (e <- endPosition region ;; ie <- subItMake n shape region e ;;
         ib <- subItMake n shape region (beginPosition region) ;; Ok (ib, ie)) with
  | Ok (ib, ie) =>
      match forLoop fuel (fun s => siCurrent s =? siCurrent ie) (subNext n shape region) ib with
      | Some (Ok l) => Some (Ok (map siCurrent l))
      | Some (Throw x) => Some (Throw x)
      | Some UB => Some UB
      | None => None
      end
  | Throw x => Some (Throw x)
  | UB => Some UB
  end.
