(** Model of the access to the elements of a container without bound checking (LitlContainer/LitlContainer/ContiguousContainer.h).
    A container is the list of the elements from data() on, as many as size(); reading or writing elsewhere is undefined. *)
From Verif Require Import Res VecModel RasterModel.

(** operator[](size_type), read and write (ContiguousContainer.h: 110-119). A signed index is converted to std::size_t. *)
Definition eget {A} (l : list A) (i : Z) : res A := zget l (u64 i).
Definition eset {A} (l : list A) (i : Z) (a : A) : res (list A) := zset l (u64 i) a.

(** front(), read and write (ContiguousContainer.h: 124-133). *)
Definition efront {A} (l : list A) : res A := zget l 0.
Definition efrontSet {A} (l : list A) (a : A) : res (list A) := zset l 0 a.

(** back(), read and write: operator[](size() - 1), where size() is unsigned (ContiguousContainer.h: 138-147). *)
Definition eback {A} (l : list A) : res A := eget l (Z.of_nat (length l) - 1).
Definition ebackSet {A} (l : list A) (a : A) : res (list A) := eset l (Z.of_nat (length l) - 1) a.

(** emtpy(): begin() == end(), where end() is begin() + size() (ContiguousContainer.h: 101-103, 154-184). *)
Definition eempty {A} (l : list A) : bool := 0 =? Z.of_nat (length l).

(** The same for a PtrRaster in the memory of another container: data() is its first element, and size() the size of its shape
    (LitlContainer/LitlContainer/Holders.h: 203-227; ContiguousContainer.h: 110-147). *)
Definition viewElement {A} (mem : list A) (v : view) (i : Z) : res A := zget mem (voffset v + u64 i).
Definition viewFront {A} (mem : list A) (v : view) : res A := zget mem (voffset v).
Definition viewBack {A} (mem : list A) (v : view) : res A := viewElement mem v (shapeSize (vshape v) - 1).
