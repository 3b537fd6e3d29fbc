(** Model of the ownership of pixels by rasters which hold a std::vector (VecRaster) or point to external data (PtrRaster):
    LitlRaster/LitlRaster/Raster.h: 170-191, 403-408, LitlContainer/LitlContainer/DataContainer.h: 54-55, 80-81,
    LitlContainer/LitlContainer/Holders.h: 62-145, 203-227.
    The memory is a list of blocks; None is a block which was freed. *)
From Verif Require Import Res VecModel RasterModel ArithModel.

(** StdHolder<std::vector<T>> (Holders.h: 62-145): the block which the vector owns.
    PtrHolder<T> (Holders.h: 203-227): a pointer, as a block and an offset, and a size. *)
Inductive holder := Owned (b : nat) | View (b : nat) (offset size : Z).

(** A raster: template parameter N, m_shape (Raster.h: 407) and holder. *)
Record robj := mkRobj { odim : Z; oshape : list Z; oholder : holder }.

Section Own.
Context {A : Type}.
(** The value of new elements: T(). *)
Variable zero : A.

(** The memory, the rasters (None: destroyed), and the vectors to which containers were moved, as the blocks they own. *)
Record state := mkState { heap : list (option (list A)); objs : list (option robj); vecs : list nat }.

Definition block (s : state) (b : nat) : res (list A) := match nth_error (heap s) b with Some (Some l) => Ok l | _ => UB end.
Definition obj (s : state) (i : nat) : option robj := match nth_error (objs s) i with Some (Some o) => Some o | _ => None end.

(** data() and size() (Holders.h: 96-107, 209-215). *)
Definition hblock (h : holder) : nat := match h with Owned b => b | View b _ _ => b end.
Definition hoffset (h : holder) : Z := match h with Owned _ => 0 | View _ o _ => o end.
Definition hsize (s : state) (h : holder) : res Z :=
  match h with Owned b => l <- block s b ;; Ok (Z.of_nat (length l)) | View _ _ n => Ok n end.

(** raster[k] (ContiguousContainer.h: 110-119), read and write. *)
Definition readAt (s : state) (h : holder) (k : Z) : res A := l <- block s (hblock h) ;; zget l (hoffset h + k).
Definition writeAt (s : state) (h : holder) (k : Z) (v : A) : res state :=
  l <- block s (hblock h) ;; l' <- zset l (hoffset h + k) v ;; Ok (mkState (replace (heap s) (hblock h) (Some l')) (objs s) (vecs s)).

(** All the pixels, from begin() to end(). *)
Definition pixels (s : state) (h : holder) : res (list A) :=
  n <- hsize s h ;; l <- block s (hblock h) ;; zgetN (Z.to_nat n) l (hoffset h).

(** Raster(shape) (Raster.h: 189-191, Holders.h: 77-82): new elements; the constructor of std::vector throws if the size,
    as a std::size_t, is more than its maximal size. *)
Definition newRaster (s : state) (n : Z) (shape : list Z) : res state :=
  if shapeSize shape <? 0 then Throw EGeneric
  else Ok (mkState (heap s ++ [Some (repeat zero (Z.to_nat (shapeSize shape)))])
                   (objs s ++ [Some (mkRobj n shape (Owned (length (heap s))))]) (vecs s)).

(** PtrRaster(shape, data) where data is raster.data() + offset, as done by sections (Raster.h: 189-191, Holders.h: 207). *)
Definition newView (s : state) (o : robj) (offset n : Z) (shape : list Z) : state :=
  mkState (heap s) (objs s ++ [Some (mkRobj n shape (View (hblock (oholder o)) (hoffset (oholder o) + offset) (shapeSize shape)))]) (vecs s).

(** The copy constructor (Raster.h: 176): member-wise. *)
Definition copyNew (s : state) (o : robj) : res state :=
  match oholder o with
  | Owned b => l <- block s b ;; Ok (mkState (heap s ++ [Some l]) (objs s ++ [Some (mkRobj (odim o) (oshape o) (Owned (length (heap s))))]) (vecs s))
  | View _ _ _ => Ok (mkState (heap s) (objs s ++ [Some o]) (vecs s))
  end.

(** The raster after it was moved from: a moved-from std::vector is empty, and a moved-from std::array is unchanged;
    m_shape holds one or the other according to N (see movedFrom). *)
Definition movedHolder (s : state) (h : holder) : holder * list (option (list A)) :=
  match h with Owned _ => (Owned (length (heap s)), heap s ++ [Some []]) | View _ _ _ => (h, heap s) end.
Definition movedObj (s : state) (o : robj) : robj := mkRobj (odim o) (movedFrom (odim o) (oshape o)) (fst (movedHolder s (oholder o))).

(** The move constructor (Raster.h: 177). *)
Definition moveNew (s : state) (i : nat) (o : robj) : state :=
  mkState (snd (movedHolder s (oholder o))) (replace (objs s) i (Some (movedObj s o)) ++ [Some o]) (vecs s).

(** Destruction of the former pixels. *)
Definition freeHolder (h : holder) (m : list (option (list A))) : list (option (list A)) :=
  match h with Owned b => replace m b None | View _ _ _ => m end.

(** The copy assignment of raster [o] to raster [i], formerly [d] (Raster.h: 176): the former pixels are invalidated. *)
Definition copyAssign (s : state) (i : nat) (d o : robj) : res state :=
  match oholder o with
  | Owned b => l <- block s b ;;
      Ok (mkState (freeHolder (oholder d) (heap s) ++ [Some l]) (replace (objs s) i (Some (mkRobj (odim d) (oshape o) (Owned (length (heap s)))))) (vecs s))
  | View _ _ _ => Ok (mkState (heap s) (replace (objs s) i (Some o)) (vecs s))
  end.

(** The move assignment of raster [j], which is [o], to raster [i], formerly [d] (Raster.h: 177). *)
Definition moveAssign (s : state) (i j : nat) (d o : robj) : state :=
  mkState (freeHolder (oholder d) (snd (movedHolder s (oholder o)))) (replace (replace (objs s) i (Some o)) j (Some (movedObj s o))) (vecs s).

(** moveTo(destination) (Holders.h: 133-136), where the destination is a new vector. *)
Definition moveTo (s : state) (i : nat) (o : robj) : option state :=
  match oholder o with
  | Owned b => Some (mkState (heap s ++ [Some []]) (replace (objs s) i (Some (mkRobj (odim o) (oshape o) (Owned (length (heap s)))))) (vecs s ++ [b]))
  | View _ _ _ => None
  end.

(** The operations on the rasters (Raster.h: 170-191, Holders.h: 62-145, 203-227), which are designated by their rank of creation. *)
Inductive op :=
| ONew (n : Z) (shape : list Z)
| OView (i : nat) (offset n : Z) (shape : list Z)
| OCopy (i : nat)
| OMove (i : nat)
| OCopyAssign (i j : nat)   (* raster i = raster j *)
| OMoveAssign (i j : nat)   (* raster i = std::move(raster j) *)
| OMoveTo (i : nat)
| OWrite (i : nat) (k : Z) (v : A)
| ODestroy (i : nat).

(** The dimension of a shape of template parameter [n]. *)
Definition wellTyped (n : Z) (shape : list Z) : bool := (n =? -1) || (n =? Z.of_nat (length shape)).

(** Both rasters have the same type. *)
Definition sameType (o p : robj) : bool :=
  (odim o =? odim p) && match oholder o, oholder p with Owned _, Owned _ | View _ _ _, View _ _ _ => true | _, _ => false end.

(** One operation. None: not a C++ program (the operands do not exist or have not the right types).
    The copy assignment of a std::vector, an array or a pointer to itself changes nothing.
    Simplification: assignments of a moved raster to itself are left out: what they leave in a std::vector is not specified. *)
Definition step (s : state) (o : op) : option (res state) :=
  match o with
  | ONew n shape => if wellTyped n shape then Some (newRaster s n shape) else None
  | OView i offset n shape =>
      match obj s i with Some x => if wellTyped n shape then Some (Ok (newView s x offset n shape)) else None | None => None end
  | OCopy i => match obj s i with Some x => Some (copyNew s x) | None => None end
  | OMove i => match obj s i with Some x => Some (Ok (moveNew s i x)) | None => None end
  | OCopyAssign i j =>
      match obj s i, obj s j with
      | Some d, Some x => if sameType d x then Some (if Nat.eqb i j then Ok s else copyAssign s i d x) else None
      | _, _ => None
      end
  | OMoveAssign i j =>
      match obj s i, obj s j with
      | Some d, Some x => if sameType d x && negb (Nat.eqb i j) then Some (Ok (moveAssign s i j d x)) else None
      | _, _ => None
      end
  | OMoveTo i => match obj s i with Some x => match moveTo s i x with Some s' => Some (Ok s') | None => None end | None => None end
  | OWrite i k v => match obj s i with Some x => Some (writeAt s (oholder x) k v) | None => None end
  | ODestroy i =>
      match obj s i with
      | Some x => Some (Ok (mkState (freeHolder (oholder x) (heap s)) (replace (objs s) i None) (vecs s)))
      | None => None
      end
  end.

(** A program: the state after its operations; constructors which throw create nothing. *)
Fixpoint exec (s : state) (ops : list op) : option (res state) :=
  match ops with
  | [] => Some (Ok s)
  | o :: ops' => match step s o with Some (Ok s') => exec s' ops' | Some (Throw _) => exec s ops' | Some UB => Some UB | None => None end
  end.

Definition start : state := mkState [] [] [].
End Own.
Arguments state : clear implicits.
Arguments op : clear implicits.
