(** Model of the ownership of pixels by rasters which hold a std::array (ArrRaster) and of the pointers to them (PtrRaster):
    LitlRaster/LitlRaster/Raster.h: 79-80, 170-191, 403-408, LitlContainer/LitlContainer/DataContainer.h: 54-55, 80-81,
    LitlContainer/LitlContainer/Holders.h: 151-194, 203-227.
    The pixels are inside of the raster: there is no memory but the rasters themselves. *)
From Verif Require Import Res VecModel RasterModel ArithModel.

Section ArrOwn.
Context {A : Type}.
(** The value of the elements of a value-initialized array: T(). *)
Variable zero : A.
(** What the assignment of a moved std::vector to itself leaves in it (valid but unspecified: any value). *)
Variable selfMoved : list Z -> list Z.

(** StdHolder<std::array<T, N>> (Holders.h: 151-194): the elements, whose number is N.
    PtrHolder<T> (Holders.h: 203-227): a pointer, as the raster of which it points to an element and the rank of this element,
    and a size. *)
Inductive aholder := InPlace (cells : list A) | Pointer (target : nat) (offset size : Z).

(** A raster: template parameter N, m_shape (Raster.h: 407) and holder. *)
Record aobj := mkAobj { adim : Z; ashape : list Z; aholds : aholder }.

(** The rasters (None: destroyed) and the arrays to which containers were moved. *)
Record astate := mkAstate { arasters : list (option aobj); arrays : list (list A) }.

Definition araster (s : astate) (i : nat) : option aobj := match nth_error (arasters s) i with Some (Some o) => Some o | _ => None end.

(** The array of raster [i]: undefined if the raster was destroyed. *)
Definition cellsOf (s : astate) (i : nat) : res (list A) :=
  match araster s i with Some (mkAobj _ _ (InPlace l)) => Ok l | _ => UB end.

(** size() (Holders.h: 172-174, 209-211): that of an array does not depend on the shape. *)
Definition asize (h : aholder) : Z := match h with InPlace l => Z.of_nat (length l) | Pointer _ _ n => n end.

(** raster[k] (ContiguousContainer.h: 110-119, Holders.h: 176-178, 213-215), where the raster is the [i]-th. *)
Definition areadAt (s : astate) (i : nat) (k : Z) : res A :=
  match araster s i with
  | Some (mkAobj _ _ (InPlace l)) => zget l k
  | Some (mkAobj _ _ (Pointer t o _)) => l <- cellsOf s t ;; zget l (o + k)
  | None => UB
  end.

(** All the pixels of raster [i], from begin() to end(). *)
Definition apixels (s : astate) (i : nat) : res (list A) :=
  match araster s i with
  | Some (mkAobj _ _ (InPlace l)) => Ok l
  | Some (mkAobj _ _ (Pointer t o n)) => l <- cellsOf s t ;; zgetN (Z.to_nat n) l o
  | None => UB
  end.

Definition setRaster (s : astate) (i : nat) (o : option aobj) : astate := mkAstate (replace (arasters s) i o) (arrays s).
Definition addRaster (s : astate) (o : aobj) : astate := mkAstate (arasters s ++ [Some o]) (arrays s).

(** raster[k] = v: the elements of the raster itself, or of the target of the pointer. *)
Definition awriteCells (s : astate) (i : nat) (k : Z) (v : A) : res astate :=
  match araster s i with
  | Some (mkAobj n shape (InPlace l)) => l' <- zset l k v ;; Ok (setRaster s i (Some (mkAobj n shape (InPlace l'))))
  | _ => UB
  end.
Definition awriteAt (s : astate) (i : nat) (k : Z) (v : A) : res astate :=
  match araster s i with
  | Some (mkAobj _ _ (Pointer t o _)) => awriteCells s t (o + k) v
  | _ => awriteCells s i k v
  end.

(** ArrRaster<T, cap, n>(shape) (Raster.h: 189-191, Holders.h: 157-166). *)
Definition newArr (s : astate) (cap : nat) (n : Z) (shape : list Z) : res astate :=
  if negb (shapeSize shape =? Z.of_nat cap) && negb (shapeSize shape =? 0) then Throw EGeneric
  else Ok (addRaster s (mkAobj n shape (InPlace (repeat zero cap)))).

(** ArrRaster<T, cap, n>(shape, values) where [values] is a temporary std::array of [cap] elements (Holders.h: 168-170). *)
Definition newArrFrom (s : astate) (n : Z) (shape : list Z) (values : list A) : res astate :=
  if Z.of_nat (length values) =? shapeSize shape then Ok (addRaster s (mkAobj n shape (InPlace values))) else Throw ESize.

(** PtrRaster(shape, data) where data is raster.data() + offset (Raster.h: 189-191, Holders.h: 207). *)
Definition newPointer (s : astate) (i : nat) (x : aobj) (offset n : Z) (shape : list Z) : astate :=
  addRaster s (mkAobj n shape
    match aholds x with InPlace _ => Pointer i offset (shapeSize shape) | Pointer t o _ => Pointer t (o + offset) (shapeSize shape) end).

(** A raster after it was moved from: the elements of an array are moved one by one, which does not change numbers,
    and m_shape is emptied if it is a vector (see movedFrom). Simplification: the elements are numbers (any type whose moves are copies). *)
Definition amovedFrom (x : aobj) : aobj := mkAobj (adim x) (movedFrom (adim x) (ashape x)) (aholds x).

(** The operations on the rasters (Raster.h: 170-191, Holders.h: 151-227), which are designated by their rank of creation. *)
Inductive aop :=
| ANew (cap : nat) (n : Z) (shape : list Z)
| ANewFrom (n : Z) (shape : list Z) (values : list A)
| APointer (i : nat) (offset n : Z) (shape : list Z)
| ACopy (i : nat)
| AMove (i : nat)
| ACopyAssign (i j : nat)   (* raster i = raster j *)
| AMoveAssign (i j : nat)   (* raster i = std::move(raster j) *)
| AMoveTo (i : nat)
| AWrite (i : nat) (k : Z) (v : A)
| ADestroy (i : nat).

(** The dimension of a shape of template parameter [n]. *)
Definition arrTyped (n : Z) (shape : list Z) : bool := (n =? -1) || (n =? Z.of_nat (length shape)).

(** Both rasters have the same type: the number of elements of an array is part of it. *)
Definition arrSameType (x y : aobj) : bool :=
  (adim x =? adim y) &&
  match aholds x, aholds y with
  | InPlace l, InPlace l' => Nat.eqb (length l) (length l')
  | Pointer _ _ _, Pointer _ _ _ => true
  | _, _ => false
  end.

(** One operation. None: not a C++ program (the operands do not exist or have not the right types).
    Copies and moves (Raster.h: 176-177) are member-wise; assignments to oneself change nothing, but the shape if it is moved
    and is a std::vector. *)
Definition astep (s : astate) (o : aop) : option (res astate) :=
  match o with
  | ANew cap n shape => if arrTyped n shape then Some (newArr s cap n shape) else None
  | ANewFrom n shape values => if arrTyped n shape then Some (newArrFrom s n shape values) else None
  | APointer i offset n shape =>
      match araster s i with Some x => if arrTyped n shape then Some (Ok (newPointer s i x offset n shape)) else None | None => None end
  | ACopy i => match araster s i with Some x => Some (Ok (addRaster s x)) | None => None end
  | AMove i => match araster s i with Some x => Some (Ok (addRaster (setRaster s i (Some (amovedFrom x))) x)) | None => None end
  | ACopyAssign i j =>
      match araster s i, araster s j with
      | Some d, Some x => if arrSameType d x then Some (Ok (setRaster s i (Some x))) else None
      | _, _ => None
      end
  | AMoveAssign i j =>
      match araster s i, araster s j with
      | Some d, Some x =>
          if arrSameType d x then
            if Nat.eqb i j then Some (Ok (setRaster s i (Some (mkAobj (adim x) (if adim x =? -1 then selfMoved (ashape x) else ashape x) (aholds x)))))
            else Some (Ok (setRaster (setRaster s i (Some x)) j (Some (amovedFrom x))))
          else None
      | _, _ => None
      end
  | AMoveTo i =>  (* Holders.h: 184-187 *)
      match araster s i with Some (mkAobj _ _ (InPlace l)) => Some (Ok (mkAstate (arasters s) (arrays s ++ [l]))) | _ => None end
  | AWrite i k v => match araster s i with Some _ => Some (awriteAt s i k v) | None => None end
  | ADestroy i => match araster s i with Some _ => Some (Ok (setRaster s i None)) | None => None end
  end.

(** A program: the state after its operations; constructors which throw create nothing. *)
Fixpoint aexec (s : astate) (ops : list aop) : option (res astate) :=
  match ops with
  | [] => Some (Ok s)
  | o :: ops' => match astep s o with Some (Ok s') => aexec s' ops' | Some (Throw _) => aexec s ops' | Some UB => Some UB | None => None end
  end.

Definition astart : astate := mkAstate [] [].
End ArrOwn.
Arguments aholder : clear implicits.
Arguments aobj : clear implicits.
Arguments astate : clear implicits.
Arguments aop : clear implicits.
