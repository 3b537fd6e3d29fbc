(** Model of Raster: indexing, access, views
    (LitlRaster/LitlRaster/Raster.h, LitlRaster/LitlRaster/impl/Raster.hpp). *)
From Verif Require Import Res VecModel BoxModel.

(** A raster is a shape and the pixels in memory order (Raster.h: 403-408, through DataContainer). *)
Record raster (A : Type) := mkRaster { rshape : list Z; rdata : list A }.
Arguments mkRaster {A} _ _.
Arguments rshape {A} _.
Arguments rdata {A} _.

(** Internal::IndexRecursionImpl<N, I>::index for N >= 1: fixed dimension (impl/Raster.hpp: 25-50).
    Dimension 0 does not compile; different lengths are excluded by the types. *)
Fixpoint indexFixed (shape pos : list Z) : res Z :=
  match shape, pos with
  | [_], [p] => Ok p
  | s :: shape', p :: pos' => r <- indexFixed shape' pos' ;; Ok (p + s * r)
  | _, _ => UB
  end.

(** The loop of IndexRecursionImpl<-1, I>::index, from the last axis to the first one
    (impl/Raster.hpp: 64-68). *)
Definition indexLoop (shape pos : list Z) : Z :=
  fold_left (fun acc ps => fst ps + snd ps * acc) (rev (combine pos shape)) 0.

(** IndexRecursionImpl<-1, I>::index: run-time dimension (impl/Raster.hpp: 55-70). *)
Definition indexVar (shape pos : list Z) : res Z :=
  if Nat.eqb (length pos) (length shape) then Ok (indexLoop shape pos) else Throw ESize.

(** The same computations with 64-bit signed operations (impl/Raster.hpp: 25-70). *)
Fixpoint indexFixed64 (shape pos : list Z) : res Z :=
  match shape, pos with
  | [_], [p] => Ok p
  | s :: shape', p :: pos' =>
      r <- indexFixed64 shape' pos' ;; m <- chk64 (s * r) ;; chk64 (p + m)
  | _, _ => UB
  end.

Definition indexVar64 (shape pos : list Z) : res Z :=
  if Nat.eqb (length pos) (length shape) then
    fold_left (fun acc ps => a <- acc ;; m <- chk64 (snd ps * a) ;; chk64 (fst ps + m))
              (rev (combine pos shape)) (Ok 0)
  else Throw ESize.

(** Raster::index for template parameter [n] (impl/Raster.hpp: 98-101). *)
Definition rindex (n : Z) (shape pos : list Z) : res Z :=
  if n =? -1 then indexVar shape pos else indexFixed shape pos.

(** Raster::operator[](position), read and write (impl/Raster.hpp: 103-111). *)
Definition rget {A} (n : Z) (r : raster A) (pos : list Z) : res A :=
  i <- rindex n (rshape r) pos ;; zget (rdata r) i.
Definition rset {A} (n : Z) (r : raster A) (pos : list Z) (a : A) : res (raster A) :=
  i <- rindex n (rshape r) pos ;; d <- zset (rdata r) i a ;; Ok (mkRaster (rshape r) d).

(** Raster::domain for template parameter [n] (impl/Raster.hpp: 82-85):
    Position<n>::zero() + shape - 1. The sum is a std::transform over the length of zero(),
    which reads the shape: it is undefined if the shape is shorter. *)
Definition rdomain (n : Z) (shape : list Z) : res box :=
  if Nat.leb (length (vzero n)) (length shape) then Ok (fromShape (vzero n) shape) else UB.

(** Raster::contains (Raster.h: 254-262). Simplification: integral positions.
    The loop runs over the length of the position and reads the shape. *)
Fixpoint containsLoop (shape pos : list Z) : res bool :=
  match pos, shape with
  | [], _ => Ok true
  | p :: pos', s :: shape' =>
      if (p <? 0) || (s <=? p) then Ok false else containsLoop shape' pos'
  | _ :: _, [] => UB
  end.
Definition contains {A} (r : raster A) (pos : list Z) : res bool := containsLoop (rshape r) pos.

(** OutOfBoundsError::mayThrow (LitlTypes/LitlTypes/Exceptions.h: 111-116). *)
Definition boundsCheck (x lo hi : Z) : res unit :=
  if (x <? lo) || (hi <? x) then Throw EOutOfBounds else Ok tt.

(** The loop of Raster::at(position) (impl/Raster.hpp: 116-123). *)
Fixpoint boundPos (shape pos : list Z) : res (list Z) :=
  match shape, pos with
  | [], _ => Ok pos
  | s :: shape', p :: pos' =>
      _ <- boundsCheck p (- s) (s - 1) ;;
      t <- boundPos shape' pos' ;;
      Ok ((if p <? 0 then p + s else p) :: t)
  | _ :: _, [] => UB
  end.

(** Raster::at(position), read and write (impl/Raster.hpp: 113-130). *)
Definition rat {A} (n : Z) (r : raster A) (pos : list Z) : res A :=
  p <- boundPos (rshape r) pos ;; rget n r p.
Definition ratSet {A} (n : Z) (r : raster A) (pos : list Z) (a : A) : res (raster A) :=
  p <- boundPos (rshape r) pos ;; rset n r p a.

(** First loop of Raster::isContiguous<M>: full axes, for i < M - 1 (impl/Raster.hpp: 222-226). *)
Fixpoint fullAxes (m : nat) (f b s : list Z) : res bool :=
  match m with
  | O => Ok true
  | S m' =>
      match f, b, s with
      | x :: f', y :: b', l :: s' =>
          if negb (x =? 0) || negb (y =? l - 1) then Ok false else fullAxes m' f' b' s'
      | _, _, _ => UB
      end
  end.

(** Second loop of Raster::isContiguous<M>: flat axes, for i >= M (impl/Raster.hpp: 227-231). *)
Fixpoint flatAxes (f b : list Z) : res bool :=
  match f, b with
  | [], [] => Ok true
  | x :: f', y :: b' => if negb (y =? x) then Ok false else flatAxes f' b'
  | _, _ => UB
  end.

(** Raster::isContiguous<M> for 0 <= M <= N (impl/Raster.hpp: 217-233).
    M = -1 (run-time dimension) makes the second loop read index -1. *)
Definition isContiguous (m : Z) (shape : list Z) (region : box) : res bool :=
  full <- fullAxes (Z.to_nat (m - 1)) (bfront region) (bback region) shape ;;
  if full then
    if m <? 0 then UB
    else flatAxes (skipn (Z.to_nat m) (bfront region)) (skipn (Z.to_nat m) (bback region))
  else Ok false.

(** A PtrRaster: a shape and the address of the first pixel, as an offset in the parent memory
    (LitlContainer/LitlContainer/Holders.h: 203-227). *)
Record view := mkView { vshape : list Z; voffset : Z }.

(** Raster::slice<M> (impl/Raster.hpp: 142-172), for M in 0..N. *)
Definition slice (n m : Z) (shape : list Z) (region : box) : res view :=
  c <- isContiguous m shape region ;;
  if c then
    let reduced := firstn (Z.to_nat m) (boxShape region) in
    o <- rindex n shape (bfront region) ;;
    Ok (mkView reduced o)
  else Throw EGeneric.

(** Raster::section(front, back) (impl/Raster.hpp: 174-192). *)
Definition section2 (n : Z) (shape : list Z) (fr bk : Z) : res view :=
  let last := Z.of_nat (length shape) - 1 in
  f <- zset (vzero n) last fr ;;
  b <- zset (vsubs shape 1) last bk ;;
  slice n n shape (mkBox f b).

(** Raster::section(index) (impl/Raster.hpp: 194-215). *)
Definition section1 (n : Z) (shape : list Z) (i : Z) : res view :=
  let last := Z.of_nat (length shape) - 1 in
  f <- zset (vzero n) last i ;;
  b <- zset (vsubs shape 1) last i ;;
  slice n (if n =? -1 then -1 else n - 1) shape (mkBox f b).

(** Pixel access through a view on a parent memory (Raster::operator[] on a PtrRaster; impl/Raster.hpp: 103-111). *)
Definition viewGet {A} (m : Z) (mem : list A) (v : view) (pos : list Z) : res A :=
  i <- rindex m (vshape v) pos ;; zget mem (voffset v + i).
Definition viewSet {A} (m : Z) (mem : list A) (v : view) (pos : list Z) (a : A) : res (list A) :=
  i <- rindex m (vshape v) pos ;; zset mem (voffset v + i) a.

(** operator==(Raster, Raster) (Raster.h: 414-420). [eqb] is operator== of the pixels. *)
Fixpoint listEqb {A} (eqb : A -> A -> bool) (l r : list A) : bool :=
  match l, r with
  | [], [] => true
  | a :: l', b :: r' => eqb a b && listEqb eqb l' r'
  | _, _ => false
  end.
Definition rasterEqb {A} (eqb : A -> A -> bool) (a b : raster A) : bool :=
  if negb (veqb (rshape a) (rshape b)) then false else listEqb eqb (rdata a) (rdata b).

(** Holders: how many elements they can store. *)
Inductive holder :=
| HVector            (* std::vector and other resizable containers, Holders.h: 62-145 *)
| HArray (cap : nat) (* std::array, Holders.h: 151-194 *).

(** StdHolder(size) (Holders.h: 78-82, 157-166): the size and the initial values.
    Simplification: a negative size, which converts to a huge std::size_t, makes the allocation throw. *)
Definition holderInit (h : holder) (size : Z) : res (list Z) :=
  match h with
  | HVector => if size <? 0 then Throw EGeneric else Ok (repeat 0 (Z.to_nat size))
  | HArray cap =>
      if negb (size =? Z.of_nat cap) && negb (size =? 0) then Throw EGeneric else Ok (repeat 0 cap)
  end.

(** std::copy_n(data, size, this->data()) (LitlContainer/LitlContainer/Holders.h: 80, 164) of a list: undefined if the destination is too short. *)
Definition copyInto (src dst : list Z) : res (list Z) := copy_n src (length src) dst.

(** SizeError::mayThrow (Holders.h: 23-27). *)
Definition sizeCheck (i ref : Z) : res unit := if i =? ref then Ok tt else Throw ESize.

(** Raster(shape) (Raster.h: 189-191, DataContainer.h: 54-55). *)
Definition rasterOfShape (h : holder) (shape : list Z) : res (raster Z) :=
  d <- holderInit h (shapeSize shape) ;; Ok (mkRaster shape d).

(** The shape read in the constructor body after m_shape(std::move(shape)):
    unchanged for fixed dimension (std::array), empty for run-time dimension (std::vector)
    (Raster.h: 207-208, 225-226). *)
Definition movedFrom (n : Z) (shape : list Z) : list Z := if n =? -1 then [] else shape.

(** Raster(shape, list) and Raster(shape, iterable) for template parameter [n]
    (Raster.h: 205-227, DataContainer.h: 62-77). *)
Definition rasterOfList (n : Z) (h : holder) (shape values : list Z) : res (raster Z) :=
  d0 <- holderInit h (Z.of_nat (length values)) ;;
  d <- copyInto values d0 ;;
  _ <- sizeCheck (Z.of_nat (length values)) (shapeSize (movedFrom n shape)) ;;
  Ok (mkRaster shape d).

(** Raster(shape, std::move(container)) (Raster.h: 189-191, Holders.h: 87-89, 168-170). *)
Definition rasterOfContainer (shape values : list Z) : res (raster Z) :=
  _ <- sizeCheck (Z.of_nat (length values)) (shapeSize shape) ;; Ok (mkRaster shape values).
