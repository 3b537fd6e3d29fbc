(** Model of the elements of aligned buffers and rasters (LitlContainer/LitlContainer/AlignedBuffer.h): AlignedModel tells
    which blocks are allocated and which buffer points where; here the memory has contents, and the copies of elements
    (lines 131-134 and 155) and the accesses by index are part of the model. *)
From Verif Require Import Res AlignedModel.

Section Data.
Context {A : Type}.
(** sizeof(T). *)
Variable elt : Z.

(** The element at each address, None: indeterminate. *)
Definition memory := Z -> option A.
Record dstate := mkD { ast : state; mem : memory }.

(** The element at address [a] lies in an allocated block. *)
Definition inside (l : list (Z * Z)) (a : Z) : bool :=
  existsb (fun b => (fst b <=? a) && (a + elt <=? fst b + snd b)) l.

(** Writing an element at address [a]: the elements which overlap it without being at its address become indeterminate. *)
Definition put (m : memory) (a : Z) (c : option A) : memory :=
  fun x => if x =? a then c else if Z.abs (x - a) <? elt then None else m x.

(** What is read at address [a]: undefined outside of the allocated blocks. *)
Definition look (d : dstate) (a : Z) : res (option A) := if inside (live (ast d)) a then Ok (mem d a) else UB.

(** Memory which is not allocated has no contents: a new block is indeterminate. *)
Definition scrub (l : list (Z * Z)) (m : memory) : memory := fun x => if inside l x then m x else None.

(** std::copy_n(src, n, dst) (lines 132 and 155), forward. Simplification: copying indeterminate elements is defined. *)
Fixpoint copyMem (n : nat) (l : list (Z * Z)) (m : memory) (src dst : Z) : res memory :=
  match n with
  | O => Ok m
  | S n' => if inside l src && inside l dst then copyMem n' l (put m dst (m src)) (src + elt) (dst + elt) else UB
  end.

Definition buf (s : state) (i : nat) : option buffer := match nth_error (bufs s) i with Some (Some b) => Some b | _ => None end.

(** The elements are copied from buffer [b] to buffer [c] if [b] is an owner (lines 131-134, 152-155). *)
Definition copyBuf (b c : option buffer) (l : list (Z * Z)) (m : memory) : res memory :=
  match b, c with
  | Some b, Some c => if owns b then copyMem (Z.to_nat (bsize b)) l m (bdata b) (bdata c) else Ok m
  | _, _ => Ok m
  end.

(** The copies of elements by operation [o] from [s] to [s'] : by the copy constructor (lines 129-135), the copy of a
    non-owner which throws has copied nothing; and by the copy assignment (lines 148-162). *)
Definition copied (s : state) (o : op) (s' : state) (m : memory) : res memory :=
  match o with
  | OCopy i => copyBuf (buf s i) (buf s' (length (bufs s))) (live s') m
  | OCopyAssign i j => if Nat.eqb i j then Ok m else copyBuf (buf s j) (buf s' i) (live s') m
  | _ => Ok m
  end.

(** An operation of AlignedModel, or the assignment of a value to element [k] of buffer [i], which is at address
    data() + k (ContiguousContainer.h: 110-119, DataContainer.h: 99-101). *)
Inductive dop := Buf (o : op) | Write (i : nat) (k : Z) (v : A).

Inductive dstep (d : dstate) : dop -> res dstate -> Prop :=
| dstep_buf o s' : step elt (ast d) o (Ok s') ->
    dstep d (Buf o) (m <- copied (ast d) o s' (scrub (live (ast d)) (mem d)) ;; Ok (mkD s' m))
| dstep_stop o r : step elt (ast d) o r -> (forall s', r <> Ok s') -> dstep d (Buf o) UB
| dstep_write i k v b : alive (ast d) i b ->
    dstep d (Write i k v)
      (if inside (live (ast d)) (bdata b + elt * k) then Ok (mkD (ast d) (put (mem d) (bdata b + elt * k) (Some v))) else UB).

(** Histories. *)
Inductive drun (d : dstate) : list dop -> res dstate -> Prop :=
| drun_nil : drun d [] (Ok d)
| drun_ok o d' ops r : dstep d o (Ok d') -> drun d' ops r -> drun d (o :: ops) r
| drun_stop o ops : dstep d o UB -> drun d (o :: ops) UB.

(** Before any buffer exists: the program has blocks [ext] of its own, with any contents [m] (e.g. an array to be shared). *)
Definition dstart (ext : list (Z * Z)) (m : memory) : dstate := mkD (mkState ext [] []) m.
End Data.
Arguments memory : clear implicits.
Arguments dstate : clear implicits.
Arguments dop : clear implicits.
