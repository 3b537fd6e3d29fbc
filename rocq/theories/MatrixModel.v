(** Model of Matrix (LitlRaster/LitlRaster/Matrix.h): the static factories, copies and assignments. The functions which do not
    compile (operator(), at) or which discard their result (inverse) are not modelled. *)
From Verif Require Import Res.

(** The loop of identity() and diagonal() (Matrix.h: 68-70, 81-83): write each value, then step by the number of columns plus one.
    Simplification: the last increment, which may go past the end of the array, is harmless. *)
Fixpoint diagonalLoop (columns d : Z) (values data : list Z) : res (list Z) :=
  match values with
  | [] => Ok data
  | v :: values' => data' <- zset data d v ;; diagonalLoop columns (d + (columns + 1)) values' data'
  end.

(** Matrix() (Matrix.h: 60): an array of zeros. *)
Definition zeroMatrix (rows columns : Z) : list Z := repeat 0 (Z.to_nat (rows * columns)).

(** identity() (Matrix.h: 65-72). *)
Definition identityMatrix (rows columns : Z) : res (list Z) :=
  diagonalLoop columns 0 (repeat 1 (Z.to_nat (Z.min rows columns))) (zeroMatrix rows columns).

(** diagonal(values) (Matrix.h: 77-85). *)
Definition diagonalMatrix (rows columns : Z) (values : list Z) : res (list Z) := diagonalLoop columns 0 values (zeroMatrix rows columns).

(** A matrix object: the block which it owns, and the block on which its Eigen::Map is (Matrix.h: 60, 136).
    Memory: the content of each block, None once it is destroyed. *)
Record matrix := mkMatrix { mblock : nat; mview : nat }.
Definition memory := list (option (list Z)).

Definition readBlock (m : memory) (b : nat) : res (list Z) := match nth_error m b with Some (Some d) => Ok d | _ => UB end.
Definition writeBlock (m : memory) (b : nat) (d : list Z) : res memory := _ <- readBlock m b ;; Ok (replace m b (Some d)).

(** Construction (Matrix.h: 60): the map is on the elements of the object. *)
Definition newMatrix (m : memory) (d : list Z) : matrix * memory := (mkMatrix (length m) (length m), m ++ [Some d]).

(** Copy and move construction (LITL_DEFAULT_COPYABLE, LITL_DEFAULT_MOVABLE, Matrix.h: 54-55): elements are copied, and so is
    the pointer of the Eigen::Map. *)
Definition copyMatrix (m : memory) (a : matrix) : res (matrix * memory) :=
  d <- readBlock m (mblock a) ;; Ok (mkMatrix (length m) (mview a), m ++ [Some d]).

(** Assignment (ibid.): elements are assigned, then the Eigen::Map, the assignment of which copies coefficients from a block to another. *)
Definition assignMatrix (m : memory) (a b : matrix) : res memory :=
  d <- readBlock m (mblock b) ;; m1 <- writeBlock m (mblock a) d ;;
  e <- readBlock m1 (mview b) ;; writeBlock m1 (mview a) e.

(** Destruction (Matrix.h: 53). *)
Definition destroyMatrix (m : memory) (a : matrix) : memory := replace m (mblock a) None.

(** Elements of a matrix, as read through the container (ContiguousContainer.h: 110-119). *)
Definition elements (m : memory) (a : matrix) : res (list Z) := readBlock m (mblock a).

(** determinant() (Matrix.h: 122-124), for any function of the elements which Eigen applies to them. *)
Definition determinantOf (det : list Z -> Z) (m : memory) (a : matrix) : res Z := d <- readBlock m (mview a) ;; Ok (det d).
