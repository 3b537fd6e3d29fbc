(** Specification of the median filter for any types of pixels. *)
From Coq Require Import Permutation.
From Flocq Require Import IEEE754.BinarySingleNaN.
From Verif Require Import WidthModel FloatModel Res Spec DistSpec DistModel BoxModel RasterModel BoxSpec RasterSpec KernelSpec MedianSpec.
Open Scope Z_scope.

(** [x] is a value of [l], at rank [k] of its sorted values: at most [k] values are less, and at most size - 1 - k are greater. *)
Definition RankAt {A} (lt : A -> A -> bool) (l : list A) (k : Z) (x : A) : Prop :=
  In x l /\ count (fun y => lt y x) l <= k /\ count (fun y => lt x y) l <= Z.of_nat (length l) - 1 - k.

(** [x] is a value of [l] such that less than half of the values are less, and less than half are greater. *)
Definition MiddleValue {A} (lt : A -> A -> bool) (l : list A) (x : A) : Prop :=
  In x l /\ 2 * count (fun y => lt y x) l < Z.of_nat (length l) /\ 2 * count (fun y => lt x y) l < Z.of_nat (length l).

(** What the filter may give for the neighbors [l]. *)
Inductive Outcome {A B} (lt : A -> A -> bool) (ordered : list A -> bool) (conv : A -> res B) (middle : A -> A -> res B) (l : list A) : res B -> Prop :=
| outcome_odd x : ordered l = true -> Z.of_nat (length l) mod 2 = 1 -> MiddleValue lt l x -> Outcome lt ordered conv middle l (conv x)
| outcome_even x y : ordered l = true -> Z.of_nat (length l) mod 2 = 0 -> 2 < Z.of_nat (length l) -> In x l -> lt y x = false ->
    RankAt lt l (Z.of_nat (length l) / 2 + 1) y -> Outcome lt ordered conv middle l (middle x y)
| outcome_short : Z.of_nat (length l) mod 2 = 0 -> Z.of_nat (length l) <= 2 -> Outcome lt ordered conv middle l UB
| outcome_unordered : ordered l = false -> Outcome lt ordered conv middle l UB.

(** The neighbors of [p] in an image of which [X] gives the pixels. *)
Definition neighbors {A} (f b : list Z) (X : list Z -> A) (p : list Z) : list A := map (fun q => X (neighbor p q)) (positions f b).

(** std::nth_element can be done on ordered values, in any arrangement. *)
Definition Partitions {A} (lt : A -> A -> bool) (ordered : list A -> bool) : Prop :=
  forall l0 l n, ordered l0 = true -> Permutation l0 l -> 0 <= n < Z.of_nat (length l) -> exists l', NthElement lt l n l'.

(** No exception. *)
Definition NoThrow {A B} (g : A -> res B) : Prop := forall x e, g x <> Throw e.

(** The filter can run: the window is not empty, [ext] gives the value X of each neighbor of the region, and the region is in the domain of the output. *)
Definition Runnable {A B} (f b : list Z) (region : box) (X : list Z -> A) (ext : list Z -> res A) (out : raster B) : Prop :=
  f <> [] /\ Forall2 Z.le f b /\ (forall p q, InBox region p -> InBox (mkBox f b) q -> ext (neighbor p q) = Ok (X (neighbor p q))) /\
  Nonempty region /\ (forall p, InBox region p -> InDomain (rshape out) p) /\ WF out /\ length (rshape out) = length f.

(** The conversion from [A] to [B] keeps the order of the values of [l]. *)
Definition KeepsOrder {A B} (lt : A -> A -> bool) (lt' : B -> B -> bool) (g : A -> B) (l : list A) : Prop :=
  forall x y, In x l -> In y l -> lt x y = false -> lt' (g x) (g y) = false.

(** The pixels of a region are [v]. *)
Definition Filled {B} (n : Z) (region : box) (out' : raster B) (v : B) : Prop := forall p, InBox region p -> rget n out' p = Ok v.

(** < is total enough on the values of [l]: what is not less than y, which is not less than z, is not less than z. *)
Definition NegativelyTransitive {A} (lt : A -> A -> bool) (l : list A) : Prop :=
  forall x y z, In x l -> In y l -> In z l -> lt x y = false -> lt y z = false -> lt x z = false.

(** What the filter gives for a constant image: c converted, undefined, or the middle of c and c, depending on the number of neighbors. *)
Definition constantResult {A B} (conv : A -> res B) (middle : A -> A -> res B) (size : Z) (c : A) : res B :=
  if size mod 2 =? 1 then conv c else if size <=? 2 then UB else middle c c.

(** For the examples: rasters of dimension 1. *)
Definition rowOf {A} (l : list A) : raster A := mkRaster [Z.of_nat (length l)] l.

(** For the examples: unsigned integers of 8 and 32 bits; the zeros of type double. *)
Definition u8 : itype := mkItype false 8.
Definition u32 : itype := mkItype false 32.
Definition pzero : double := B754_zero false.
Definition nzero : double := B754_zero true.
(** The greatest double. *)
Definition greatestDouble : double := @Bmax_float 53 1024 hprec hmax.
