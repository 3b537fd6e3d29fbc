(** Model of correlations along axes and of SeparableKernel
    (LitlTransforms/LitlTransforms/SeparableKernel.h, LitlTransforms/LitlTransforms/Convolution.h).
    Rasters have fixed dimension and exact integer pixels. *)
From Verif Require Import Res VecModel BoxModel RasterModel SamplingModel LineKernelModel.

(** The body of the loop over the positions of a hyperplane, for each of them in order (SeparableKernel.h: 212-225). *)
Fixpoint eachRow {A : Type} (f : A -> list Z -> option (res A)) (ps : list (list Z)) (a : A) : option (res A) :=
  match ps with
  | [] => Some (Ok a)
  | p :: ps' => obind (f a p) (eachRow f ps')
  end.

Definition lift {A : Type} (r : res A) : option (res A) := Some r.

(** correlateAlong<J>(in) (SeparableKernel.h: 212-225; Convolution.h: 52-65) for dimension [n].
    The output raster is allocated with zeros. *)
Definition correlateAlong (fuel : nat) (n : Z) (k : lkernel) (axis : Z) (r : raster Z) : option (res (raster Z)) :=
  obind (lift (zget (rshape r) axis)) (fun len =>
  let stride := shapeStride (rshape r) (Z.to_nat axis) in
  obind (lift (d <- rdomain n (rshape r) ;; project d axis)) (fun domain =>
  obind (boxForeach fuel domain) (fun ps =>
  obind (eachRow (fun out p =>
           obind (lift (rindex n (rshape r) p)) (fun a =>
           correlate fuel k (rdata r) (dsMake a len sdefault stride) out (dsMake a len sdefault stride)))
         ps (repeat 0 (Z.to_nat (shapeSize (rshape r)))))
    (fun out => Some (Ok (mkRaster (rshape r) out)))))).

(** A separable kernel: its axes, from the template parameters, and the map of its line kernels (SeparableKernel.h: 20-45, 252-254). *)
Record skernel := mkSkernel { saxes : list Z; smap : list (Z * lkernel) }.

(** std::map::at and std::map::insert (SeparableKernel.h: 122, 160, 222). *)
Fixpoint mapAt (m : list (Z * lkernel)) (axis : Z) : res lkernel :=
  match m with
  | [] => Throw EGeneric
  | (i, k) :: m' => if i =? axis then Ok k else mapAt m' axis
  end.
Definition mapInsert (m : list (Z * lkernel)) (ik : Z * lkernel) : list (Z * lkernel) :=
  match mapAt m (fst ik) with
  | Ok _ => m
  | _ => m ++ [ik]
  end.

(** SeparableKernel(kernel) and along<Is...>() (SeparableKernel.h: 39; LineKernel.h: 74-77). *)
Definition salong (k : lkernel) (axes : list Z) : skernel :=
  mkSkernel axes (fold_left mapInsert (map (fun i => (i, k)) axes) []).

(** Combination (SeparableKernel.h: 157-162). *)
Definition scombine (a b : skernel) : skernel :=
  mkSkernel (saxes a ++ saxes b) (fold_left mapInsert (smap b) (smap a)).

(** correlateAlongSeqTo (SeparableKernel.h: 200-210). *)
Fixpoint correlateSeq (fuel : nat) (n : Z) (m : list (Z * lkernel)) (axes : list Z) (r : raster Z) : option (res (raster Z)) :=
  match axes with
  | [] => Some (Ok r)
  | axis :: axes' =>
      obind (lift (mapAt m axis)) (fun k =>
      obind (correlateAlong fuel n k axis r) (correlateSeq fuel n m axes'))
  end.

(** kernel * raster (SeparableKernel.h: 167-180). *)
Definition sapply (fuel : nat) (n : Z) (s : skernel) (r : raster Z) : option (res (raster Z)) :=
  correlateSeq fuel n (smap s) (saxes s) r.

(** sobel, prewitt and scharr with their averaging values (SeparableKernel.h: 51-86), provided that the line kernels are
    centered (see lmake). The laplacian does not compile: LineKernel<T>(...) is an rvalue, for which overload resolution
    selects the map-based constructor. *)
Definition sderivative (sign : Z) (averaging : list Z) (axis : Z) (others : list Z) : skernel :=
  scombine (salong (mkLkernel [sign; 0; - sign] 1) [axis]) (salong (mkLkernel averaging 1) others).
Definition prewitt (sign : Z) := sderivative sign [1; 1; 1].
Definition sobel (sign : Z) := sderivative sign [1; 2; 1].
Definition scharr (sign : Z) := sderivative sign [3; 10; 3].

(** The loop of compose() which sets the shape and origin (SeparableKernel.h: 143-148). *)
Definition composeAxis (acc : res (list Z * list Z)) (ik : Z * lkernel) : res (list Z * list Z) :=
  so <- acc ;; s <- zset (fst so) (fst ik) (lsize (snd ik)) ;; o <- zset (snd so) (fst ik) (lorigin (snd ik)) ;; Ok (s, o).

(** compose() (SeparableKernel.h: 34, 142-152; Kernel.h: 186-189): the window and the values of the kernel. *)
Definition compose (fuel : nat) (s : skernel) : option (res (box * list Z)) :=
  let n := fold_right Z.max 0 (saxes s) + 1 in
  obind (lift (fold_left composeAxis (smap s) (Ok (repeat 1 (Z.to_nat n), repeat 0 (Z.to_nat n))))) (fun so =>
  let (shape, origin) := so : list Z * list Z in
  obind (lift (rset n (mkRaster shape (repeat 0 (Z.to_nat (shapeSize shape)))) origin 1)) (fun delta =>
  obind (sapply fuel n s delta) (fun r =>
  obind (lift (d <- rdomain n shape ;; Ok (boxUnshift d origin))) (fun window => Some (Ok (window, rdata r)))))).
