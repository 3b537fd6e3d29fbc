(** Specification of separable kernels in terms of line kernels. *)
From Verif Require Import Res Spec KernelSpec LineKernelModel SeparableModel.

(** The line kernel given by values, origin and axis fits in a raster of given shape. *)
Definition Fits (shape : list Z) (koa : list Z * Z * nat) : Prop :=
  let '(k, o, a) := koa in
  (a < length shape)%nat /\ 0 <= o < Z.of_nat (length k) /\ Z.of_nat (length k) <= nth a shape 0 /\ nth a shape 0 < 2 ^ 61.

(** The line kernel of some axis in the map of a separable kernel. *)
Definition Found (m : list (Z * lkernel)) (axis : Z) (koa : list Z * Z * nat) : Prop :=
  let '(k, o, a) := koa in axis = Z.of_nat a /\ mapAt m axis = Ok (mkLkernel k o).

(** The separable kernel made of some line kernels, given by their values, origin and axis. *)
Definition separable (ks : list (list Z * Z * nat)) : skernel :=
  mkSkernel (map (fun koa => Z.of_nat (snd koa)) ks)
    (map (fun koa => (Z.of_nat (snd koa), mkLkernel (fst (fst koa)) (snd (fst koa)))) ks).
