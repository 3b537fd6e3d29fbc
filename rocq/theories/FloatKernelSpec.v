(** What is expected of correlations of doubles: the exact correlations of the real numbers, and error bounds. *)
From Coq Require Import Reals.
From Flocq Require Import Core IEEE754.BinarySingleNaN.
From Verif Require Import Res Spec KernelSpec FloatModel FloatSpec FloatKernelModel.
Open Scope R_scope.

Definition totalR (l : list R) : R := fold_right Rplus 0 l.

(** The real number at index [i] of a list of doubles, 0 out of the list. *)
Definition realAt (l : list double) (i : Z) : R := match zget l i with Ok v => real v | _ => 0 end.

(** The real number at some position of a raster, 0 out of the domain. *)
Definition realPixel (shape : list Z) (data : list double) (p : list Z) : R := if inside shape p then realAt data (rank shape p) else 0.

(** The exact correlation of a signal with a kernel of origin [o] at index [i]: sum over j of k[j] x[i - o + j]. *)
Definition realCorrelation (k : list double) (o : Z) (x : Z -> R) (i : Z) : R :=
  totalR (map (fun j => realAt k j * x (i - o + j)%Z) (zrange 0 (Z.of_nat (length k) - 1))).

(** The exact correlation of an image along an axis at position [p]: that of the line through [p] parallel to this axis. *)
Definition realAxis (shape : list Z) (k : list double) (o : Z) (axis : nat) (image : list Z -> R) (p : list Z) : R :=
  if inside shape p then realCorrelation k o (fun t => image (replace p axis t)) (nth axis p 0%Z) else 0.

(** Successive correlations along axes: [ks] gives the values, origin and axis of each of them. *)
Fixpoint realAxes (shape : list Z) (ks : list (list double * Z * nat)) (image : list Z -> R) (p : list Z) : R :=
  match ks with
  | [] => image p
  | (k, o, a) :: ks' => realAxes shape ks' (realAxis shape k o a image) p
  end.

(** The sum of the absolute values of a kernel: its largest response to pixels at most 1. *)
Definition gain (k : list double) : R := totalR (map (fun v => Rabs (real v)) k).

(** Bound of the rounding error of a correlation, for pixels at most [M]: as many units of the last place of the largest response
    as there are values, and two more; the last term is for subnormal numbers. *)
Definition axisError (k : list double) (M : R) : R :=
  IZR (Z.of_nat (length k) + 2) * bpow radix2 (-53) * (M * gain k) + IZR (Z.of_nat (length k)) * bpow radix2 (-1073).

(** The same for successive correlations, when the input is itself known with error [E]: a correlation amplifies the error by its gain. *)
Fixpoint axesError (ks : list (list double * Z * nat)) (M E : R) : R :=
  match ks with
  | [] => E
  | (k, o, a) :: ks' => axesError ks' (M * gain k + axisError k M) (gain k * E + axisError k M)
  end.

(** The responses are far from the largest double. *)
Fixpoint Moderate (ks : list (list double * Z * nat)) (M : R) : Prop :=
  match ks with
  | [] => True
  | (k, o, a) :: ks' => M * gain k <= bpow radix2 1022 /\ Moderate ks' (M * gain k + axisError k M)
  end.

(** The kernel is made of finite values, at most 2^26 - 1 of them, and fits in the raster along its axis. *)
Definition FitsD (shape : list Z) (koa : list double * Z * nat) : Prop :=
  let '(k, o, a) := koa in
  (a < length shape)%nat /\ (0 <= o < Z.of_nat (length k))%Z /\ (Z.of_nat (length k) <= nth a shape 0)%Z /\ (nth a shape 0 < 2 ^ 61)%Z /\
  (Z.of_nat (length k) < 2 ^ 26)%Z /\ Forall Finite k.

(** Pixels are finite and at most [M] in absolute value. *)
Definition PixelsWithin (M : R) (data : list double) : Prop := Forall (fun x => Finite x /\ Rabs (real x) <= M) data.

(** Doubles with integral values. *)
Definition Integral (xs : list double) (zs : list Z) : Prop := Forall2 (fun x z => Finite x /\ real x = IZR z) xs zs.
Definition IntegralKernel (koa : list double * Z * nat) (loa : list Z * Z * nat) : Prop :=
  Integral (fst (fst koa)) (fst (fst loa)) /\ snd (fst koa) = snd (fst loa) /\ snd koa = snd loa.

(** The successive responses to pixels at most [M] are at most 2^53. *)
Fixpoint Small (ks : list (list Z * Z * nat)) (M : Z) : Prop :=
  match ks with
  | [] => True
  | (k, o, a) :: ks' => (M * total (map Z.abs k) <= 2 ^ 53)%Z /\ Small ks' (M * total (map Z.abs k))%Z
  end.

(** The line kernels given by their values, origin and axis. *)
Definition kernelsOf (ks : list (list double * Z * nat)) : list (dkernel * Z) :=
  map (fun koa => (mkDkernel (fst (fst koa)) (snd (fst koa)), Z.of_nat (snd koa))) ks.

(** Comparison of finite doubles. *)
Definition below (x y : double) : Prop := real x <= real y.

(** The largest double, and an infinity. *)
Definition dmax : double := dlit (2 ^ 53 - 1) 971.
Definition dinf : double := B754_infinity false.
