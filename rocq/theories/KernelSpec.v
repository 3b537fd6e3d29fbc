(** Specification of correlations. *)
From Verif Require Import Res Spec.

Definition total (l : list Z) : Z := fold_right Z.add 0 l.

(** Element [i] of a list, 0 out of the list. *)
Definition padded (l : list Z) (i : Z) : Z := match zget l i with Ok v => v | _ => 0 end.

(** Correlation of the signal [x] with kernel [k] of origin [o] at index [i]: sum over j of k[j] x[i - o + j]. *)
Definition correlation (k : list Z) (o : Z) (x : Z -> Z) (i : Z) : Z :=
  total (map (fun j => padded k j * x (i - o + j)) (zrange 0 (Z.of_nat (length k) - 1))).

(** A signal is the line of [n] elements at addresses a, a + stride... of some memory, and zero out of it (cropping). *)
Definition Line (mem : list Z) (a n stride : Z) (x : Z -> Z) : Prop :=
  (forall t, 0 <= t < n -> zget mem (a + t * stride) = Ok (x t)) /\ (forall t, ~ 0 <= t < n -> x t = 0).

(** The position is in the domain of the raster of given shape. *)
Fixpoint inside (shape p : list Z) : bool :=
  match shape, p with
  | [], [] => true
  | s :: shape', x :: p' => (0 <=? x) && (x <? s) && inside shape' p'
  | _, _ => false
  end.

(** Pixel at some position, 0 out of the domain. *)
Definition pixel (shape data : list Z) (p : list Z) : Z :=
  if inside shape p then padded data (rank shape p) else 0.

(** The correlation of an image along an axis at position [p]: that of the line through [p] parallel to this axis.
    It is cropped to the domain. *)
Definition axisCorrelation (shape k : list Z) (o : Z) (axis : nat) (image : list Z -> Z) (p : list Z) : Z :=
  if inside shape p then correlation k o (fun t => image (replace p axis t)) (nth axis p 0) else 0.

(** Successive correlations along axes: [ks] gives the values, origin and axis of each of them. *)
Fixpoint axesCorrelation (shape : list Z) (ks : list (list Z * Z * nat)) (image : list Z -> Z) (p : list Z) : Z :=
  match ks with
  | [] => image p
  | (k, o, a) :: ks' => axesCorrelation shape ks' (axisCorrelation shape k o a image) p
  end.

(** Correlation at [p] of an image with an ND kernel given by its values on the window from [f] to [b]:
    sum over the q of the window of kernel[q] image[p + q]. *)
Definition windowCorrelation (kernel : list Z -> Z) (f b : list Z) (image : list Z -> Z) (p : list Z) : Z :=
  total (map (fun q => kernel q * image (map (fun xy => fst xy + snd xy) (combine p q))) (positions f b)).

(** The ND kernel of a list of line kernels with distinct axes: its value at position [q] relative to the origin is
    the product of the values of the line kernels. *)
Definition productKernel (ks : list (list Z * Z * nat)) (q : list Z) : Z :=
  fold_right Z.mul 1 (map (fun koa => padded (fst (fst koa)) (snd (fst koa) + nth (snd koa) q 0)) ks).

(** Its window for dimension [n]: from minus the origins, and flat along the other axes. *)
Definition frontOf (ks : list (list Z * Z * nat)) (i : nat) : Z :=
  fold_right (fun koa r => if Nat.eqb (snd koa) i then - snd (fst koa) else r) 0 ks.
Definition backOf (ks : list (list Z * Z * nat)) (i : nat) : Z :=
  fold_right (fun koa r => if Nat.eqb (snd koa) i then Z.of_nat (length (fst (fst koa))) - 1 - snd (fst koa) else r) 0 ks.
Definition productWindow (n : nat) (ks : list (list Z * Z * nat)) : list Z * list Z :=
  (map (frontOf ks) (seq 0 n), map (backOf ks) (seq 0 n)).

(** Value at position [w] of the window from [f] to [b] of an ND kernel whose values are stored in memory order. *)
Definition windowValue (f b values w : list Z) : Z :=
  padded values (rank (map (fun xy => snd xy - fst xy + 1) (combine f b)) (map (fun xy => snd xy - fst xy) (combine f w))).

(** A line kernel which is symmetric about its origin. *)
Definition Symmetric (koa : list Z * Z * nat) : Prop :=
  forall t, padded (fst (fst koa)) (snd (fst koa) + t) = padded (fst (fst koa)) (snd (fst koa) - t).

(** The image is zero out of the domain of the raster of given shape. *)
Definition Supported (shape : list Z) (X : list Z -> Z) : Prop := forall p, ~ InDomain shape p -> X p = 0.

(** The weighted sum of as many memory elements as there are values, read by rows of [width] consecutive elements;
    the first row starts at [start] and each row starts [stride] elements after the previous one. *)
Definition linearSum (values mem : list Z) (start width stride : Z) : Z :=
  total (map (fun t => padded values t * padded mem (start + t mod width + t / width * stride)) (zrange 0 (Z.of_nat (length values) - 1))).

(** The window from [f] to [b], moved to [p], lies in the domain of the raster of given shape. *)
Definition Inner (shape f b p : list Z) : Prop :=
  InDomain shape (map (fun xy => fst xy + snd xy) (combine p f)) /\ InDomain shape (map (fun xy => fst xy + snd xy) (combine p b)).

(** [q] is the inner position which comes just before [p] in memory order. *)
Definition PreviousInner (shape f b q p : list Z) : Prop :=
  Inner shape f b q /\ lexLt q p /\ forall r, Inner shape f b r -> lexLt q r -> ~ lexLt r p.

(** The size of the window from [f] to [b]. *)
Definition windowSize (f b : list Z) : Z := prod (map (fun xy => snd xy - fst xy + 1) (combine f b)).
