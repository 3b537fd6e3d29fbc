(** Specification of extrapolation and interpolation. *)
From Coq Require Import QArith Qround Qabs.
From Verif Require Import Res Spec.
Open Scope Z_scope.

(** [q] is the position of the domain which is the nearest to [p] along each axis. *)
Definition NearestIn (shape p q : list Z) : Prop :=
  InDomain shape q /\ forall q', InDomain shape q' -> forall i, (i < length shape)%nat -> Z.abs (nth i q 0 - nth i p 0) <= Z.abs (nth i q' 0 - nth i p 0).

(** [q] is the position of the domain which equals [p] up to a multiple of the length along each axis. *)
Definition Congruent (shape p q : list Z) : Prop :=
  InDomain shape q /\ length p = length shape /\ forall i, (i < length shape)%nat -> exists k, nth i p 0 = nth i q 0 + k * nth i shape 0.

(** Each coordinate of [q] is an integer at distance [r] or less of that of [p]. *)
Definition Around (r : Q) (p : list Q) (q : list Z) : Prop := Forall2 (fun x y => (Qabs (x - inject_Z y) <= r)%Q) p q.

(** The linear interpolation of an image, axis after axis: weights 1 - d and d for distance d to the previous integer. *)
Fixpoint multilinear (image : list Z -> Q) (p : list Q) : Q :=
  match p with
  | [] => image []
  | x :: p' =>
      let f := Qfloor x in
      let d := (x - inject_Z f)%Q in
      ((1 - d) * multilinear (fun q => image (f :: q)) p' + d * multilinear (fun q => image ((f + 1)%Z :: q)) p')%Q
  end.

(** The Catmull-Rom weights of the two previous and two next integers. *)
Definition cubicWeights (d : Q) : Q * Q * Q * Q :=
  ((- d + 2 * d * d - d * d * d) / 2, (2 - 5 * d * d + 3 * d * d * d) / 2, (d + 4 * d * d - 3 * d * d * d) / 2, (- d * d + d * d * d) / 2)%Q.

(** The Catmull-Rom interpolation of an image with respect to the cell of first vertex [c], axis after axis. *)
Fixpoint cellCubic (image : list Z -> Q) (c : list Z) (p : list Q) : Q :=
  match c, p with
  | f :: c', x :: p' =>
      let '(w0, w1, w2, w3) := cubicWeights (x - inject_Z f) in
      (w0 * cellCubic (fun q => image ((f - 1) :: q)%Z) c' p' + w1 * cellCubic (fun q => image (f :: q)) c' p' +
       w2 * cellCubic (fun q => image ((f + 1) :: q)%Z) c' p' + w3 * cellCubic (fun q => image ((f + 2) :: q)%Z) c' p')%Q
  | _, _ => image []
  end.

(** [p] is in the (closed) cell of first vertex [c]. *)
Definition InCell (c : list Z) (p : list Q) : Prop := Forall2 (fun f x => (inject_Z f <= x <= inject_Z (f + 1))%Q) c p.

(** An affine function of the position. *)
Fixpoint affine (a : Q) (slopes : list Q) (p : list Q) : Q :=
  match slopes, p with
  | s :: slopes', x :: p' => affine (a + s * x) slopes' p'
  | _, _ => a
  end%Q.

(** The mirror image of a coordinate in its cell; negative integers are in the previous cell. *)
Definition mirrored (x m : Q) : Prop :=
  ((x < 0)%Q /\ (x == inject_Z (Qfloor x))%Q /\ (m == x - 1)%Q) \/
  (((0 <= x)%Q \/ ~ (x == inject_Z (Qfloor x))%Q) /\ (m == inject_Z (2 * Qfloor x + 1) - x)%Q).
