(** What is expected of doubles which may be NaN or infinite. *)
From Coq Require Import Reals.
From Flocq Require Import Core IEEE754.BinarySingleNaN.
From Verif Require Import Res Spec FloatModel FloatSpec.
Open Scope Z_scope.

(** The values which are not numbers. All of them are identified. *)
Definition nan : double := B754_nan.

(** The order of numbers, with infinities. *)
Definition lessThan (x y : double) : Prop :=
  match x, y with
  | B754_nan, _ | _, B754_nan => False
  | B754_infinity s, B754_infinity s' => s = true /\ s' = false
  | B754_infinity s, _ => s = true
  | _, B754_infinity s => s = false
  | _, _ => (real x < real y)%R
  end.

(** The same number; zeros are the same whatever their signs. *)
Definition sameNumber (x y : double) : Prop :=
  match x, y with
  | B754_nan, _ | _, B754_nan => False
  | B754_infinity s, B754_infinity s' => s = s'
  | B754_infinity _, _ | _, B754_infinity _ => False
  | _, _ => real x = real y
  end.

(** < is a strict weak ordering of the values of a list. *)
Definition WeakOrderOn (l : list double) : Prop :=
  (forall x, In x l -> dltb x x = false) /\
  (forall x y z, In x l -> In y l -> In z l -> dltb x y = true -> dltb y z = true -> dltb x z = true) /\
  (forall x y z, In x l -> In y l -> In z l -> dltb x y = false -> dltb y z = false -> dltb x z = false).

(** The pixels from which the correlations along axes compute the one at [p]: those of the window which are in the image.
    [ks] gives the values, origin and axis of each kernel. *)
Definition Window (shape : list Z) (koa : list double * Z * nat) (p q : list Z) : Prop :=
  InDomain shape q /\ exists j, 0 <= j < Z.of_nat (length (fst (fst koa))) /\ q = replace p (snd koa) (nth (snd koa) p 0 - snd (fst koa) + j).
Fixpoint Windows (shape : list Z) (ks : list (list double * Z * nat)) (p q : list Z) : Prop :=
  match ks with
  | [] => p = q
  | koa :: ks' => exists r, Windows shape ks' p r /\ Window shape koa r q
  end.

(** The kernel fits in the raster along its axis; its values may not be numbers. *)
Definition FitsAny (shape : list Z) (koa : list double * Z * nat) : Prop :=
  let '(k, o, a) := koa in
  (a < length shape)%nat /\ 0 <= o < Z.of_nat (length k) /\ Z.of_nat (length k) <= nth a shape 0 < 2 ^ 61.

(** The positions of the pixels from which linear and cubic interpolation compute the value at [p]:
    from [below] pixels before the integral part to [above] pixels after it, along each axis. *)
Definition Around (below above : Z) (p : list double) (q : list Z) : Prop :=
  Forall2 (fun x i => exists f, dfloor x = Ok f /\ f - below <= i <= f + above) p q.

(** For the examples: an index and the bits of a value; the pixels of a row. *)
Definition shown {A} (r : res (A * double)) : res (A * SpecFloat.spec_float) := match r with Ok (k, v) => Ok (k, B2SF v) | Throw e => Throw e | UB => UB end.
Definition row (l : list double) (q : list Z) : res double := match q with [i] => zget l i | _ => UB end.
