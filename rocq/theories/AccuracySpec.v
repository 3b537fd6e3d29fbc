(** Interpolation in exact real arithmetic: along each axis, a weighted sum of the pixels around the position. *)
From Coq Require Import Reals.
From Flocq Require Import Core.
From Verif Require Import Res FloatModel FloatSpec.
Open Scope R_scope.

Definition sumR (l : list R) : R := fold_right Rplus 0 l.

(** The pixels used along an axis, as offsets from the index which is just below or at the position, and their weights.
    [t] is the distance of the position to this index, from 0 to 1. *)
Definition linearTaps (t : R) : list (Z * R) := [(0%Z, 1 - t); (1%Z, t)].
(** The weights of the library are swapped (see C43). *)
Definition mirrorTaps (t : R) : list (Z * R) := [(0%Z, t); (1%Z, 1 - t)].
(** Cubic convolution (Catmull and Rom). *)
Definition cubicTaps (t : R) : list (Z * R) :=
  [((-1)%Z, / 2 * (- t + 2 * t ^ 2 - t ^ 3)); (0%Z, 1 + / 2 * (- 5 * t ^ 2 + 3 * t ^ 3)); (1%Z, / 2 * (t + 4 * t ^ 2 - 3 * t ^ 3)); (2%Z, / 2 * (- t ^ 2 + t ^ 3))].

(** The weighted sum over the axes, of which the positions are given from the last one. *)
Fixpoint weighted (taps : R -> list (Z * R)) (image : list Z -> R) (rpos : list R) (indices : list Z) : R :=
  match rpos with
  | [] => image indices
  | x :: rpos' => sumR (map (fun jw => snd jw * weighted taps image rpos' ((Zfloor x + fst jw)%Z :: indices)) (taps (x - IZR (Zfloor x))))
  end.
Definition interpolation (taps : R -> list (Z * R)) (image : list Z -> R) (pos : list R) : R := weighted taps image (rev pos) [].

(** A raster of doubles: each pixel which may be read is finite, at most [M] in magnitude, and equal to that of the exact image. *)
Definition Represents (get : list Z -> res double) (image : list Z -> R) (M : R) : Prop :=
  forall i w, get i = Ok w -> Finite w /\ real w = image i /\ Rabs (image i) <= M.

(** A position with a precise fractional part, and one which moreover is no negative integer. *)
Definition Placed (x : double) : Prop := Finite x /\ - bpow radix2 52 < real x.
Definition Inside (x : double) : Prop := Placed x /\ (0 <= real x \/ forall z, real x <> IZR z).

(** Error bounds in dimension [n] for pixels of magnitude [M]. *)
Definition linearBound (n : nat) (M : R) : R := INR n * (bpow radix2 (-48) * M + bpow radix2 (-1070)).
Definition cubicBound (n : nat) (M : R) : R := INR n * (4 / 3) ^ n * (bpow radix2 (-45) * M + bpow radix2 (-1068)).

(** An affine function of the position. *)
Fixpoint affineR (a : R) (s : list R) (x : list R) : R :=
  match s, x with
  | c :: s', y :: x' => affineR (a + c * y) s' x'
  | _, _ => a
  end.

(** Examples: the image which increases by one from pixel to pixel along the first axis, on a few pixels, and a step. *)
Definition rampAt (lo hi : Z) (i : list Z) : res double := if ((lo <=? hd 0 i) && (hd 0 i <=? hi))%Z%bool then Ok (dofZ (hd 0%Z i)) else UB.
Definition ramp (i : list Z) : R := IZR (hd 0%Z i).
Definition stepAt (k : Z) (i : list Z) : res double := Ok (dofZ (if hd 0 i <? k then 0 else 1)%Z).
Definition stepR (k : Z) (i : list Z) : R := if (hd 0 i <? k)%Z then 0 else 1.
