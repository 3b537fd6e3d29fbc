(** Model of the impulse noise with probabilities of type double, and of the noises which are applied to pixels of another type
    (LitlContainer/LitlContainer/Random.h, DataContainer.h). *)
From Flocq Require Import IEEE754.BinarySingleNaN.
From Verif Require Import Res FloatModel WidthModel.

(** x <= y: false if any is NaN. *)
Definition dleb (x y : double) : bool := match Bcompare x y with Some Lt | Some Eq => true | _ => false end.

Section Impulse.
(** The map of values and probabilities is the list of its elements in increasing order of values. *)
Context {V : Type}.

(** nullProbability (Random.h: 388-397): 1 minus the successive probabilities.
    The values are visited in increasing order, as std::transform does in practice. *)
Definition nullD (m : list (V * double)) : double := fold_left (fun n vp => dsub n (snd vp)) m (dofZ 1).

(** ImpulseNoise::weights (Random.h: 386-399). *)
Definition weightsD (m : list (V * double)) : list double :=
  let null := nullD m in
  if dleb null (dmul (dlit 1 (-52)) (dofZ (Z.of_nat (length m)))) then map snd m else map snd m ++ [null].

(** The constructor of std::discrete_distribution (rand.dist.samp.discrete) requires that the weights are neither negative, nor NaN, nor
    infinite, and that their sum is positive. Simplification: the weights stand for the distribution. *)
Definition discreteD (w : list double) : res (list double) :=
  if forallb (fun x => is_finite x && dleb (dofZ 0) x) w && existsb (dltb (dofZ 0)) w then Ok w else UB.

(** ImpulseNoise::distribution (Random.h: 404-407). *)
Definition impulseNewD (m : list (V * double)) : res (list double) := discreteD (weightsD m).

(** ImpulseNoise::operator()(in) (Random.h: 366-369), where the state is the sequence of the indices to be drawn: the distribution and the
    engine choose it. Simplification: the sequence is finite, and nothing is said of what happens after its end ([UB]). *)
Definition impulseCallD (m : list (V * double)) (draws : list nat) (xs : list V) : res (list nat * V) :=
  match draws, xs with
  | index :: draws', [x] => Ok (draws', match nth_error (map fst m) index with Some v => v | None => x end)
  | _, _ => UB
  end.
End Impulse.

(** Conversion of a double to an integral type of at most 64 bits: truncation, undefined if the result does not fit ([conv.fpint]).
    Unsigned integers of 64 bits are left out above 2^63. *)
Definition dtoInt (t : itype) (x : double) : res Z := z <- dtrunc x ;; if fits t z then Ok z else UB.

Section Mixed.
Context {S : Type}.

(** apply(noise) where the pixels are doubles and [noise] is a generator of some integral type T: `v = func( *it)` (DataContainer.h:
    186-194, 211-214) calls T operator()(T in) (Random.h), hence converts the pixel to T, and converts the result back. *)
Definition intOnDouble (t : itype) (noise : S -> list Z -> res (S * Z)) (st : S) (xs : list double) : res (S * double) :=
  match xs with
  | [x] => z <- dtoInt t x ;; r <- noise st [z] ;; Ok (fst r, dofZ (snd r))
  | _ => UB
  end.

(** apply(noise) where the pixels are integers of type T and [noise] is a generator of doubles. *)
Definition doubleOnInt (t : itype) (noise : S -> list double -> res (S * double)) (st : S) (xs : list Z) : res (S * Z) :=
  match xs with
  | [z] => r <- noise st [dofZ z] ;; y <- dtoInt t (snd r) ;; Ok (fst r, y)
  | _ => UB
  end.
End Mixed.
