(** Model of the Poisson and impulse noises (LitlContainer/LitlContainer/Random.h). *)
From Coq Require Import QArith.
From Verif Require Import Res.
Open Scope Z_scope.

(** std::minstd_rand: the linear congruential engine of multiplier 48271, increment 0 and modulus 2^31 - 1 (C++ standard, rand.predef);
    seeding and transition (rand.eng.lcong). Its state is the last value. *)
Definition minstdModulus : Z := 2147483647.
Definition minstdSeed (seed : Z) : Z := if seed mod minstdModulus =? 0 then 1 else seed mod minstdModulus.
Definition minstdNext (x : Z) : Z := 48271 * x mod minstdModulus.

Section Poisson.
(** std::mt19937: its states, and seeding. std::poisson_distribution: [poisson mean e] is the first draw with a new distribution,
    [positive mean] is 0 < mean, which its constructor requires (rand.dist.pois.poisson). T is not complex. *)
Context {T E : Type}.
Variable engine : Z -> E.
Variable poisson : T -> E -> E * T.
Variable positive : T -> bool.

(** RandomGenerator::RandomGenerator (Random.h: 117-118): size_t(-1) stands for the current time, [now]. *)
Definition generatorNew (seed now : Z) : E := engine (if seed =? 2 ^ 64 - 1 then now else seed).

(** PoissonNoise::operator()(in) (Random.h: 250-253), on the state of the engine. *)
Definition poissonApply (e : E) (xs : list T) : res (E * T) :=
  match xs with
  | [x] => if positive x then Ok (poisson x e) else UB
  | _ => UB
  end.

(** StablePoissonNoise::StablePoissonNoise (Random.h: 293-294): m_distribution(mean), m_seeder(seed).
    m_engine is not used to apply noise. The state is that of m_seeder and the number of clock readings. *)
Definition stableNew (mean : T) (seed : Z) : res (Z * nat) := if positive mean then Ok (minstdSeed seed, O) else UB.

(** StablePoissonNoise::operator()(in) (Random.h: 306-310): the first value of a new PoissonNoise(in, seed) (lines 237-245). *)
Definition stableApply (now : nat -> Z) (st : Z * nat) (xs : list T) : res ((Z * nat) * T) :=
  match xs with
  | [x] =>
      let seed := minstdNext (fst st) in
      if positive x then Ok ((seed, S (snd st)), snd (poisson x (generatorNew seed (now (snd st))))) else UB
  | _ => UB
  end.
End Poisson.

(** Impulse noise. The map of values and probabilities is the list of its elements in increasing order of values. *)
(** std::map::insert (the maps of Random.h: 345-407): if the key is in the map, it is left untouched. *)
Fixpoint mapInsert (v : Z) (p : Q) (m : list (Z * Q)) : list (Z * Q) :=
  match m with
  | [] => [(v, p)]
  | (w, q) :: m' => if v <? w then (v, p) :: m else if v =? w then m else (w, q) :: mapInsert v p m'
  end.

(** ImpulseNoise::saltAndPepper (Random.h: 351-358): the map built from the initializer list. *)
Definition saltAndPepper (pSalt pPepper : Q) (salt pepper : Z) : list (Z * Q) := mapInsert pepper pPepper (mapInsert salt pSalt []).

(** ImpulseNoise::values (Random.h: 375-381). *)
Definition impulseValues (m : list (Z * Q)) : list Z := map fst m.

(** std::numeric_limits<double>::epsilon() (Random.h: 395). *)
Definition epsilon : Q := 1 # (2 ^ 52).

(** ImpulseNoise::weights (Random.h: 386-399), in exact arithmetic. *)
Definition impulseWeights (m : list (Z * Q)) : list Q :=
  let null := fold_left (fun n vp => n - snd vp)%Q m 1%Q in
  if Qle_bool null (epsilon * inject_Z (Z.of_nat (length m))) then map snd m else map snd m ++ [null].

(** std::discrete_distribution of given weights (rand.dist.samp.discrete): the constructor requires that they are not negative and that
    one of them is positive; index i is drawn with probability w(i) / sum of w. [None] if the requirements are not met. *)
Definition discreteProbabilities (w : list Q) : option (list Q) :=
  let s := fold_right Qplus 0%Q w in
  if forallb (fun x => Qle_bool 0 x) w && negb (Qle_bool s 0) then Some (map (fun x => x / s)%Q w) else None.

(** ImpulseNoise::distribution (Random.h: 404-407). *)
Definition impulseDistribution (m : list (Z * Q)) : option (list Q) := discreteProbabilities (impulseWeights m).

(** ImpulseNoise::operator() (Random.h: 366-369) for a drawn index. *)
Definition impulseApply (m : list (Z * Q)) (index : nat) (x : Z) : Z :=
  match nth_error (impulseValues m) index with Some v => v | None => x end.
