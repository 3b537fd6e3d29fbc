(** Model of Chronometer (LitlRun/LitlRun/Chronometer.h). Times are in ticks of std::chrono::steady_clock since its epoch.
    [u] is the number of ticks per unit TUnit. Simplifications: TUnit has an integral representation which does not overflow,
    and its values are exactly represented as double in the increments. *)
From Coq Require Import QArith.
From Verif Require Import Res.
Open Scope Z_scope.

(** The data members (Chronometer.h: 141-163). *)
Record chrono := mkChrono { tic : Z; toc : Z; running : bool; container : list Z; elapsed : Z }.

(** reset (Chronometer.h: 48-53). *)
Definition creset (offset : Z) (c : chrono) : chrono := mkChrono (tic c) (tic c) false [] offset.

(** The constructor (Chronometer.h: 41-43). *)
Definition cnew (offset : Z) : chrono := creset offset (mkChrono 0 0 false [] offset).

(** start (Chronometer.h: 58-61), the clock being [now]. *)
Definition cstart (now : Z) (c : chrono) : chrono := mkChrono now (toc c) true (container c) (elapsed c).

(** stop (Chronometer.h: 66-73), the clock being [now]: the duration cast truncates towards zero. *)
Definition cstop (u now : Z) (c : chrono) : chrono * Z :=
  let inc := Z.quot (now - tic c) u in
  (mkChrono (tic c) now false (container c ++ [inc]) (elapsed c + inc), inc).

(** last (Chronometer.h: 85-87): the index of the empty vector wraps around, hence the access is out of bounds. *)
Definition clast (c : chrono) : res Z := zget (container c) (Z.of_nat (length (container c)) - 1).

(** count (Chronometer.h: 99-101). *)
Definition ccount (c : chrono) : Z := Z.of_nat (length (container c)).

(** mean (Chronometer.h: 113-115): the division of 0. by 0 gives a NaN (None). *)
Definition cmean (c : chrono) : option Q :=
  if ccount c =? 0 then None else Some (fold_left (fun s x => s + inject_Z x) (container c) 0 / inject_Z (ccount c))%Q.

(** stdev (Chronometer.h: 120-124), before the square root. *)
Definition cvariance (c : chrono) : option Q :=
  match cmean c with
  | None => None
  | Some m => Some (fold_left (fun s x => s + inject_Z x * inject_Z x) (container c) 0 / inject_Z (ccount c) - m * m)%Q
  end.

(** std::min_element and std::max_element: the first extremum. min and max (Chronometer.h: 129-138) dereference end() if there is no increment. *)
Definition cmin (c : chrono) : res Z :=
  match container c with [] => UB | x :: l => Ok (fold_left (fun m y => if y <? m then y else m) l x) end.
Definition cmax (c : chrono) : res Z :=
  match container c with [] => UB | x :: l => Ok (fold_left (fun m y => if m <? y then y else m) l x) end.

(** A call to the chronometer (Chronometer.h: 48-73), with the time at which it occurs. *)
Inductive call := Reset (offset : Z) | Start (now : Z) | Stop (now : Z).
Definition perform (u : Z) (c : chrono) (o : call) : chrono :=
  match o with
  | Reset offset => creset offset c
  | Start now => cstart now c
  | Stop now => fst (cstop u now c)
  end.
Definition performAll (u : Z) (c : chrono) (os : list call) : chrono := fold_left (perform u) os c.
