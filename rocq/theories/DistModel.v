(** Model of DataDistribution (LitlContainer/LitlContainer/DataDistribution.h).
    The algorithms std::nth_element and std::sort are not implemented: any result allowed by the C++ standard is
    considered, so that the methods which call them are relations. *)
From Coq Require Import Permutation Sorted Qabs.
From Verif Require Import Res VecModel TypesModel.
Open Scope Z_scope.

Section Dist.
Context {A : Type} (lt : A -> A -> bool).

(** m_values and m_sorted (lines 199-214). *)
Record dist := mkDist { dvalues : list A; dsorted : bool }.

(** std::is_sorted (line 48): no element is less than its predecessor. *)
Fixpoint is_sorted (l : list A) : bool :=
  match l with
  | x :: (y :: _) as l' => if lt y x then false else is_sorted l'
  | _ => true
  end.

(** Constructors (lines 47-60). *)
Definition distMake (l : list A) : dist := mkDist l (is_sorted l).

(** Postcondition of std::nth_element(begin, begin + n, end) ([alg.nth.element]). *)
Definition NthElement (l : list A) (n : Z) (l' : list A) : Prop :=
  Permutation l l' /\
  forall i j x y, 0 <= i <= n -> n <= j -> zget l' i = Ok x -> zget l' j = Ok y -> lt y x = false.

(** Postcondition of std::sort. *)
Definition SortedBy (l : list A) : Prop := Sorted (fun x y => lt y x = false) l.

(** nth(n): the new state, and the outcome of the dereference of the returned reference right after the call
    (lines 95-102). A negative [n] stands for a negative number which is converted to std::size_t in quantile(), which is undefined. *)
Inductive nthCall (d : dist) (n : Z) : dist -> res A -> Prop :=
| nth_sorted : dsorted d = true -> nthCall d n d (zget (dvalues d) n)
| nth_out : dsorted d = false -> n < 0 \/ Z.of_nat (length (dvalues d)) <= n -> nthCall d n d UB
| nth_unsorted l' : dsorted d = false -> 0 <= n < Z.of_nat (length (dvalues d)) ->
    NthElement (dvalues d) n l' -> nthCall d n (mkDist l' false) (zget l' n).

(** sort() (lines 188-193). *)
Inductive sortCall (d : dist) : dist -> Prop :=
| sort_sorted : dsorted d = true -> sortCall d d
| sort_unsorted l' : dsorted d = false -> Permutation (dvalues d) l' -> SortedBy l' ->
    sortCall d (mkDist l' true).

(** min(), max() (lines 74-83); size() - 1 wraps around for empty data. *)
Definition minCall (d d' : dist) (r : res A) : Prop := nthCall d 0 d' r.
Definition maxCall (d d' : dist) (r : res A) : Prop := nthCall d (u64 (Z.of_nat (length (dvalues d)) - 1)) d' r.

(** States reachable by any sequence of queries: all the queries are made of calls of nth() and sort(). *)
Inductive reach (d : dist) : dist -> Prop :=
| reach_here : reach d d
| reach_nth d1 d2 n r : reach d d1 -> nthCall d1 n d2 r -> r <> UB -> reach d d2
| reach_sort d1 d2 : reach d d1 -> sortCall d1 d2 -> reach d d2.

(** histogram (lines 162-183). [==] is the equality of numbers. *)
Definition eqv (x y : A) : bool := negb (lt x y) && negb (lt y x).

(** while (it != end && *it < *supIt) ++it; (lines 169-171) *)
Fixpoint skipBelow (it : list A) (sup : A) : list A :=
  match it with
  | x :: it' => if lt x sup then skipBelow it' sup else it
  | [] => []
  end.

(** while (it != end && *it < *supIt) { ++( *countIt); ++it; } (lines 173-176) *)
Fixpoint countBelow (it : list A) (sup : A) (out : list Z) (c : Z) : res (list A * list Z) :=
  match it with
  | x :: it' =>
      if lt x sup then
        k <- zget out c ;; out' <- zset out c (k + 1) ;; countBelow it' sup out' c
      else Ok (it, out)
  | [] => Ok ([], out)
  end.

(** for (; supIt != bins.end() && countIt != out.end(); ++supIt) (lines 172-178) *)
Fixpoint binLoop (sups it : list A) (out : list Z) (c : Z) : res (list A * list Z * Z) :=
  match sups with
  | [] => Ok (it, out, c)
  | sup :: sups' =>
      if c =? Z.of_nat (length out) then Ok (it, out, c)
      else
        r <- countBelow it sup out c ;;
        binLoop sups' (fst r) (snd r) (c + 1)
  end.

Definition histogramSorted (values bins : list A) : res (list Z) :=
  match bins with
  | [] => Throw EGeneric (* a vector of 2^64 - 1 elements *)
  | b0 :: sups =>
      let out := repeat 0 (length sups) in
      r <- binLoop sups (skipBelow values b0) out 0 ;;
      let '(it, out, c) := r in
      match it with
      | [] => Ok out
      | x :: _ => if eqv x (last bins b0) then k <- zget out c ;; zset out c (k + 1) else Ok out
      end
  end.

Definition histogramCall (d : dist) (bins : list A) (d' : dist) (r : res (list Z)) : Prop :=
  sortCall d d' /\ r = histogramSorted (dvalues d') bins.
End Dist.
Arguments dist : clear implicits.

(** quantile(q) (lines 147-155) for floating-point or integer data as exact rationals, [n] = q * (size() - 1).
    The operands of + are two calls which return references: their order, and whether a reference is read before
    or after the other call, is unspecified ([intro.execution]).
    Simplification: size() - 1 is -1 for empty data, instead of 2^64 - 1; no element is in bounds in both cases. *)
Inductive evalOrder := ReadLeftFirst | ReadRightFirst | CallLeftFirst | CallRightFirst.

(** The value of each call is read before the other call is made (line 154). *)
Definition ReadBefore (o : evalOrder) : Prop := o = ReadLeftFirst \/ o = ReadRightFirst.

Inductive twoNth (o : evalOrder) (d : dist Q) (f : Z) : dist Q -> res Q -> res Q -> Prop :=
| two_left d1 d2 x y : o = ReadLeftFirst -> nthCall qltb d f d1 x -> nthCall qltb d1 (f + 1) d2 y -> twoNth o d f d2 x y
| two_right d1 d2 x y : o = ReadRightFirst -> nthCall qltb d (f + 1) d1 y -> nthCall qltb d1 f d2 x -> twoNth o d f d2 x y
| two_call_left d1 d2 x y : o = CallLeftFirst -> nthCall qltb d f d1 x -> nthCall qltb d1 (f + 1) d2 y ->
    twoNth o d f d2 (zget (dvalues d2) f) y
| two_call_right d1 d2 x y : o = CallRightFirst -> nthCall qltb d (f + 1) d1 y -> nthCall qltb d1 f d2 x ->
    twoNth o d f d2 x (zget (dvalues d2) (f + 1)).

Inductive quantileCall (o : evalOrder) (d : dist Q) (q : Q) : dist Q -> res Q -> Prop :=
| quantile_exact n d' r :
    n = (q * inject_Z (Z.of_nat (length (dvalues d)) - 1))%Q -> (n == inject_Z (qtrunc n))%Q ->
    nthCall qltb d (qtrunc n) d' r -> quantileCall o d q d' r
| quantile_between n d' x y :
    n = (q * inject_Z (Z.of_nat (length (dvalues d)) - 1))%Q -> ~ (n == inject_Z (qtrunc n))%Q ->
    twoNth o d (qtrunc n) d' x y ->
    quantileCall o d q d'
      (x <- x ;; y <- y ;; Ok (x * (n - inject_Z (qtrunc n)) + y * (1 - (n - inject_Z (qtrunc n))))%Q).

(** median() (lines 116-118). *)
Definition medianCall (o : evalOrder) (d d' : dist Q) (r : res Q) : Prop := quantileCall o d (1 # 2) d' r.

(** The cached sum (lines 47-54), and mean() for a signed integer type: the division is made in std::size_t
    (lines 88-90, 109-111). Simplification: the sum does not overflow. *)
Definition dsum (l : list Z) : Z := fold_left Z.add l 0.
Definition meanInt (l : list Z) : res Z :=
  if Z.of_nat (length l) =? 0 then UB else Ok (u64 (dsum l) / Z.of_nat (length l)).

(** mean() for a floating-point type (lines 47-54, 109-111). *)
Definition qsum (l : list Q) : Q := fold_left Qplus l 0%Q.
Definition meanQ (l : list Q) : Q := (qsum l / inject_Z (Z.of_nat (length l)))%Q.

(** mad() for a floating-point type (lines 130-137). *)
Inductive madCall (o : evalOrder) (d : dist Q) : dist Q -> res Q -> Prop :=
| mad_call d' m d'' r : medianCall o d d' (Ok m) ->
    medianCall o (distMake qltb (map (fun e => Qabs (e - m)) (dvalues d'))) d'' r -> madCall o d d' r.

(** mad() for an integer type, as exact rationals: the deviations are stored as integers, after truncation (lines 130-137). *)
Inductive madIntCall (o : evalOrder) (d : dist Q) : dist Q -> res Q -> Prop :=
| mad_int_call d' m d'' r : medianCall o d d' (Ok m) ->
    medianCall o (distMake qltb (map (fun e => inject_Z (qtrunc (Qabs (e - m)))) (dvalues d'))) d'' r -> madIntCall o d d' r.
