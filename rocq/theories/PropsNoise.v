(** C59 and C60: limits of integral types and additive noises. *)
From Verif Require Import Res ArithModel ArithSpec LimitsModel LimitsSpec LimitsProofs.

(** C59. The min and max are the lowest and highest values; the infinity is the max. *)
Theorem C59_bounds : forall t, Integral t -> Value t (lmin t) /\ Value t (lmax t) /\ linf t = lmax t /\ forall x, Value t x -> lmin t <= x <= lmax t.
Proof. exact limits_bounds. Qed.
Print Assumptions C59_bounds.
Example C59_bounds_met : Integral (TSigned 16) /\ lmin (TSigned 16) = -32768 /\ lmax (TSigned 16) = 32767.
Proof. cbn. auto. Qed.

(** Zero and one. *)
Theorem C59_constants : forall t, Integral t -> lzero t = 0 /\ lone t = 1.
Proof. exact limits_constants. Qed.
Print Assumptions C59_constants.
Example C59_constants_met : Integral TBool /\ Integral (TSigned 8).
Proof. cbn. auto. Qed.

(** The halves are exact: the max over two is rounded up. *)
Theorem C59_half : forall t, Integral t -> exists a b, halfMin t = Ok a /\ halfMax t = Ok b /\ Value t a /\ Value t b /\
  2 * a = lmin t /\ 2 * b = lmax t + 1.
Proof. exact limits_half. Qed.
Print Assumptions C59_half.
Example C59_half_met : halfMin (TSigned 32) = Ok (-1073741824) /\ halfMax (TSigned 32) = Ok 1073741824 /\ halfMax TBool = Ok 1 /\ halfMax (TUnsigned 8) = Ok 128.
Proof. repeat split. Qed.

(** The default uniform noise does not overflow when it is added to values which are at least half the min and less than half the max... *)
Theorem C59_noise_partial : forall t a b x d, Integral t -> halfMin t = Ok a -> halfMax t = Ok b -> Value t x -> a <= x < b -> a <= d <= b ->
  addDrawn t x d = Ok (x + d) /\ Value t (x + d).
Proof. exact add_noise_ok. Qed.
Print Assumptions C59_noise_partial.
Example C59_noise_met : addDrawn (TSigned 32) 1073741823 1073741824 = Ok 2147483647 /\ addDrawn (TSigned 32) (-1073741824) (-1073741824) = Ok (-2147483648).
Proof. split; reflexivity. Qed.

(** ... but it may overflow from half the max: for int and long, this is undefined behavior. *)
Theorem C59_corner_refuted : forall t b, Integral t -> t <> TBool -> halfMax t = Ok b ->
  Value t b /\ addDrawn t b b = match t with TBool => UB | TUnsigned _ => Ok 0 | TSigned n => if n <? 32 then Ok (- 2 ^ (n - 1)) else UB end.
Proof. exact add_noise_corner. Qed.
Print Assumptions C59_corner_refuted.
Example C59_corner_met : Integral (TSigned 64) /\ addDrawn (TSigned 64) (2 ^ 62) (2 ^ 62) = UB.
Proof. cbn. auto. Qed.

(** For other types, and for int and long without overflow, the noise is added modulo the number of values. *)
Theorem C59_noise_modulo : forall t x d, Integral t -> Value t x -> Value t d -> t <> TBool ->
  (match t with TSigned n => n < 32 \/ Value t (x + d) | _ => True end) ->
  exists y, addDrawn t x d = Ok y /\ Value t y /\ exists k, y = x + d + k * (lmax t - lmin t + 1).
Proof. exact add_noise_defined. Qed.
Print Assumptions C59_noise_modulo.
Example C59_noise_modulo_met : addDrawn (TUnsigned 8) 200 100 = Ok 44.
Proof. reflexivity. Qed.

(** The epsilon of integral types is 0, hence not a difference between two values. *)
Theorem C59_epsilon_refuted : forall t, Integral t -> lepsilon t = 0 /\ almostMin t = Ok (lmin t) /\ almostMax t = Ok (lmax t) /\
  forall x y, Value t x -> Value t y -> x < y -> y - x <> lepsilon t.
Proof. exact limits_epsilon. Qed.
Print Assumptions C59_epsilon_refuted.

(** C60. Whatever the history of calls, the k-th one draws the k-th value, and returns it or adds it to its parameter. *)
Theorem C60_history : forall D E S T (draw : D -> E -> (D * E) * S) (convert : S -> res T) plus xs st st' outs,
  calls (noiseCall draw convert plus) st xs = Ok (st', outs) ->
  st' = after draw (length xs) st /\ length outs = length xs /\
  forall k args, nth_error xs k = Some args -> exists d y, convert (drawn draw st k) = Ok d /\ nth_error outs k = Some y /\
    (args = [] /\ y = d \/ exists x, args = [x] /\ plus x d = Ok y).
Proof. exact @noise_calls. Qed.
Print Assumptions C60_history.
Example C60_history_met : calls (noiseCall (fun (d e : Z) => ((d, e + 1), d * e)) (fun x => Ok x) (fun x y => Ok (x + y))) (10, 1) [[]; [7]; []] = Ok ((10, 4), [10; 27; 30]).
Proof. reflexivity. Qed.

(** Applied to a container, it adds the i-th drawn value to the i-th element, and nothing else is changed. *)
Theorem C60_apply : forall D E S T (draw : D -> E -> (D * E) * S) (convert : S -> res T) plus st n mem a, Allocated mem a n ->
  (forall i x, 0 <= i < Z.of_nat n -> zget mem (a + i) = Ok x -> exists d y, convert (drawn draw st (Z.to_nat i)) = Ok d /\ plus x d = Ok y) ->
  exists mem', apply (noiseCall draw convert plus) n st mem a [] = Ok (after draw n st, mem') /\ Frame mem mem' a n /\
    forall i x d, 0 <= i < Z.of_nat n -> zget mem (a + i) = Ok x -> convert (drawn draw st (Z.to_nat i)) = Ok d -> zget mem' (a + i) = plus x d.
Proof. exact @noise_apply. Qed.
Print Assumptions C60_apply.
Example C60_apply_met : apply (noiseCall (fun (d e : Z) => ((d, e + 1), d * e)) (fun x => Ok x) (fun x y => Ok (x + y))) 2 (10, 1) [0; 5; 5; 0] 1 [] = Ok ((10, 3), [0; 15; 25; 0]).
Proof. reflexivity. Qed.

(** A container is generated with the same drawn values. *)
Theorem C60_generate : forall D E S T (draw : D -> E -> (D * E) * S) (convert : S -> res T) plus st n mem a, Allocated mem a n ->
  (forall i, 0 <= i < Z.of_nat n -> exists d, convert (drawn draw st (Z.to_nat i)) = Ok d) ->
  exists mem', generate (noiseCall draw convert plus) n st mem a [] = Ok (after draw n st, mem') /\ Frame mem mem' a n /\
    forall i, 0 <= i < Z.of_nat n -> zget mem' (a + i) = convert (drawn draw st (Z.to_nat i)).
Proof. exact @noise_generate. Qed.
Print Assumptions C60_generate.
Example C60_generate_met : generate (noiseCall (fun (d e : Z) => ((d, e + 1), d * e)) (fun x => Ok x) (fun x y => Ok (x + y))) 2 (10, 1) [0; 5; 5; 0] 1 [] = Ok ((10, 3), [0; 10; 20; 0]).
Proof. reflexivity. Qed.

(** The noise depends neither on the values nor on the size. *)
Theorem C60_independent : forall D E (draw : D -> E -> (D * E) * Z) st n n' mem mem' a a' st1 st1' out out',
  Allocated mem a n -> Allocated mem' a' n' ->
  apply (noiseCall draw (fun x => Ok x) (fun x y => Ok (x + y))) n st mem a [] = Ok (st1, out) ->
  apply (noiseCall draw (fun x => Ok x) (fun x y => Ok (x + y))) n' st mem' a' [] = Ok (st1', out') ->
  forall i x x' y y', 0 <= i < Z.of_nat n -> i < Z.of_nat n' -> zget mem (a + i) = Ok x -> zget mem' (a' + i) = Ok x' ->
    zget out (a + i) = Ok y -> zget out' (a' + i) = Ok y' -> y - x = y' - x'.
Proof. exact @noise_same. Qed.
Print Assumptions C60_independent.
Example C60_independent_met : exists st st', apply (noiseCall (fun (d e : Z) => ((d, e + 1), d * e)) (fun x => Ok x) (fun x y => Ok (x + y))) 2 (10, 1) [5; 5] 0 [] = Ok (st, [15; 25]) /\
  apply (noiseCall (fun (d e : Z) => ((d, e + 1), d * e)) (fun x => Ok x) (fun x y => Ok (x + y))) 3 (10, 1) [100; -100; 7] 0 [] = Ok (st', [110; -80; 37]).
Proof. do 2 eexists. split; reflexivity. Qed.

(** For complex values, real and imaginary parts are drawn in turn. *)
Theorem C60_complex : forall D E S (value : D -> E -> S) (next : E -> E) dr di e k,
  drawn (drawComplex (fun d e => ((d, next e), value d e))) ((dr, di), e) k =
  (value dr (Nat.iter (2 * k) next e), value di (Nat.iter (2 * k + 1) next e)).
Proof. exact @complex_drawn. Qed.
Print Assumptions C60_complex.
Example C60_complex_met : drawn (drawComplex (fun (d e : Z) => ((d, e + 1), d * e))) ((1, 100), 0) 3 = (6, 700).
Proof. reflexivity. Qed.
