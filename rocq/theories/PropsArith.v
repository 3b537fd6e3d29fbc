(** Properties C15 to C20, C52: pixel-wise operators, modifiers, extrema, mathematical functions.
    Containers live in a memory: [Allocated mem a n] says that the container of size [n] at address [a] exists,
    [Frame mem mem' a n] that nothing changed but that container. *)
From Verif Require Import Res VecModel RasterModel ContainerModel ArithModel TypesModel ArithSpec ContainerSpec
  ArithProofs ContainerProofs.

(** C15. V op= U, for any element-wise operator: U is apart from V, or is V, or starts after V. *)
Theorem C15_inplace_vector : forall A (op : A -> A -> res A) n mem a b,
  Allocated mem a n -> Allocated mem b n -> (a <= b \/ Apart a n b n) ->
  (forall i, 0 <= i < Z.of_nat n -> exists z, (x <- zget mem (a + i) ;; y <- zget mem (b + i) ;; op x y) = Ok z) ->
  exists mem', transform2 op n mem a b = Ok mem' /\ Frame mem mem' a n /\
    forall i, 0 <= i < Z.of_nat n ->
      zget mem' (a + i) = (x <- zget mem (a + i) ;; y <- zget mem (b + i) ;; op x y).
Proof. exact @transform2_spec. Qed.
Print Assumptions C15_inplace_vector.

(** V op= a, where the scalar is not an element of V. *)
Theorem C15_inplace_scalar : forall A (op : A -> A -> res A) n mem a s,
  Allocated mem a n -> Outside s a n ->
  (forall i, 0 <= i < Z.of_nat n -> exists z, (x <- zget mem (a + i) ;; y <- zget mem s ;; op x y) = Ok z) ->
  exists mem', transformRef op n mem a s = Ok mem' /\ Frame mem mem' a n /\
    forall i, 0 <= i < Z.of_nat n ->
      zget mem' (a + i) = (x <- zget mem (a + i) ;; y <- zget mem s ;; op x y).
Proof. exact @transformRef_spec. Qed.
Print Assumptions C15_inplace_scalar.

(** ++V, --V and the like. *)
Theorem C15_inplace_unary : forall A (f : A -> res A) n mem a,
  Allocated mem a n ->
  (forall i, 0 <= i < Z.of_nat n -> exists z, (x <- zget mem (a + i) ;; f x) = Ok z) ->
  exists mem', transform1 f n mem a = Ok mem' /\ Frame mem mem' a n /\
    forall i, 0 <= i < Z.of_nat n -> zget mem' (a + i) = (x <- zget mem (a + i) ;; f x).
Proof. exact @transform1_spec. Qed.
Print Assumptions C15_inplace_unary.

(** W = V op U: W is a new container, at address [t]; the operands keep their values. *)
Theorem C15_new_vector : forall A (op : A -> A -> res A) n mem a b,
  Allocated mem a n -> Allocated mem b n ->
  (forall i, 0 <= i < Z.of_nat n -> exists z, (x <- zget mem (a + i) ;; y <- zget mem (b + i) ;; op x y) = Ok z) ->
  let t := Z.of_nat (length mem) in
  exists mem', new2 op n mem a b = Ok mem' /\ length mem' = (length mem + n)%nat /\
    (forall j, j < t -> zget mem' j = zget mem j) /\
    forall i, 0 <= i < Z.of_nat n -> zget mem' (t + i) = (x <- zget mem (a + i) ;; y <- zget mem (b + i) ;; op x y).
Proof. exact @new2_spec. Qed.
Print Assumptions C15_new_vector.

(** W = V op a, even if the scalar is an element of V. *)
Theorem C15_new_scalar : forall A (op : A -> A -> res A) n mem a s,
  Allocated mem a n -> 0 <= s < Z.of_nat (length mem) ->
  (forall i, 0 <= i < Z.of_nat n -> exists z, (x <- zget mem (a + i) ;; y <- zget mem s ;; op x y) = Ok z) ->
  let t := Z.of_nat (length mem) in
  exists mem', newRef op n mem a s = Ok mem' /\ length mem' = (length mem + n)%nat /\
    (forall j, j < t -> zget mem' j = zget mem j) /\
    forall i, 0 <= i < Z.of_nat n -> zget mem' (t + i) = (x <- zget mem (a + i) ;; y <- zget mem s ;; op x y).
Proof. exact @newRef_spec. Qed.
Print Assumptions C15_new_scalar.

(** W = -V. *)
Theorem C15_new_unary : forall A (f : A -> res A) n mem a,
  Allocated mem a n ->
  (forall i, 0 <= i < Z.of_nat n -> exists z, (x <- zget mem (a + i) ;; f x) = Ok z) ->
  let t := Z.of_nat (length mem) in
  exists mem', new1 f n mem a = Ok mem' /\ length mem' = (length mem + n)%nat /\
    (forall j, j < t -> zget mem' j = zget mem j) /\
    forall i, 0 <= i < Z.of_nat n -> zget mem' (t + i) = (x <- zget mem (a + i) ;; f x).
Proof. exact @new1_spec. Qed.
Print Assumptions C15_new_unary.

(** The same operand twice: += then -=, -= then +=, *= then /= restore the memory. *)
Theorem C15_inverse_vector : forall n mem a b,
  Allocated mem a n -> Allocated mem b n -> Apart a n b n ->
  (m <- transform2 opAdd n mem a b ;; transform2 opSub n m a b) = Ok mem /\
  (m <- transform2 opSub n mem a b ;; transform2 opAdd n m a b) = Ok mem /\
  ((forall i, 0 <= i < Z.of_nat n -> zget mem (b + i) <> Ok 0) ->
   (m <- transform2 opMul n mem a b ;; transform2 opDiv n m a b) = Ok mem).
Proof. exact inverse_all. Qed.
Print Assumptions C15_inverse_vector.

Theorem C15_inverse_scalar : forall n mem a s y,
  Allocated mem a n -> Outside s a n -> zget mem s = Ok y ->
  (m <- transformRef opAdd n mem a s ;; transformRef opSub n m a s) = Ok mem /\
  (m <- transformRef opSub n mem a s ;; transformRef opAdd n m a s) = Ok mem /\
  (y <> 0 -> (m <- transformRef opMul n mem a s ;; transformRef opDiv n m a s) = Ok mem).
Proof. exact inverse_all_scalar. Qed.
Print Assumptions C15_inverse_scalar.

(** Violated preconditions: a zero divisor; a right-hand side which overruns the memory. *)
Theorem C15_division_by_zero : forall n mem a b,
  Allocated mem a n -> Allocated mem b n -> (a <= b \/ Apart a n b n) ->
  (exists i, 0 <= i < Z.of_nat n /\ zget mem (b + i) = Ok 0) ->
  transform2 opDiv n mem a b = UB /\ transform2 opMod n mem a b = UB.
Proof. exact div_by_zero. Qed.
Print Assumptions C15_division_by_zero.

Theorem C15_short_operand : forall A (op : A -> A -> res A) n mem a b,
  (forall x y, exists z, op x y = Ok z) -> Allocated mem a n -> 0 <= b <= Z.of_nat (length mem) ->
  Z.of_nat (length mem) < b + Z.of_nat n -> transform2 op n mem a b = UB.
Proof. exact @transform2_short. Qed.
Print Assumptions C15_short_operand.

(** V / U and V % U for integers: quotients and remainders, the latter having the sign of V. *)
Theorem C15_quotient_remainder : forall n mem a b, Allocated mem a n -> Allocated mem b n ->
  (forall i, 0 <= i < Z.of_nat n -> zget mem (b + i) <> Ok 0) ->
  let t := Z.of_nat (length mem) in
  exists mq mr, new2 opDiv n mem a b = Ok mq /\ new2 opMod n mem a b = Ok mr /\
    forall i, 0 <= i < Z.of_nat n -> exists x y q r,
      zget mem (a + i) = Ok x /\ zget mem (b + i) = Ok y /\ zget mq (t + i) = Ok q /\ zget mr (t + i) = Ok r /\
      x = q * y + r /\ Z.abs r < Z.abs y /\ 0 <= r * x.
Proof. exact quotient_remainder. Qed.
Print Assumptions C15_quotient_remainder.

(** ++V, --V and -V for integers. *)
Theorem C15_unary_integers : forall n mem a, Allocated mem a n ->
  (exists m, transform1 opIncr n mem a = Ok m /\ Frame mem m a n /\ transform1 opDecr n m a = Ok mem /\
    forall i x, 0 <= i < Z.of_nat n -> zget mem (a + i) = Ok x -> zget m (a + i) = Ok (x + 1)) /\
  (exists m, transform1 opDecr n mem a = Ok m /\ Frame mem m a n /\ transform1 opIncr n m a = Ok mem) /\
  (exists m, transform1 opNeg n mem a = Ok m /\ Frame mem m a n /\ transform1 opNeg n m a = Ok mem /\
    forall i x, 0 <= i < Z.of_nat n -> zget mem (a + i) = Ok x -> zget m (a + i) = Ok (- x)).
Proof. exact unary_integers. Qed.
Print Assumptions C15_unary_integers.

Example C15_met :
  let mem := [7; 1; 2; 3; 10; 20; 30; 8] in
  Allocated mem 1 3 /\ Allocated mem 4 3 /\ Apart 1 3 4 3 /\ Outside 7 1 3 /\
  transform2 opAdd 3 mem 1 4 = Ok [7; 11; 22; 33; 10; 20; 30; 8] /\
  transform2 opMul 3 mem 1 1 = Ok [7; 1; 4; 9; 10; 20; 30; 8] /\
  transform2 opDiv 3 mem 4 1 = Ok [7; 1; 2; 3; 10; 10; 10; 8] /\
  transformRef opMod 3 mem 4 7 = Ok [7; 1; 2; 3; 2; 4; 6; 8] /\
  new2 opSub 3 mem 1 4 = Ok ([7; 1; 2; 3; 10; 20; 30; 8] ++ [-9; -18; -27]) /\
  newRef opMul 3 mem 1 2 = Ok ([7; 1; 2; 3; 10; 20; 30; 8] ++ [2; 4; 6]) /\
  new1 opNeg 2 mem 6 = Ok ([7; 1; 2; 3; 10; 20; 30; 8] ++ [-30; -8]) /\
  transform1 opIncr 2 mem 0 = Ok [8; 2; 2; 3; 10; 20; 30; 8] /\ transform1 opDecr 1 mem 0 = Ok [6; 1; 2; 3; 10; 20; 30; 8].
Proof. cbv zeta. repeat split; try (cbn; lia); try reflexivity. intros i j Hi Hj. lia. unfold Outside. lia. Qed.

(** C16. An in-place operator whose scalar is element k of the container: the elements up to k use its initial value,
    those after k use its updated value. *)
Theorem C16_alias_characterised : forall A (op : A -> A -> res A) n mem a k xk,
  Allocated mem a n -> 0 <= k < Z.of_nat n -> zget mem (a + k) = Ok xk ->
  (forall i, 0 <= i <= k -> exists z, (x <- zget mem (a + i) ;; op x xk) = Ok z) ->
  (forall i, k < i < Z.of_nat n -> exists z, (x <- zget mem (a + i) ;; y <- op xk xk ;; op x y) = Ok z) ->
  exists mem', transformRef op n mem a (a + k) = Ok mem' /\ Frame mem mem' a n /\
    (forall i, 0 <= i <= k -> zget mem' (a + i) = (x <- zget mem (a + i) ;; op x xk)) /\
    (forall i, k < i < Z.of_nat n -> zget mem' (a + i) = (x <- zget mem (a + i) ;; y <- op xk xk ;; op x y)).
Proof. exact @transformRef_alias. Qed.
Print Assumptions C16_alias_characterised.

(** Missing in the partial theorem: elements other than the last one. *)
Theorem C16_alias_last_partial : forall A (op : A -> A -> res A) n mem a xk,
  Allocated mem a (S n) -> zget mem (a + Z.of_nat n) = Ok xk ->
  (forall i, 0 <= i < Z.of_nat (S n) -> exists z, (x <- zget mem (a + i) ;; op x xk) = Ok z) ->
  exists mem', transformRef op (S n) mem a (a + Z.of_nat n) = Ok mem' /\ Frame mem mem' a (S n) /\
    forall i, 0 <= i < Z.of_nat (S n) -> zget mem' (a + i) = (x <- zget mem (a + i) ;; op x xk).
Proof. exact alias_last. Qed.
Print Assumptions C16_alias_last_partial.

(** v += v[0] on {2, 3, 4} gives {4, 7, 8}, not {4, 5, 6}. *)
Theorem C16_alias_refuted : exists n mem a k xk,
  Allocated mem a n /\ 0 <= k < Z.of_nat n /\ zget mem (a + k) = Ok xk /\
  forall mem', transformRef opAdd n mem a (a + k) = Ok mem' ->
    exists i x, 0 <= i < Z.of_nat n /\ zget mem (a + i) = Ok x /\ zget mem' (a + i) <> Ok (x + xk).
Proof. exact alias_refuted. Qed.
Print Assumptions C16_alias_refuted.

Example C16_met : transformRef opAdd 3 [2; 3; 4] 0 0 = Ok [4; 7; 8] /\ transformRef opAdd 3 [2; 3; 4] 0 1 = Ok [5; 6; 10] /\
  transformRef opAdd 3 [2; 3; 4] 0 2 = Ok [6; 7; 8] /\ transformRef opDiv 3 [2; 3; 4] 0 0 = Ok [1; 3; 4].
Proof. repeat split. Qed.

(** C17. a - V is right only for a = 0 (and, for run-time dimensions, only for the empty vector). *)
Theorem C17_scalar_minus_vector_characterised : forall n a v,
  - 2 ^ 63 <= a < 2 ^ 63 -> 1 <= n < 2 ^ 63 /\ Z.of_nat (length v) = n \/ n = -1 ->
  (scalarMinusVector n a v = Ok (map (fun x => a - x) v) <-> a = 0 /\ (n = -1 -> v = [])).
Proof. exact scalarMinusVector_right. Qed.
Print Assumptions C17_scalar_minus_vector_characterised.

Theorem C17_scalar_minus_vector_fixed : forall n a v,
  1 <= n < 2 ^ 63 -> - 2 ^ 63 <= a < 2 ^ 63 -> Z.of_nat (length v) = n ->
  scalarMinusVector n a v = if (a =? 0) || (a =? n) then Ok (map Z.opp v) else Throw EGeneric.
Proof. exact scalarMinusVector_fixed. Qed.
Print Assumptions C17_scalar_minus_vector_fixed.

Theorem C17_scalar_minus_vector_runtime : forall a v,
  scalarMinusVector (-1) a v =
  if a <? 0 then Throw EGeneric else if Z.of_nat (length v) <? a then UB else Ok (map Z.opp (firstn (Z.to_nat a) v)).
Proof. exact scalarMinusVector_runtime. Qed.
Print Assumptions C17_scalar_minus_vector_runtime.

Theorem C17_scalar_minus_vector_refuted :
  exists n a v, - 2 ^ 63 <= a < 2 ^ 63 /\ 1 <= n < 2 ^ 63 /\ Z.of_nat (length v) = n /\
  exists w, scalarMinusVector n a v = Ok w /\ w <> map (fun x => a - x) v.
Proof. exact smv_refuted. Qed.
Print Assumptions C17_scalar_minus_vector_refuted.

Example C17_met : scalarMinusVector 3 3 [1; 2; 3] = Ok [-1; -2; -3] /\ scalarMinusVector 3 5 [1; 2; 3] = Throw EGeneric /\
  scalarMinusVector (-1) 2 [1; 2; 3] = Ok [-1; -2] /\ scalarMinusVector (-1) 5 [1; 2; 3] = UB /\
  scalarMinusVector 3 0 [1; 2; 3] = Ok [-1; -2; -3].
Proof. repeat split. Qed.

(** C18. *)
Theorem C18_fill : forall A n (mem : list A) a s,
  Allocated mem a n -> 0 <= s < Z.of_nat (length mem) ->
  exists mem', fillLoop n mem a s = Ok mem' /\ Frame mem mem' a n /\
    forall i, 0 <= i < Z.of_nat n -> zget mem' (a + i) = zget mem s.
Proof. exact @fill_spec. Qed.
Print Assumptions C18_fill.

Theorem C18_range : forall n mem a v s st,
  Allocated mem a n -> Outside s a n -> zget mem s = Ok st ->
  exists mem', rangeLoop n mem a v s = Ok mem' /\ Frame mem mem' a n /\
    forall i, 0 <= i < Z.of_nat n -> zget mem' (a + i) = Ok (v + i * st).
Proof. exact range_spec. Qed.
Print Assumptions C18_range.

(** Floating-point element types (exact arithmetic). *)
Theorem C18_linspace : forall (n : nat) (mn mx : Q),
  (2 <= n)%nat ->
  exists l, linspaceQ n mn mx = Ok l /\ length l = n /\ zget l (Z.of_nat n - 1) = Ok mx /\
    (exists x, zget l 0 = Ok x /\ (x == mn)%Q) /\
    forall i, 0 <= i < Z.of_nat n -> exists x, zget l i = Ok x /\
      (x == mn + (mx - mn) * inject_Z i / inject_Z (Z.of_nat n - 1))%Q.
Proof. exact linspaceQ_spec. Qed.
Print Assumptions C18_linspace.

(** Integer element types: constant increments but for the last one; missing: min > max, where the property fails. *)
Theorem C18_linspace_integer_partial : forall (n : nat) mn mx,
  (2 <= n)%nat -> - 2 ^ 63 <= mn -> mn <= mx -> mx < 2 ^ 63 -> mx - mn < 2 ^ 63 ->
  exists l, linspaceInt n mn mx = Ok l /\ length l = n /\ zget l 0 = Ok mn /\ zget l (Z.of_nat n - 1) = Ok mx /\
    forall i, 0 <= i < Z.of_nat n - 1 -> zget l i = Ok (mn + i * ((mx - mn) / (Z.of_nat n - 1))).
Proof. exact linspaceInt_ascending. Qed.
Print Assumptions C18_linspace_integer_partial.

(** Containers of less than two elements: only one floating-point element is all right; it is max. *)
Theorem C18_linspace_short : forall mn mx x y, linspaceInt 0 mn mx = UB /\ linspaceInt 1 mn mx = UB /\ linspaceQ 0 x y = UB /\ linspaceQ 1 x y = Ok [y].
Proof. exact linspace_short. Qed.
Print Assumptions C18_linspace_short.

Theorem C18_linspace_integer_refuted :
  exists n mn mx l x, (2 <= n)%nat /\ mx < mn /\ (Z.of_nat n - 1 | mx - mn) /\
  linspaceInt n mn mx = Ok l /\ zget l 1 = Ok x /\ x <> mn + (mx - mn) / (Z.of_nat n - 1) /\ ~ (mx <= x <= mn).
Proof. exact linspace_refuted. Qed.
Print Assumptions C18_linspace_integer_refuted.

Example C18_met :
  Allocated [9; 0; 0; 0; 2] 1 3 /\ Outside 4 1 3 /\
  fillLoop 3 [9; 0; 0; 0; 2] 1 4 = Ok [9; 2; 2; 2; 2] /\
  rangeLoop 3 [9; 0; 0; 0; 2] 1 5 4 = Ok [9; 5; 7; 9; 2] /\
  rangeLoop 3 [3; 0; 0] 0 5 0 = Ok [5; 10; 15] /\ (* c.range(5, c[0]): step 5, not 3 *)
  linspaceInt 3 10 14 = Ok [10; 12; 14] /\ linspaceInt 4 0 10 = Ok [0; 3; 6; 10] /\ linspaceInt 1 0 1 = UB.
Proof. repeat split; try (cbn; lia); try reflexivity. unfold Outside. lia. Qed.

(** C19. [tuples] are the argument tuples read in the containers before the call; [calls] threads the state
    of the function through one call per element, in order. *)
Theorem C19_generate : forall A S (func : S -> list A -> res (S * A)) n st mem a args tuples st' out,
  Allocated mem a n ->
  Forall (fun b => a <= b \/ Apart a n b n) args ->
  length tuples = n ->
  (forall i, 0 <= i < Z.of_nat n -> readArgs mem (shifted args i) = zget tuples i) ->
  calls func st tuples = Ok (st', out) ->
  exists mem', generate func n st mem a args = Ok (st', mem') /\ Frame mem mem' a n /\
    forall i, 0 <= i < Z.of_nat n -> zget mem' (a + i) = zget out i.
Proof. exact @generate_spec. Qed.
Print Assumptions C19_generate.

Theorem C19_apply : forall A S (func : S -> list A -> res (S * A)) n st mem a args tuples st' out,
  Allocated mem a n ->
  Forall (fun b => a <= b \/ Apart a n b n) args ->
  length tuples = n ->
  (forall i, 0 <= i < Z.of_nat n -> (x <- zget mem (a + i) ;; t <- readArgs mem (shifted args i) ;; Ok (x :: t)) = zget tuples i) ->
  calls func st tuples = Ok (st', out) ->
  exists mem', apply func n st mem a args = Ok (st', mem') /\ Frame mem mem' a n /\
    forall i, 0 <= i < Z.of_nat n -> zget mem' (a + i) = zget out i.
Proof. exact @apply_spec. Qed.
Print Assumptions C19_apply.

(** A function which counts its calls and adds its arguments to the count. *)
Example C19_met :
  let f := fun st xs => Ok (st + 1, fold_left Z.add xs (100 * st)) in
  let mem := [0; 0; 0; 1; 2; 3; 10; 20; 30] in
  Allocated mem 0 3 /\ Forall (fun b => 0 <= b \/ Apart 0 3 b 3) [3; 6] /\
  calls f 0 [[1; 10]; [2; 20]; [3; 30]] = Ok (3, [11; 122; 233]) /\
  (forall i, 0 <= i < 3 -> readArgs mem (shifted [3; 6] i) = zget [[1; 10]; [2; 20]; [3; 30]] i) /\
  generate f 3 0 mem 0 [3; 6] = Ok (3, [11; 122; 233; 1; 2; 3; 10; 20; 30]) /\
  apply f 3 0 mem 3 [6] = Ok (3, [0; 0; 0; 11; 122; 233; 10; 20; 30]).
Proof.
  cbv zeta. split; [split; cbn; lia|]. split; [constructor; [left; lia|constructor; [left; lia|constructor]]|]. split; [reflexivity|].
  split; [|split; reflexivity]. intros i Hi. assert (i = 0 \/ i = 1 \/ i = 2) as [->|[->| ->]] by lia; reflexivity.
Qed.

(** C20. The value and the index of the extrema, for any strict weak ordering. *)
Theorem C20_min : forall A (lt : A -> A -> bool), StrictWeakOrder lt -> forall l, l <> [] ->
  exists k v, cmin lt l = Ok (k, v) /\ zget l k = Ok v /\
    (forall j x, zget l j = Ok x -> lt x v = false) /\ (forall j x, zget l j = Ok x -> j < k -> lt v x = true).
Proof. exact @cmin_spec. Qed.
Print Assumptions C20_min.

Theorem C20_max : forall A (lt : A -> A -> bool), StrictWeakOrder lt -> forall l, l <> [] ->
  exists k v, cmax lt l = Ok (k, v) /\ zget l k = Ok v /\
    (forall j x, zget l j = Ok x -> lt v x = false) /\ (forall j x, zget l j = Ok x -> j < k -> lt x v = true).
Proof. exact @cmax_spec. Qed.
Print Assumptions C20_max.

(** minmax(): the first smallest element and the LAST largest one. *)
Theorem C20_minmax : forall A (lt : A -> A -> bool), StrictWeakOrder lt -> forall l, l <> [] ->
  exists kmin vmin kmax vmax, cminmax lt l = Ok ((kmin, vmin), (kmax, vmax)) /\
    cmin lt l = Ok (kmin, vmin) /\ zget l kmax = Ok vmax /\
    (forall j x, zget l j = Ok x -> lt vmax x = false) /\ (forall j x, zget l j = Ok x -> kmax < j -> lt x vmax = true).
Proof. exact @cminmax_spec. Qed.
Print Assumptions C20_minmax.

(** There is no least element to be read in an empty container. *)
Theorem C20_empty : forall A (lt : A -> A -> bool), cmin lt [] = UB /\ cmax lt [] = UB /\ cminmax lt [] = UB.
Proof. exact @extrema_empty. Qed.
Print Assumptions C20_empty.
Example C20_met : StrictWeakOrder Z.ltb /\ cmin Z.ltb [3; 1; 4; 1; 5; 5] = Ok (1, 1) /\
  cmax Z.ltb [3; 1; 4; 1; 5; 5] = Ok (4, 5) /\ cminmax Z.ltb [3; 1; 4; 1; 5; 5] = Ok ((1, 1), (5, 5)).
Proof. split; [|repeat split]. split; intros; lia. Qed.

(** C52. The mathematical functions take their scalar argument by value: it may be an element of the container. *)
Theorem C52_function_scalar : forall A (op : A -> A -> res A) n mem a s,
  Allocated mem a n -> 0 <= s < Z.of_nat (length mem) ->
  (forall i, 0 <= i < Z.of_nat n -> exists z, (x <- zget mem (a + i) ;; y <- zget mem s ;; op x y) = Ok z) ->
  exists mem', transformVal op n mem a s = Ok mem' /\ Frame mem mem' a n /\
    forall i, 0 <= i < Z.of_nat n ->
      zget mem' (a + i) = (x <- zget mem (a + i) ;; y <- zget mem s ;; op x y).
Proof. exact @transformVal_spec. Qed.
Print Assumptions C52_function_scalar.

Theorem C52_function_unary : forall A (f : A -> res A) n mem a,
  Allocated mem a n ->
  (forall i, 0 <= i < Z.of_nat n -> exists z, (x <- zget mem (a + i) ;; f x) = Ok z) ->
  exists mem', transform1 f n mem a = Ok mem' /\ Frame mem mem' a n /\
    forall i, 0 <= i < Z.of_nat n -> zget mem' (a + i) = (x <- zget mem (a + i) ;; f x).
Proof. exact @transform1_spec. Qed.
Print Assumptions C52_function_unary.

Example C52_met : transformVal opMul 3 [2; 3; 4] 0 0 = Ok [4; 6; 8] /\ transformVal opMul 3 [2; 3; 4] 0 1 = Ok [6; 9; 12].
Proof. split; reflexivity. Qed.
