(** Properties C72 and C73: pixel-wise operators over integers of bounded width.
    Each theorem is closed by a lemma of WidthProofs. *)
From Coq Require Import QArith.
From Verif Require Import Res ArithModel TypesModel WidthModel WidthSpec ArithSpec WidthProofs.
Open Scope Z_scope.

Definition uchar : itype := mkItype false 8.
Definition schar : itype := mkItype true 8.
Definition ushort : itype := mkItype false 16.
Definition uint : itype := mkItype false 32.

(** C72. What an operator gives for two values of any integral type: either the behaviour is undefined, and exactly when is stated,
    or the exact result is reduced modulo the number of values of the type. *)
Theorem C72_operator : forall t o x y, Wf t -> InType t x -> InType t y ->
  (widthOp t o x y = UB <-> exact o x y = None \/ (SignedArithmetic t /\ ~ InType (promoted t) (evaluated o x y))) /\
  (forall w, widthOp t o x y = Ok w -> exists z, exact o x y = Some z /\ Wrapped t z w) /\
  (forall e, widthOp t o x y <> Throw e).
Proof. exact operator_spec. Qed.
Print Assumptions C72_operator.

(** V op= U: where the exact results are representable they are what the pixels become, and nothing else changes. *)
Theorem C72_inplace : forall t o n mem a b,
  Wf t -> Allocated mem a n -> Allocated mem b n -> (a <= b \/ Apart a n b n) -> Typed t mem a n -> Typed t mem b n ->
  (forall i x y, 0 <= i < Z.of_nat n -> zget mem (a + i) = Ok x -> zget mem (b + i) = Ok y ->
    ~ LeastByMinusOne t o x y /\ exists z, exact o x y = Some z /\ InType t z) ->
  exists mem', transform2 (widthOp t o) n mem a b = Ok mem' /\ Frame mem mem' a n /\
    forall i x y, 0 <= i < Z.of_nat n -> zget mem (a + i) = Ok x -> zget mem (b + i) = Ok y ->
    exists z, exact o x y = Some z /\ zget mem' (a + i) = Ok z.
Proof. exact inplace_exact. Qed.
Print Assumptions C72_inplace.

(** W = V op U. *)
Theorem C72_new : forall t o n mem a b,
  Wf t -> Allocated mem a n -> Allocated mem b n -> Typed t mem a n -> Typed t mem b n ->
  (forall i x y, 0 <= i < Z.of_nat n -> zget mem (a + i) = Ok x -> zget mem (b + i) = Ok y ->
    ~ LeastByMinusOne t o x y /\ exists z, exact o x y = Some z /\ InType t z) ->
  exists l, new2 (widthOp t o) n mem a b = Ok (mem ++ l) /\ length l = n /\
    forall i x y, 0 <= i < Z.of_nat n -> zget mem (a + i) = Ok x -> zget mem (b + i) = Ok y ->
    exists z, exact o x y = Some z /\ zget l i = Ok z.
Proof. exact new_exact. Qed.
Print Assumptions C72_new.

(** Sums, differences and products of rasters of unsigned integers wrap around, as those of integers do:
    proved for types of at most 15 bits and at least 32 bits, and for signed ones of at most 16 bits.
    Missing: unsigned types of 16 bits, for which it is false, see [C72_unsigned_refuted]. *)
Theorem C72_wraps_partial : forall t o n mem a b, Wf t -> NeverOverflows t -> ring o = true ->
  Allocated mem a n -> Allocated mem b n -> (a <= b \/ Apart a n b n) -> Typed t mem a n -> Typed t mem b n ->
  exists mem', transform2 (widthOp t o) n mem a b = Ok mem' /\ Frame mem mem' a n /\
    forall i x y, 0 <= i < Z.of_nat n -> zget mem (a + i) = Ok x -> zget mem (b + i) = Ok y ->
    exists z w, exact o x y = Some z /\ Wrapped t z w /\ zget mem' (a + i) = Ok w.
Proof. exact inplace_wraps. Qed.
Print Assumptions C72_wraps_partial.

Theorem C72_unsigned_refuted : ~ (forall t n mem a b, Wf t -> isigned t = false ->
  Allocated mem a n -> Allocated mem b n -> Apart a n b n -> Typed t mem a n -> Typed t mem b n ->
  exists mem', transform2 (widthOp t Mul) n mem a b = Ok mem').
Proof.
  intros H. destruct (H ushort 1%nat [65535; 65535] 0 1) as [m E]; try discriminate E.
  - left. cbn. lia.
  - reflexivity.
  - split; cbn; lia.
  - split; cbn; lia.
  - intros i j Hi Hj. lia.
  - intros i x Hi Hx. cbn in Hi. replace i with 0 in Hx by lia. injection Hx as <-. split; cbn; lia.
  - intros i x Hi Hx. cbn in Hi. replace i with 0 in Hx by lia. injection Hx as <-. split; cbn; lia.
Qed.
Print Assumptions C72_unsigned_refuted.

(** One pixel for which the operation is undefined is enough. *)
Theorem C72_undefined : forall t o n mem a b i x y,
  Wf t -> Allocated mem a n -> Allocated mem b n -> (a <= b \/ Apart a n b n) -> Typed t mem a n -> Typed t mem b n ->
  0 <= i < Z.of_nat n -> zget mem (a + i) = Ok x -> zget mem (b + i) = Ok y ->
  exact o x y = None \/ (SignedArithmetic t /\ ~ InType (promoted t) (evaluated o x y)) ->
  transform2 (widthOp t o) n mem a b = UB.
Proof. exact inplace_undefined. Qed.
Print Assumptions C72_undefined.

(** V += U and then V -= U restores the whole memory in spite of wraparounds, and conversely. *)
Theorem C72_inverse : forall t n mem a b, Wf t -> Allocated mem a n -> Allocated mem b n -> Apart a n b n ->
  Typed t mem a n -> Typed t mem b n ->
  (forall m, transform2 (widthOp t Add) n mem a b = Ok m -> transform2 (widthOp t Sub) n m a b = Ok mem) /\
  (forall m, transform2 (widthOp t Sub) n mem a b = Ok m -> transform2 (widthOp t Add) n m a b = Ok mem).
Proof. exact width_inverse. Qed.
Print Assumptions C72_inverse.

(** ++V, --V and -V. *)
Theorem C72_unary : forall t x, Wf t -> InType t x ->
  (widthIncr t x = UB <-> isigned t = true /\ 32 <= ibits t /\ x = itmax t) /\
  (widthDecr t x = UB <-> isigned t = true /\ 32 <= ibits t /\ x = itmin t) /\
  (widthNeg t x = UB <-> isigned t = true /\ 32 <= ibits t /\ x = itmin t) /\
  (forall w, widthIncr t x = Ok w -> Wrapped t (x + 1) w) /\
  (forall w, widthDecr t x = Ok w -> Wrapped t (x - 1) w) /\
  (forall w, widthNeg t x = Ok w -> Wrapped t (- x) w).
Proof. exact unary_spec. Qed.
Print Assumptions C72_unary.

(** range(min, step): the elements, and when the behaviour is undefined: if any of min + i step for i from 1 to the size is not
    representable in a signed type of at least 32 bits. *)
Theorem C72_range : forall t n v step, Wf t -> InType t step -> InType t v ->
  (forall l, widthRange t n v step = Ok l -> length l = n /\
    forall i, 0 <= i < Z.of_nat n -> exists w, zget l i = Ok w /\ Wrapped t (v + i * step) w) /\
  (widthRange t n v step = UB <->
    isigned t = true /\ 32 <= ibits t /\ exists i, 1 <= i <= Z.of_nat n /\ ~ InType t (v + i * step)).
Proof.
  exact (fun t n v step W IS IV => conj (fun l => range_elements t step W IS n v l IV) (range_undefined t step W IS n v IV)).
Qed.
Print Assumptions C72_range.

(** Hence that all the elements are representable is not enough. *)
Theorem C72_range_refuted : ~ (forall t n v step, Wf t -> InType t step ->
  (forall i, 0 <= i < Z.of_nat n -> InType t (v + i * step)) -> exists l, widthRange t n v step = Ok l).
Proof.
  intros H. destruct (H int32 2%nat (2 ^ 31 - 2) 1) as [l E].
  - right. cbn. lia.
  - split; cbn; lia.
  - intros i Hi. unfold InType. change (itmin int32) with (- 2 ^ 31). change (itmax int32) with (2 ^ 31 - 1). lia.
  - vm_compute in E. discriminate E.
Qed.
Print Assumptions C72_range_refuted.

Example C72_met :
  Wf uchar /\ NeverOverflows uchar /\ NeverOverflows uint /\ ~ NeverOverflows ushort /\
  (* unsigned char *)
  transform2 (widthOp uchar Add) 2 [200; 10; 100; 20] 0 2 = Ok [44; 30; 100; 20] /\
  transform2 (widthOp uchar Sub) 2 [44; 30; 100; 20] 0 2 = Ok [200; 10; 100; 20] /\
  transform2 (widthOp uchar Mul) 2 [200; 10; 2; 3] 0 2 = Ok [144; 30; 2; 3] /\
  transform2 (widthOp uchar Div) 2 [144; 30; 2; 3] 0 2 = Ok [72; 10; 2; 3] /\
  (* signed char: the sum is made in int, and the conversion wraps *)
  widthOp schar Add 127 1 = Ok (-128) /\ widthNeg schar (-128) = Ok (-128) /\ widthOp schar Div (-128) (-1) = Ok (-128) /\
  widthOp schar Mod (-128) (-1) = Ok 0 /\
  (* int and unsigned int *)
  widthOp int32 Add (2 ^ 31 - 1) 1 = UB /\ widthOp int32 Mod (- 2 ^ 31) (-1) = UB /\ widthOp uint Mul (2 ^ 31) 2 = Ok 0 /\
  (* unsigned short *)
  widthOp ushort Mul 65535 65535 = UB /\ widthOp ushort Mul 46341 46341 = UB /\ widthOp ushort Mul 46340 46340 = Ok 43024 /\
  (* ranges *)
  widthRange uchar 4 254 1 = Ok [254; 255; 0; 1] /\ widthRange int32 2 (2 ^ 31 - 3) 1 = Ok [2 ^ 31 - 3; 2 ^ 31 - 2] /\
  widthRange int32 2 (2 ^ 31 - 2) 1 = UB.
Proof.
  split; [left; cbn; lia|]. split; [left; cbn; lia|]. split; [right; right; cbn; split; [lia|reflexivity]|].
  split; [intros [H|[[_ H]|[H _]]]; cbn in H; [lia|discriminate|lia]|].
  repeat (split; [vm_compute; reflexivity|]). vm_compute. reflexivity.
Qed.

(** C73. V op= q where V has integral pixels and q is a floating-point number: the fractional part of q is ignored... *)
Theorem C73_fraction_ignored : forall t o q n mem a,
  scalarInPlace t o q n mem a = scalarInPlace t o (inject_Z (qtrunc q)) n mem a.
Proof. exact scalar_trunc. Qed.
Print Assumptions C73_fraction_ignored.

(** ...hence a factor less than one makes all the pixels zero, a divisor less than one is undefined behaviour, and adding or
    subtracting less than one does nothing... *)
Theorem C73_less_than_one : forall t q n mem a,
  Wf t -> Allocated mem a n -> Typed t mem a n -> (0 < n)%nat -> (-1 < q)%Q -> (q < 1)%Q ->
  (exists mem', scalarInPlace t Mul q n mem a = Ok mem' /\ Frame mem mem' a n /\
    forall i, 0 <= i < Z.of_nat n -> zget mem' (a + i) = Ok 0) /\
  scalarInPlace t Div q n mem a = UB /\ scalarInPlace t Mod q n mem a = UB /\
  scalarInPlace t Add q n mem a = Ok mem /\ scalarInPlace t Sub q n mem a = Ok mem.
Proof. exact scalar_fraction. Qed.
Print Assumptions C73_less_than_one.

(** (W = V * q is black too, and V is kept)... *)
Theorem C73_new_less_than_one : forall t q n mem a,
  Wf t -> Allocated mem a n -> Typed t mem a n -> (-1 < q)%Q -> (q < 1)%Q ->
  scalarNew t Mul q n mem a = Ok (mem ++ repeat 0 n).
Proof. exact scalar_new_fraction. Qed.
Print Assumptions C73_new_less_than_one.

(** ...and a factor or a divisor between one and two does nothing. *)
Theorem C73_less_than_two : forall t q n mem a, Wf t -> Allocated mem a n -> Typed t mem a n -> (1 <= q)%Q -> (q < 2)%Q ->
  scalarInPlace t Mul q n mem a = Ok mem /\ scalarInPlace t Div q n mem a = Ok mem.
Proof. exact scalar_one. Qed.
Print Assumptions C73_less_than_two.

(** A number whose integral part is not a value of the type is undefined behaviour. *)
Theorem C73_not_representable : forall t o q n mem a, ~ InType t (qtrunc q) -> scalarInPlace t o q n mem a = UB.
Proof. exact scalar_overflow. Qed.
Print Assumptions C73_not_representable.

(** Integral numbers have the expected effect: each pixel x becomes the integral part of x op q, if representable.
    Missing: the other numbers, for which it is false, see [C73_scaling_refuted]. *)
Theorem C73_scaling_partial : forall t o s n mem a,
  Wf t -> o <> Mod -> Allocated mem a n -> Typed t mem a n -> InType t s ->
  (forall i x, 0 <= i < Z.of_nat n -> zget mem (a + i) = Ok x -> exists r, qexact o x (inject_Z s) = Some r /\ InType t (qtrunc r)) ->
  exists mem', scalarInPlace t o (inject_Z s) n mem a = Ok mem' /\ Frame mem mem' a n /\
    forall i x, 0 <= i < Z.of_nat n -> zget mem (a + i) = Ok x ->
    exists r, qexact o x (inject_Z s) = Some r /\ zget mem' (a + i) = Ok (qtrunc r).
Proof. exact scalar_integral. Qed.
Print Assumptions C73_scaling_partial.

(** The red plane of the documentation: 64 times 0.2125 should be 13, and is 0. *)
Theorem C73_scaling_refuted : ~ (forall t o q n mem a, Wf t -> Allocated mem a n -> Typed t mem a n ->
  (forall i x, 0 <= i < Z.of_nat n -> zget mem (a + i) = Ok x -> exists r, qexact o x q = Some r /\ InType t (qtrunc r)) ->
  exists mem', scalarInPlace t o q n mem a = Ok mem' /\
    forall i x, 0 <= i < Z.of_nat n -> zget mem (a + i) = Ok x -> exists r, qexact o x q = Some r /\ zget mem' (a + i) = Ok (qtrunc r)).
Proof.
  intros H. destruct (H uchar Mul (2125 # 10000) 1%nat [64] 0) as (m & E & P).
  - left. cbn. lia.
  - split; cbn; lia.
  - intros i x Hi Hx. cbn in Hi. replace i with 0 in Hx by lia. injection Hx as <-. split; cbn; lia.
  - intros i x Hi Hx. cbn in Hi. replace i with 0 in Hx by lia. injection Hx as <-. eexists. split; [reflexivity|]. split; vm_compute; discriminate.
  - vm_compute in E. injection E as <-. destruct (P 0 64) as (r & Er & G); [lia|reflexivity|]. cbn in Er. injection Er as <-. vm_compute in G. discriminate G.
Qed.
Print Assumptions C73_scaling_refuted.

Example C73_met :
  scalarInPlace uchar Mul (2125 # 10000) 3 [64; 128; 255; 7] 0 = Ok [0; 0; 0; 7] /\
  scalarInPlace uchar Mul (15 # 10) 3 [64; 128; 255; 7] 0 = Ok [64; 128; 255; 7] /\
  scalarInPlace uchar Mul (25 # 10) 3 [64; 100; 10; 7] 0 = Ok [128; 200; 20; 7] /\
  scalarInPlace uchar Div (1 # 2) 3 [64; 128; 255; 7] 0 = UB /\
  scalarInPlace uchar Mul (-15 # 10) 3 [64; 128; 255; 7] 0 = UB /\
  scalarInPlace uchar Sub (2 # 1) 2 [64; 128; 255; 7] 1 = Ok [64; 126; 253; 7] /\
  scalarNew uchar Mul (2125 # 10000) 2 [64; 128] 0 = Ok [64; 128; 0; 0] /\
  qexact Mul 64 (2125 # 10000) = Some (136000 # 10000)%Q.
Proof. repeat (split; [vm_compute; reflexivity|]). vm_compute. reflexivity. Qed.
