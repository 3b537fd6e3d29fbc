(** C103: median filters whose input and output pixels have any types.
    [Runnable f b region X ext out]: the filter of window [f] to [b] can be applied to an image of pixels X, read by [ext], on a region of [out];
    [neighbors f b X p]: the values of the window at p; [MiddleValue lt l x]: x is in l, less than half of the values are less than x,
    and less than half are greater; see TypedMedianSpec. *)
From Coq Require Import QArith Reals.
From Flocq Require Import Core IEEE754.BinarySingleNaN.
From Verif Require Import Res VecModel TypesModel BoxModel RasterModel MedianModel WidthModel WidthSpec FloatModel FloatSpec NanModel NanSpec QuantileModel TypedMedianModel
  Spec BoxSpec RasterSpec KernelSpec ContainerSpec MedianSpec TypedMedianSpec TypedMedianProofs TypedMedianFloatProofs EvenMedianProofs.
Open Scope Z_scope.

(** Any types, any window: the filter always ends; the result is undefined only because it is so for the neighbors of some pixel of the region;
    otherwise, each pixel of the region only depends on its neighbors, as [Outcome] tells, and the others do not change. *)
Theorem C103_region_partial : forall (A B : Type) (lt : A -> A -> bool) ordered (conv : A -> res B) middle zero n f b X region out ext, Runnable f b region X ext out ->
  Partitions lt ordered -> NoThrow conv -> (forall x y e, middle x y <> Throw e) ->
  exists enough, forall fuel, (enough <= fuel)%nat ->
  (exists r, typedApplyTo lt ordered conv middle zero fuel n (mkBox f b) region ext out r) /\
  forall r, typedApplyTo lt ordered conv middle zero fuel n (mkBox f b) region ext out r ->
    (r = UB /\ exists p, InBox region p /\ Outcome lt ordered conv middle (neighbors f b X p) UB) \/
    exists out', r = Ok out' /\ WF out' /\ rshape out' = rshape out /\
      (forall p, InBox region p -> exists v, rget n out' p = Ok v /\ Outcome lt ordered conv middle (neighbors f b X p) (Ok v)) /\
      (forall p, InDomain (rshape out) p -> ~ InBox region p -> rget n out' p = rget n out p).
Proof. exact @outcome_filter. Qed.
Print Assumptions C103_region_partial.
Example C103_region_met : Runnable [-1] [1] (mkBox [1] [3]) (fun _ => 7) (rget 1 (rowOf (repeat 7 5))) (rowOf (repeat 0 5)).
Proof. exact (row_runnable 7 0). Qed.
(** The hypotheses on the order hold of integers and of doubles. *)
Example C103_order_met : Partitions Z.ltb (fun _ => true) /\ Partitions dltb comparable.
Proof. exact (conj (order_partitions Z.ltb _ DistProofs.Zltb_swo) double_partitions). Qed.

(** From integers to integers, with an odd number of neighbors: the middle value, modulo the width of the output type. *)
Theorem C103_integers : forall t u n f b X region out ext, Runnable f b region X ext out -> windowSize f b mod 2 = 1 ->
  exists enough, forall fuel, (enough <= fuel)%nat ->
  (exists r, intFilter t u fuel n (mkBox f b) region ext out r) /\
  forall r, intFilter t u fuel n (mkBox f b) region ext out r ->
    exists out', r = Ok out' /\ WF out' /\ rshape out' = rshape out /\
      (forall p, InBox region p -> exists x, MiddleValue Z.ltb (neighbors f b X p) x /\ rget n out' p = Ok (convert u x)) /\
      (forall p, InDomain (rshape out) p -> ~ InBox region p -> rget n out' p = rget n out p).
Proof. exact filter_integers. Qed.
Print Assumptions C103_integers.
Example C103_integers_met : Runnable [-1] [1] (mkBox [1] [3]) (fun _ => 300) (rget 1 (rowOf (repeat 300 5))) (rowOf (repeat 0 5)) /\ windowSize [-1] [1] mod 2 = 1.
Proof. exact (conj (row_runnable 300 0) eq_refl). Qed.

(** There is only one such value. *)
Theorem C103_integer_unique : forall l x y, Z.of_nat (length l) mod 2 = 1 -> MiddleValue Z.ltb l x -> MiddleValue Z.ltb l y -> x = y.
Proof. exact middle_integer. Qed.
Print Assumptions C103_integer_unique.
Example C103_integer_unique_met : MiddleValue Z.ltb [5; 3; 9; 3; 8] 5.
Proof. split; [cbn; tauto|]. split; vm_compute; reflexivity. Qed.

(** From integers to doubles: the middle value, rounded if it has more than 53 bits. *)
Theorem C103_to_double : forall t n f b X region out ext, Runnable f b region X ext out -> windowSize f b mod 2 = 1 ->
  exists enough, forall fuel, (enough <= fuel)%nat ->
  (exists r, intDoubleFilter t fuel n (mkBox f b) region ext out r) /\
  forall r, intDoubleFilter t fuel n (mkBox f b) region ext out r ->
    exists out', r = Ok out' /\ WF out' /\ rshape out' = rshape out /\
      (forall p, InBox region p -> exists x, MiddleValue Z.ltb (neighbors f b X p) x /\ rget n out' p = Ok (dofZ x)) /\
      (forall p, InDomain (rshape out) p -> ~ InBox region p -> rget n out' p = rget n out p).
Proof. exact filter_integers_doubles. Qed.
Print Assumptions C103_to_double.
Theorem C103_rounded : forall z, Z.abs z <= 2 ^ 64 -> Finite (dofZ z) /\ real (dofZ z) = nearestDouble (IZR z).
Proof. exact dofZ_rounded. Qed.
Print Assumptions C103_rounded.
Example C103_to_double_met : Runnable [-1] [1] (mkBox [1] [3]) (fun _ => 300) (rget 1 (rowOf (repeat 300 5))) (rowOf (repeat pzero 5)) /\ windowSize [-1] [1] mod 2 = 1 /\ Z.abs 300 <= 2 ^ 64.
Proof. split; [exact (row_runnable 300 pzero)|]. split; [reflexivity|lia]. Qed.

(** Doubles without NaN in the windows: an unchanged value of the image, infinite or not. *)
Theorem C103_doubles : forall n f b X region out ext, Runnable f b region X ext out -> windowSize f b mod 2 = 1 ->
  (forall p, InBox region p -> ~ In nan (neighbors f b X p)) ->
  exists enough, forall fuel, (enough <= fuel)%nat ->
  (exists r, doubleFilter fuel n (mkBox f b) region ext out r) /\
  forall r, doubleFilter fuel n (mkBox f b) region ext out r ->
    exists out', r = Ok out' /\ WF out' /\ rshape out' = rshape out /\
      (forall p, InBox region p -> exists x, MiddleValue dltb (neighbors f b X p) x /\ rget n out' p = Ok x) /\
      (forall p, InDomain (rshape out) p -> ~ InBox region p -> rget n out' p = rget n out p).
Proof. exact filter_doubles. Qed.
Print Assumptions C103_doubles.
Example C103_doubles_met : Runnable [-1] [1] (mkBox [1] [3]) (fun _ => pzero) (rget 1 (rowOf (repeat pzero 5))) (rowOf (repeat nzero 5)) /\ windowSize [-1] [1] mod 2 = 1 /\
  (forall p, InBox (mkBox [1] [3]) p -> ~ In nan (neighbors [-1] [1] (fun _ => pzero) p)).
Proof. split; [exact (row_runnable pzero nzero)|]. split; [reflexivity|]. intros p _ I. cbn in I. destruct I as [I|[I|[I|[]]]]; discriminate. Qed.

(** There is only one such number, up to the sign of zero. *)
Theorem C103_double_unique : forall l x y, Z.of_nat (length l) mod 2 = 1 -> ~ In nan l -> MiddleValue dltb l x -> MiddleValue dltb l y -> sameNumber x y.
Proof. exact middle_double. Qed.
Print Assumptions C103_double_unique.
Example C103_double_unique_met : MiddleValue dltb [pzero; dofZ 1; nzero] nzero /\ MiddleValue dltb [pzero; dofZ 1; nzero] pzero.
Proof. split; (split; [cbn; tauto|]; split; vm_compute; reflexivity). Qed.

(** From doubles to integers: the middle value, truncated, if all values of the windows can be. *)
Theorem C103_to_integer_partial : forall u n f b X region out ext, Wf u -> Runnable f b region X ext out -> windowSize f b mod 2 = 1 ->
  (forall p x, InBox region p -> In x (neighbors f b X p) -> Finite x /\ InType u (Ztrunc (real x))) ->
  exists enough, forall fuel, (enough <= fuel)%nat ->
  (exists r, doubleIntFilter u fuel n (mkBox f b) region ext out r) /\
  forall r, doubleIntFilter u fuel n (mkBox f b) region ext out r ->
    exists out', r = Ok out' /\ WF out' /\ rshape out' = rshape out /\
      (forall p, InBox region p -> exists x, MiddleValue dltb (neighbors f b X p) x /\ rget n out' p = Ok (Ztrunc (real x))) /\
      (forall p, InDomain (rshape out) p -> ~ InBox region p -> rget n out' p = rget n out p).
Proof. exact filter_doubles_integers. Qed.
Print Assumptions C103_to_integer_partial.
Example C103_to_integer_met : Wf u8 /\ Runnable [-1] [1] (mkBox [1] [3]) (fun _ => pzero) (rget 1 (rowOf (repeat pzero 5))) (rowOf (repeat 0 5)) /\
  (forall p x, InBox (mkBox [1] [3]) p -> In x (neighbors [-1] [1] (fun _ => pzero) p) -> Finite x /\ InType u8 (Ztrunc (real x))).
Proof.
  split; [unfold Wf, u8; cbn; lia|]. split; [exact (row_runnable pzero 0)|]. intros p x _ I. cbn in I.
  assert (x = pzero) as -> by (destruct I as [I|[I|[I|[]]]]; congruence). split; [reflexivity|]. unfold real. cbn [pzero B2R]. rewrite Ztrunc_IZR. vm_compute. split; discriminate.
Qed.

(** Converting the image before filtering gives the same, if the conversion keeps the order: integers to doubles, integers to a type which holds them. *)
Theorem C103_convert_first : forall (A B : Type) (lt : A -> A -> bool) (lt' : B -> B -> bool) g f b X p x, KeepsOrder lt lt' g (neighbors f b X p) ->
  MiddleValue lt (neighbors f b X p) x -> MiddleValue lt' (neighbors f b (fun q => g (X q)) p) (g x).
Proof. exact @middle_converted. Qed.
Print Assumptions C103_convert_first.
Theorem C103_keeps_order : (forall l, Forall (fun z => Z.abs z <= 2 ^ 64) l -> KeepsOrder Z.ltb dltb dofZ l) /\
  (forall u l, Wf u -> Forall (InType u) l -> KeepsOrder Z.ltb Z.ltb (convert u) l).
Proof. exact (conj dofZ_keeps convert_keeps). Qed.
Print Assumptions C103_keeps_order.
Example C103_keeps_met : Forall (fun z => Z.abs z <= 2 ^ 64) [5; -3; 2 ^ 60] /\ Wf u8 /\ Forall (InType u8) [5; 200].
Proof. split; [repeat constructor; lia|]. split; [unfold Wf, u8; cbn; lia|]. repeat constructor; vm_compute; discriminate. Qed.

(** If a window holds NaN and two different numbers, the behavior is undefined. *)
Theorem C103_nan : forall n f b X region out ext p x y, Runnable f b region X ext out -> InBox region p -> In nan (neighbors f b X p) ->
  In x (neighbors f b X p) -> In y (neighbors f b X p) -> lessThan x y ->
  exists enough, forall fuel, (enough <= fuel)%nat ->
  (exists r, doubleFilter fuel n (mkBox f b) region ext out r) /\ forall r, doubleFilter fuel n (mkBox f b) region ext out r -> r = UB.
Proof. exact filter_nan. Qed.
Print Assumptions C103_nan.
Example C103_nan_met : lessThan (B754_infinity true) pzero /\ In nan [pzero; nan; B754_infinity true].
Proof. split; [reflexivity|cbn; tauto]. Qed.

(** With rationals and no conversion, this is the model of C40. *)
Theorem C103_exact : forall fuel n window region ext out r, 0 < boxSize window ->
  typedApplyTo qltb (fun _ => true) (@Ok Q) (fun x y => Ok ((x + y) * (1 # 2))%Q) 0%Q fuel n window region ext out r <->
  filterApplyTo fuel n window region ext out r.
Proof. exact filter_agrees. Qed.
Print Assumptions C103_exact.
Example C103_exact_met : 0 < boxSize (mkBox [-1; -1] [1; 1]).
Proof. reflexivity. Qed.

(** The sign of zero depends on std::nth_element: two results are allowed for the same image. *)
Theorem C103_zero_refuted : exists l, ~ In nan l /\ length l = 3%nat /\
  doubleFilter 10 1 (mkBox [0] [2]) (mkBox [0] [0]) (rget 1 (rowOf l)) (rowOf [pzero]) (Ok (rowOf [pzero])) /\
  doubleFilter 10 1 (mkBox [0] [2]) (mkBox [0] [0]) (rget 1 (rowOf l)) (rowOf [pzero]) (Ok (rowOf [nzero])) /\ pzero <> nzero.
Proof. exact zero_sign. Qed.
Print Assumptions C103_zero_refuted.

(** With an even number of neighbors, the value itself depends on std::nth_element: e.g. 35 or 25 for 10, 20, 30, 40. *)
Theorem C103_even_refuted : exists v w, v <> w /\
  intFilter int32 int32 10 1 (mkBox [0] [3]) (mkBox [0] [0]) (rget 1 (rowOf [10; 20; 30; 40])) (rowOf [0]) (Ok (rowOf [v])) /\
  intFilter int32 int32 10 1 (mkBox [0] [3]) (mkBox [0] [0]) (rget 1 (rowOf [10; 20; 30; 40])) (rowOf [0]) (Ok (rowOf [w])).
Proof. exact even_undetermined. Qed.
Print Assumptions C103_even_refuted.

(** With an even number of neighbors, doubles which are not too large: the average, rounded, of a value of the window and of the one which is just over the middle, between both;
    which value this is depends on std::nth_element, see C103_even_refuted. A constant is hence kept. *)
Theorem C103_even_doubles_partial : forall n f b X region out ext, Runnable f b region X ext out -> windowSize f b mod 2 = 0 -> 2 < windowSize f b ->
  (forall p x, InBox region p -> In x (neighbors f b X p) -> Finite x /\ (Rabs (real x) <= bpow radix2 1022)%R) ->
  exists enough, forall fuel, (enough <= fuel)%nat ->
  (exists r, doubleFilter fuel n (mkBox f b) region ext out r) /\
  forall r, doubleFilter fuel n (mkBox f b) region ext out r ->
    exists out', r = Ok out' /\ WF out' /\ rshape out' = rshape out /\
      (forall p, InBox region p -> exists x y v, In x (neighbors f b X p) /\ (real x <= real y)%R /\ RankAt dltb (neighbors f b X p) (windowSize f b / 2 + 1) y /\
         rget n out' p = Ok v /\ Finite v /\ real v = nearestDouble (nearestDouble (real x + real y) / 2) /\ (real x <= real v <= real y)%R) /\
      (forall p, InDomain (rshape out) p -> ~ InBox region p -> rget n out' p = rget n out p).
Proof. exact even_doubles. Qed.
Print Assumptions C103_even_doubles_partial.
Example C103_even_doubles_met : Runnable [-1] [2] (mkBox [1] [2]) (fun _ => dofZ 7) (rget 1 (rowOf (repeat (dofZ 7) 5))) (rowOf (repeat (dofZ 7) 5)) /\ windowSize [-1] [2] = 4 /\
  (forall p x, InBox (mkBox [1] [2]) p -> In x (neighbors [-1] [2] (fun _ => dofZ 7) p) -> Finite x /\ (Rabs (real x) <= bpow radix2 1022)%R).
Proof. exact even_met. Qed.

(** The same for signed integers, whose average is truncated toward zero. *)
Theorem C103_even_integers_partial : forall t u n f b X region out ext M, Wf t -> Wf u -> isigned t = true -> isigned u = true ->
  M <= itmax u -> 2 * M <= itmax (promoted t) -> 2 * M < 2 ^ 53 ->
  Runnable f b region X ext out -> windowSize f b mod 2 = 0 -> 2 < windowSize f b -> (forall p x, InBox region p -> In x (neighbors f b X p) -> Z.abs x <= M) ->
  exists enough, forall fuel, (enough <= fuel)%nat ->
  (exists r, intFilter t u fuel n (mkBox f b) region ext out r) /\
  forall r, intFilter t u fuel n (mkBox f b) region ext out r ->
    exists out', r = Ok out' /\ WF out' /\ rshape out' = rshape out /\
      (forall p, InBox region p -> exists x y, In x (neighbors f b X p) /\ x <= y /\ RankAt Z.ltb (neighbors f b X p) (windowSize f b / 2 + 1) y /\
         rget n out' p = Ok (Z.quot (x + y) 2)) /\
      (forall p, InDomain (rshape out) p -> ~ InBox region p -> rget n out' p = rget n out p).
Proof. exact even_integers. Qed.
Print Assumptions C103_even_integers_partial.
Example C103_even_integers_met : Runnable [-1] [2] (mkBox [1] [2]) (fun _ => 7) (rget 1 (rowOf (repeat 7 5))) (rowOf (repeat 7 5)) /\ windowSize [-1] [2] = 4 /\
  2 * 7 <= itmax (promoted int32) /\ (forall p x, InBox (mkBox [1] [2]) p -> In x (neighbors [-1] [2] (fun _ => 7) p) -> Z.abs x <= 7).
Proof. exact even_integers_met. Qed.

(** From doubles to integers, with an even number of neighbors: this average, truncated, if all values of the windows can be; *)
Theorem C103_even_to_integer_partial : forall u n f b X region out ext, Wf u -> Runnable f b region X ext out -> windowSize f b mod 2 = 0 -> 2 < windowSize f b ->
  (forall p x, InBox region p -> In x (neighbors f b X p) -> Finite x /\ (Rabs (real x) <= bpow radix2 1022)%R /\ InType u (Ztrunc (real x))) ->
  exists enough, forall fuel, (enough <= fuel)%nat ->
  (exists r, doubleIntFilter u fuel n (mkBox f b) region ext out r) /\
  forall r, doubleIntFilter u fuel n (mkBox f b) region ext out r ->
    exists out', r = Ok out' /\ WF out' /\ rshape out' = rshape out /\
      (forall p, InBox region p -> exists x y, In x (neighbors f b X p) /\ (real x <= real y)%R /\ RankAt dltb (neighbors f b X p) (windowSize f b / 2 + 1) y /\
         rget n out' p = Ok (Ztrunc (nearestDouble (nearestDouble (real x + real y) / 2)))) /\
      (forall p, InDomain (rshape out) p -> ~ InBox region p -> rget n out' p = rget n out p).
Proof. exact even_to_integers. Qed.
Print Assumptions C103_even_to_integer_partial.
Example C103_even_to_integer_met : Wf int32 /\ (forall p x, InBox (mkBox [1] [2]) p -> In x (neighbors [-1] [2] (fun _ => dofZ 7) p) ->
  Finite x /\ (Rabs (real x) <= bpow radix2 1022)%R /\ InType int32 (Ztrunc (real x))).
Proof. exact even_to_integers_met. Qed.

(** from signed integers to doubles: the exact average. *)
Theorem C103_even_to_double_partial : forall t n f b X region out ext M, isigned t = true -> 2 * M <= itmax (promoted t) -> 2 * M < 2 ^ 53 ->
  Runnable f b region X ext out -> windowSize f b mod 2 = 0 -> 2 < windowSize f b -> (forall p x, InBox region p -> In x (neighbors f b X p) -> Z.abs x <= M) ->
  exists enough, forall fuel, (enough <= fuel)%nat ->
  (exists r, intDoubleFilter t fuel n (mkBox f b) region ext out r) /\
  forall r, intDoubleFilter t fuel n (mkBox f b) region ext out r ->
    exists out', r = Ok out' /\ WF out' /\ rshape out' = rshape out /\
      (forall p, InBox region p -> exists x y v, In x (neighbors f b X p) /\ x <= y /\ RankAt Z.ltb (neighbors f b X p) (windowSize f b / 2 + 1) y /\
         rget n out' p = Ok v /\ Finite v /\ real v = (IZR (x + y) / 2)%R) /\
      (forall p, InDomain (rshape out) p -> ~ InBox region p -> rget n out' p = rget n out p).
Proof. exact even_to_doubles. Qed.
Print Assumptions C103_even_to_double_partial.
Example C103_even_to_double_met : Runnable [-1] [2] (mkBox [1] [2]) (fun _ => 7) (rget 1 (rowOf (repeat 7 5))) (rowOf (repeat pzero 5)) /\ windowSize [-1] [2] = 4 /\ 2 * 7 <= itmax (promoted int32).
Proof. split; [exact (row_runnable_even 7 pzero)|]. split; [reflexivity|vm_compute; discriminate]. Qed.

(** Constant images are not kept: 300 becomes 44 in 8 bits; *)
Theorem C103_narrow_refuted : forall n f b region (out : raster Z) ext, Runnable f b region (fun _ => 300) ext out -> windowSize f b mod 2 = 1 ->
  exists enough, forall fuel, (enough <= fuel)%nat -> (exists r, intFilter int32 u8 fuel n (mkBox f b) region ext out r) /\
  forall r, intFilter int32 u8 fuel n (mkBox f b) region ext out r -> exists out', r = Ok out' /\ Filled n region out' 44.
Proof. exact narrow_constant. Qed.
Print Assumptions C103_narrow_refuted.

(** with an even number of neighbors, 3000000000 becomes 852516352 for unsigned integers of 32 bits, the sum of 2000000000 and itself is undefined for signed ones, *)
Theorem C103_unsigned_refuted : forall n f b region (out : raster Z) ext, Runnable f b region (fun _ => 3000000000) ext out -> windowSize f b mod 2 = 0 -> 2 < windowSize f b ->
  exists enough, forall fuel, (enough <= fuel)%nat -> (exists r, intFilter u32 u32 fuel n (mkBox f b) region ext out r) /\
  forall r, intFilter u32 u32 fuel n (mkBox f b) region ext out r -> exists out', r = Ok out' /\ Filled n region out' 852516352.
Proof. exact even_constant_unsigned. Qed.
Print Assumptions C103_unsigned_refuted.
Theorem C103_signed_refuted : forall n f b region (out : raster Z) ext, Runnable f b region (fun _ => 2000000000) ext out -> windowSize f b mod 2 = 0 ->
  exists enough, forall fuel, (enough <= fuel)%nat -> (exists r, intFilter int32 int32 fuel n (mkBox f b) region ext out r) /\
  forall r, intFilter int32 int32 fuel n (mkBox f b) region ext out r -> r = UB.
Proof. exact even_constant_signed. Qed.
Print Assumptions C103_signed_refuted.

(** and the greatest double becomes infinite. *)
Theorem C103_overflow_refuted : forall n f b region (out : raster double) ext c, Runnable f b region (fun _ => c) ext out -> c = greatestDouble ->
  windowSize f b mod 2 = 0 -> 2 < windowSize f b ->
  exists enough, forall fuel, (enough <= fuel)%nat -> (exists r, doubleFilter fuel n (mkBox f b) region ext out r) /\
  forall r, doubleFilter fuel n (mkBox f b) region ext out r -> exists out', r = Ok out' /\ Filled n region out' (B754_infinity false).
Proof. exact even_constant_double. Qed.
Print Assumptions C103_overflow_refuted.
Example C103_even_met : forall (A : Type) (c : A), Runnable [-1] [2] (mkBox [1] [2]) (fun _ => c) (rget 1 (rowOf (repeat c 5))) (rowOf (repeat c 5)) /\ windowSize [-1] [2] = 4.
Proof. exact (fun A c => conj (row_runnable_even c c) eq_refl). Qed.
