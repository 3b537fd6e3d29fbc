(** C97: statistics of integers of bounded width. *)
From Coq Require Import QArith.
From Verif Require Import Res TypesModel DistModel WidthModel WidthSpec KernelSpec WidthDistModel WidthDistSpec WidthDistProofs.
Open Scope Z_scope.

(** Where the constructor is defined, the sums are those of integers, reduced modulo the number of values of the type. *)
Theorem C97_sums : forall t l w w2, Wf t -> distSums t l = Ok (w, w2) -> Wrapped t (total l) w /\ Wrapped t (squares l) w2.
Proof. exact dist_sums. Qed.
Print Assumptions C97_sums.
Example C97_sums_met : distSums uchar [200; 100; 7] = Ok (51, 129).
Proof. reflexivity. Qed.

(** It is defined for signed types of at most 16 bits, types of at most 15 bits and unsigned ones of at least 32 bits... *)
Theorem C97_defined_partial : forall t l, Wf t -> NeverOverflows t -> Forall (InType t) l -> exists w w2, distSums t l = Ok (w, w2).
Proof. exact dist_defined. Qed.
Print Assumptions C97_defined_partial.
Example C97_defined_met : Wf schar /\ NeverOverflows schar /\ Forall (InType schar) [-128; 127].
Proof. split; [left; cbn; lia|]. split; [left; cbn; lia|]. repeat constructor; unfold itmin, itmax; cbn; lia. Qed.

(** ...for wider signed ones, if and only if the sums of the first values, and the sum of squares of all of them, fit... *)
Theorem C97_signed_partial : forall t l, Wf t -> isigned t = true -> 32 <= ibits t ->
  (distSums t l = UB <-> (exists k, ~ InType t (sumFirst k l)) \/ ~ InType t (squares l)).
Proof. exact dist_signed. Qed.
Print Assumptions C97_signed_partial.
Example C97_signed_met : distSums int32 [46340] = Ok (46340, 2147395600) /\ distSums int32 [46341] = UB /\ ~ InType int32 (squares [46341]).
Proof. repeat split. unfold InType, itmax, squares, total. cbn. lia. Qed.

(** ...and for unsigned short if and only if there is no value over 46340. *)
Theorem C97_ushort_refuted : forall l, Forall (InType ushort) l -> (distSums ushort l = UB <-> exists v, In v l /\ 46340 < v).
Proof. exact dist_ushort. Qed.
Print Assumptions C97_ushort_refuted.
Example C97_ushort_met : Forall (InType ushort) [65535; 0] /\ distSums ushort [65535; 0] = UB /\ distSums ushort [46340; 46340] = Ok (27144, 20512).
Proof. split; [repeat constructor; unfold itmin, itmax; cbn; lia|]. split; reflexivity. Qed.

(** sum() and mean() if the sum fits and is not negative... *)
Theorem C97_mean_partial : forall t l s, Wf t -> ibits t <= 64 -> l <> [] -> distSums t l = Ok s -> InType t (total l) -> 0 <= total l ->
  sumWidth t l = Ok (total l) /\ meanWidth t l = Ok (total l / Z.of_nat (length l)).
Proof. exact mean_exact. Qed.
Print Assumptions C97_mean_partial.
Example C97_mean_met : distSums uchar [100; 55; 100] = Ok (255, 241) /\ InType uchar (total [100; 55; 100]).
Proof. split; [reflexivity|]. unfold InType, itmin, itmax. cbn. lia. Qed.

(** The mean of no value is undefined: it is a division of integers by zero. *)
Theorem C97_mean_empty : forall t, meanWidth t [] = UB.
Proof. exact mean_empty. Qed.
Print Assumptions C97_mean_empty.
Example C97_mean_empty_met : distSums int32 [] = Ok (0, 0) /\ meanWidth int32 [0] = Ok 0.
Proof. split; reflexivity. Qed.

(** ...and not otherwise: the mean of pixels which are all 100 or more may be 22. *)
Theorem C97_mean_refuted : exists l, Forall (InType uchar) l /\ Forall (fun v => 100 <= v) l /\ sumWidth uchar l = Ok 44 /\ meanWidth uchar l = Ok 22.
Proof. exact uchar_mean. Qed.
Print Assumptions C97_mean_refuted.

(** mad() is that of DistModel.v, in which deviations are truncated (C54), if they fit, as those of unsigned types do... *)
Theorem C97_mad_partial : forall t o l, Wf t -> NeverOverflows t -> l <> [] -> ReadBefore o -> (forall x y, In x l -> In y l -> InType t (Z.abs (x - y))) ->
  forall d, reach qltb (distMake qltb (map inject_Z l)) d ->
  (forall d' r, madWidthCall t o d d' r -> madIntCall o d d' r) /\ exists d' v, madWidthCall t o d d' (Ok v).
Proof. exact (fun t o l W N Hl Ho HD d HR => conj (fun d' r => mad_fits t o l W N Hl Ho HD d d' r HR) (mad_happens t o l W N Hl Ho HD d HR)). Qed.
Print Assumptions C97_mad_partial.
Theorem C97_mad_unsigned : forall t l, Wf t -> isigned t = false -> Forall (InType t) l -> forall x y, In x l -> In y l -> InType t (Z.abs (x - y)).
Proof. exact unsigned_devs. Qed.
Print Assumptions C97_mad_unsigned.
Example C97_mad_met : Wf uchar /\ NeverOverflows uchar /\ Forall (InType uchar) [0; 255; 3].
Proof. split; [left; cbn; lia|]. split; [left; cbn; lia|]. repeat constructor; unfold itmin, itmax; cbn; lia. Qed.

(** ...and may be undefined otherwise. *)
Theorem C97_mad_refuted : exists l, Forall (InType schar) l /\ exists d' , madWidthCall schar ReadLeftFirst (distMake qltb (map inject_Z l)) d' UB.
Proof. exact schar_mad. Qed.
Print Assumptions C97_mad_refuted.

(** Median filter: the value, or the mean of the values, from which the filter computes its result, converted to the output type... *)
Theorem C97_filter_one : forall u x, Wf u -> InType u x -> medianOne u x = Ok x.
Proof. exact filter_one. Qed.
Print Assumptions C97_filter_one.
Theorem C97_filter_two_partial : forall t x y, Wf t -> InType t x -> InType t y -> InType (promoted t) (x + y) -> medianTwo t t x y = Ok (Z.quot (x + y) 2).
Proof. exact filter_two. Qed.
Print Assumptions C97_filter_two_partial.

(** ...and for any output type: a mean which the output type does not represent is undefined. *)
Theorem C97_filter_to : forall t u x y, Wf t -> InType (promoted t) (x + y) ->
  (InType u (Z.quot (x + y) 2) -> medianTwo t u x y = Ok (Z.quot (x + y) 2)) /\ (~ InType u (Z.quot (x + y) 2) -> medianTwo t u x y = UB).
Proof. exact filter_two_to. Qed.
Print Assumptions C97_filter_to.
Example C97_filter_to_met : medianTwo ushort uchar 200 302 = Ok 251 /\ medianTwo ushort uchar 200 400 = UB /\ medianTwo uchar int32 200 253 = Ok 226.
Proof. repeat split. Qed.

Example C97_filter_met : medianTwo uchar uchar 200 253 = Ok 226 /\ InType (promoted uchar) (200 + 253).
Proof. split; [reflexivity|]. unfold InType, itmin, itmax. cbn. lia. Qed.

(** ...unless the sum of both does not fit: it is undefined or wrong. *)
Theorem C97_filter_refuted : let uint := mkItype false 32 in
  InType int32 (2 ^ 30) /\ medianTwo int32 int32 (2 ^ 30) (2 ^ 30) = UB /\ InType uint (2 ^ 31) /\ medianTwo uint uint (2 ^ 31) (2 ^ 31) = Ok 0.
Proof. exact filter_overflow. Qed.
Print Assumptions C97_filter_refuted.
