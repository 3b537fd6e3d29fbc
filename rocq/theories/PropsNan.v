(** C96: pixels which are not numbers. As in PropsFloat.v, these rely on the axioms of the real numbers of the standard library. *)
From Coq Require Import Reals Lra.
From Flocq Require Import Core IEEE754.BinarySingleNaN.
From Verif Require Import Res Spec KernelSpec RasterModel ContainerModel FloatModel FloatSpec QuantileModel FloatKernelModel FloatKernelSpec NanModel NanSpec NanProofs.
Open Scope Z_scope.

(** < and == of doubles compare numbers; NaN is neither less than nor equal to anything. *)
Theorem C96_compare : forall x y, (dltb x y = true <-> lessThan x y) /\ (deqb x y = true <-> sameNumber x y).
Proof. exact (fun x y => conj (dltb_spec x y) (deqb_spec x y)). Qed.
Print Assumptions C96_compare.
Example C96_compare_met : dltb (dofZ 1) (dofZ 2) = true /\ dltb (dofZ 1) dinf = true /\ deqb (dofZ 0) (dopp (dofZ 0)) = true /\ dltb nan dinf = false /\ deqb nan nan = false.
Proof. repeat split; vm_compute; reflexivity. Qed.

(** The precondition of the standard algorithms holds if and only if no value is NaN, or no value is less than another one. *)
Theorem C96_order : forall l, WeakOrderOn l <-> ~ In nan l \/ forall x y, In x l -> In y l -> ~ lessThan x y.
Proof. exact weak_order. Qed.
Print Assumptions C96_order.
Theorem C96_order_decided : forall l, comparable l = true <-> WeakOrderOn l.
Proof. exact comparable_spec. Qed.
Print Assumptions C96_order_decided.
Example C96_order_met : comparable [dofZ 3; dinf; dofZ 1] = true /\ comparable [nan; dofZ 1; dofZ 1] = true /\ comparable [dofZ 1; nan; dofZ 2] = false.
Proof. repeat split; vm_compute; reflexivity. Qed.

(** Without NaN, and with infinities, min(), max() and minmax() refer to the first smallest element, the first largest one,
    and the first smallest and last largest ones. *)
Theorem C96_min_partial : forall l, l <> [] -> ~ In nan l ->
  exists k v, dmin l = Ok (k, v) /\ zget l k = Ok v /\ (forall j x, zget l j = Ok x -> ~ lessThan x v) /\ (forall j x, zget l j = Ok x -> j < k -> lessThan v x).
Proof. exact dmin_spec. Qed.
Print Assumptions C96_min_partial.
Theorem C96_max_partial : forall l, l <> [] -> ~ In nan l ->
  exists k v, dmaxElement l = Ok (k, v) /\ zget l k = Ok v /\ (forall j x, zget l j = Ok x -> ~ lessThan v x) /\ (forall j x, zget l j = Ok x -> j < k -> lessThan x v).
Proof. exact dmax_spec. Qed.
Print Assumptions C96_max_partial.
Theorem C96_minmax_partial : forall l, l <> [] -> ~ In nan l ->
  exists mn k v, dminmax l = Ok (mn, (k, v)) /\ dmin l = Ok mn /\ zget l k = Ok v /\ (forall j x, zget l j = Ok x -> ~ lessThan v x) /\ (forall j x, zget l j = Ok x -> k < j -> lessThan x v).
Proof. exact dminmax_spec. Qed.
Print Assumptions C96_minmax_partial.
Example C96_min_met : shown (dmin [dofZ 2; dofZ 1; dinf; dofZ 1]) = Ok (1, B2SF (dofZ 1)) /\ shown (dmaxElement [dofZ 2; dinf; dofZ 1; dinf]) = Ok (1, B2SF dinf) /\
  ~ In nan [dofZ 2; dofZ 1; dinf; dofZ 1].
Proof. split; [vm_compute; reflexivity|]. split; [vm_compute; reflexivity|]. intros [H|[H|[H|[H|[]]]]]; apply (f_equal B2SF) in H; vm_compute in H; discriminate. Qed.

(** Missing: with NaN, the functions have undefined behaviour as soon as two values differ as numbers... *)
Theorem C96_min_refuted : forall l x y, In nan l -> In x l -> In y l -> lessThan x y -> dmin l = UB /\ dmaxElement l = UB /\ dminmax l = UB.
Proof. exact extrema_undefined. Qed.
Print Assumptions C96_min_refuted.
Example C96_min_refuted_met : let l := [dofZ 1; nan; dofZ 2] in In nan l /\ dmin l = UB.
Proof. split; [right; left; reflexivity|vm_compute; reflexivity]. Qed.

(** ...and the usual implementation, which visits the elements in order, answers NaN if the first element is,
    whatever the others, and ignores other NaN. *)
Theorem C96_position_refuted : forall l v, v <> nan ->
  (exists k, cmin dltb (nan :: l) = Ok (k, nan)) /\ (exists k, cmax dltb (nan :: l) = Ok (k, nan)) /\
  exists k k' w, cmin dltb (v :: l) = Ok (k, w) /\ cmin dltb (v :: filter (fun x => negb (is_nan x)) l) = Ok (k', w).
Proof. exact usual_extrema. Qed.
Print Assumptions C96_position_refuted.
Example C96_position_refuted_met : shown (dmin [nan; dofZ 1]) = Ok (0, B2SF nan) /\ shown (dmin [dofZ 1; nan]) = Ok (0, B2SF (dofZ 1)) /\ shown (cmin dltb [dofZ 3; nan; dofZ 2]) = Ok (2, B2SF (dofZ 2)).
Proof. repeat split; vm_compute; reflexivity. Qed.

(** Rasters of doubles are equal if and only if they have the same shape and the same numbers;
    this relation is symmetric and transitive... *)
Theorem C96_equality : forall a b c : raster double,
  (rasterEqb deqb a b = true <-> rshape a = rshape b /\ Forall2 sameNumber (rdata a) (rdata b)) /\
  rasterEqb deqb a b = rasterEqb deqb b a /\
  (rasterEqb deqb a b = true -> rasterEqb deqb b c = true -> rasterEqb deqb a c = true).
Proof. exact (fun a b c => conj (equality_numbers a b) (conj (equality_sym a b) (equality_trans a b c))). Qed.
Print Assumptions C96_equality.
Example C96_equality_met : rasterEqb deqb (mkRaster [2] [dofZ 0; dinf]) (mkRaster [2] [dopp (dofZ 0); dinf]) = true.
Proof. vm_compute. reflexivity. Qed.

(** ...but not reflexive: a raster equals itself, or its copy, if and only if it has no NaN... *)
Theorem C96_equality_refuted : forall a : raster double, rasterEqb deqb a a = true <-> ~ In nan (rdata a).
Proof. exact equality_self. Qed.
Print Assumptions C96_equality_refuted.
Example C96_equality_refuted_met : let a := mkRaster [2] [dofZ 1; nan] in rasterEqb deqb a a = false.
Proof. vm_compute. reflexivity. Qed.
(** ...and equal rasters may be told apart by division. *)
Theorem C96_zeros_refuted : exists a b : raster double, rasterEqb deqb a b = true /\
  rasterEqb deqb (mkRaster (rshape a) (map (ddiv (dofZ 1)) (rdata a))) (mkRaster (rshape b) (map (ddiv (dofZ 1)) (rdata b))) = false.
Proof. exact zeros_differ. Qed.
Print Assumptions C96_zeros_refuted.

(** The mean of values among which there is a NaN is NaN. *)
Theorem C96_mean : forall l, In nan l -> dmean l = nan.
Proof. exact mean_nan. Qed.
Print Assumptions C96_mean.
Example C96_mean_met : In nan [dofZ 1; nan; dinf].
Proof. right. left. reflexivity. Qed.

(** Linear interpolation is NaN if one of the 2^n pixels around the position is: also where its weight is 0;
    so is cubic interpolation for the 4^n pixels around the position. *)
Theorem C96_linear : forall get p, p <> [] -> Forall (fun x => exists f, dfloor x = Ok f) p -> (forall q, Around 0 1 p q -> exists v, get q = Ok v) ->
  (exists q, Around 0 1 p q /\ get q = Ok nan) -> dlinearAt get p = Ok nan.
Proof. exact linear_nan. Qed.
Print Assumptions C96_linear.
Theorem C96_cubic : forall get p, p <> [] -> Forall (fun x => exists f, dfloor x = Ok f) p -> (forall q, Around 1 2 p q -> exists v, get q = Ok v) ->
  (exists q, Around 1 2 p q /\ get q = Ok nan) -> dcubicAt get p = Ok nan.
Proof. exact cubic_nan. Qed.
Print Assumptions C96_cubic.
Example C96_linear_met : let p := [dofZ 1] in Forall (fun x => exists f, dfloor x = Ok f) p /\ (forall q, Around 0 1 p q -> exists v, row [dofZ 5; dofZ 6; nan] q = Ok v) /\
  (exists q, Around 0 1 p q /\ row [dofZ 5; dofZ 6; nan] q = Ok nan).
Proof.
  assert (E : dfloor (dofZ 1) = Ok 1) by (vm_compute; reflexivity). cbv zeta. revert E. generalize (dofZ 1). intros x E. split; [repeat constructor; exists 1; exact E|]. split.
  - intros q H. inversion H as [|? i ? q' (f & F & B) H']; subst. inversion H'; subst. rewrite E in F. injection F as <-. assert (i = 1 \/ i = 2) as [-> | ->] by lia; eexists; reflexivity.
  - exists [2]. split; [|reflexivity]. repeat constructor. exists 1. split; [exact E|]. lia.
Qed.
Example C96_cubic_met : let p := [dofZ 1] in Forall (fun x => exists f, dfloor x = Ok f) p /\ (forall q, Around 1 2 p q -> exists v, row [nan; dofZ 5; dofZ 6; dofZ 7] q = Ok v) /\
  (exists q, Around 1 2 p q /\ row [nan; dofZ 5; dofZ 6; dofZ 7] q = Ok nan).
Proof.
  assert (E : dfloor (dofZ 1) = Ok 1) by (vm_compute; reflexivity). cbv zeta. revert E. generalize (dofZ 1). intros x E. split; [repeat constructor; exists 1; exact E|]. split.
  - intros q H. inversion H as [|? i ? q' (f & F & B) H']; subst. inversion H'; subst. rewrite E in F. injection F as <-. assert (i = 0 \/ i = 1 \/ i = 2 \/ i = 3) as [-> | [-> | [-> | ->]]] by lia; eexists; reflexivity.
  - exists [0]. split; [|reflexivity]. repeat constructor. exists 1. split; [exact E|]. lia.
Qed.

(** A NaN reaches all the pixels whose windows contain it, even where the kernel is 0... *)
Theorem C96_filter_nan : forall shape ks, Positive shape -> Forall (FitsAny shape) ks -> forall xs, Z.of_nat (length xs) = Spec.prod shape ->
  exists out enough, Z.of_nat (length out) = Spec.prod shape /\
    (forall p q, InDomain shape p -> Windows shape ks p q -> zget xs (rank shape q) = Ok nan -> zget out (rank shape p) = Ok nan) /\
    forall fuel, (enough <= fuel)%nat -> correlateSeqD fuel (Z.of_nat (length shape)) (kernelsOf ks) (mkRaster shape xs) = Some (Ok (mkRaster shape out)).
Proof. exact seq_nan. Qed.
Print Assumptions C96_filter_nan.

(** ...and no other: what a filter gives at a pixel only depends on the window of that pixel, for all values, so pixels elsewhere may be anything. *)
Theorem C96_filter_local : forall shape ks, Positive shape -> Forall (FitsAny shape) ks -> forall xs ys, Z.of_nat (length xs) = Spec.prod shape -> Z.of_nat (length ys) = Spec.prod shape ->
  exists out out' enough, Z.of_nat (length out) = Spec.prod shape /\ Z.of_nat (length out') = Spec.prod shape /\
    (forall p, InDomain shape p -> (forall q, Windows shape ks p q -> zget xs (rank shape q) = zget ys (rank shape q)) -> zget out (rank shape p) = zget out' (rank shape p)) /\
    forall fuel, (enough <= fuel)%nat ->
      correlateSeqD fuel (Z.of_nat (length shape)) (kernelsOf ks) (mkRaster shape xs) = Some (Ok (mkRaster shape out)) /\
      correlateSeqD fuel (Z.of_nat (length shape)) (kernelsOf ks) (mkRaster shape ys) = Some (Ok (mkRaster shape out')).
Proof. exact seq_local. Qed.
Print Assumptions C96_filter_local.
Example C96_filter_met : let ks := [(map dofZ [1; 0; -1], 1, 0%nat); (map dofZ [1; 2; 1], 1, 1%nat)] in
  Positive [4; 3] /\ Forall (FitsAny [4; 3]) ks /\ Windows [4; 3] ks [1; 1] [1; 0] /\
  match correlateSeqD 100 2 (kernelsOf ks) (mkRaster [4; 3] (map dofZ [1; 1; 1; 1; 1; 1; 1; 1; 1; 1; 1] ++ [nan])) with
  | Some (Ok r) => map is_nan (rdata r) = [false; false; false; false; false; false; true; true; false; false; true; true]
  | _ => False
  end.
Proof.
  cbv zeta. split; [repeat constructor|]. split; [repeat constructor; cbn; lia|]. split; [|vm_compute; reflexivity].
  cbn [Windows]. exists [1; 0]. split.
  - exists [1; 1]. split; [reflexivity|]. split; [repeat constructor; lia|]. exists 0. split; [cbn; lia|reflexivity].
  - split; [repeat constructor; lia|]. exists 1. split; [cbn; lia|reflexivity].
Qed.
