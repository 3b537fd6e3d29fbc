(** Property C74: the ways to update each pixel of a raster. *)
From Verif Require Import Res VecModel BoxModel RasterModel ArithModel TraverseModel Spec RasterSpec TraverseProofs.

(** C74. For any shape (zero lengths included), any dimension, be it fixed or given at run-time, and any update of one pixel:
    the loops over coordinates, indices and iterators, and the algorithms, apply the update once to each pixel. *)
Theorem C74_loops : forall A (f : A -> A) n r, WF r -> n = -1 \/ n = Z.of_nat (length (rshape r)) ->
  let updated := mkRaster (rshape r) (map f (rdata r)) in
  byPosition f n r = Ok updated /\ byAlgorithm f r = Ok updated /\
  forall fuel, (length (rdata r) < fuel)%nat -> byIndex f fuel r = Some (Ok updated) /\ byIterator f fuel r = Some (Ok updated).
Proof.
  exact (fun A f n r W HN => conj (byPosition_spec f n r W HN) (conj (byAlgorithm_spec f r) (fun fuel H => byIndex_spec f r fuel H))).
Qed.
Print Assumptions C74_loops.

(** The loop over the domain does the same thing for rasters of fixed dimension which are not empty.
    Missing: empty rasters and run-time dimension, for which it is false. *)
Theorem C74_domain_partial : forall A (f : A -> A) r, WF r -> Positive (rshape r) ->
  exists enough, forall fuel, (enough <= fuel)%nat ->
    byDomain f fuel (Z.of_nat (length (rshape r))) r = Some (Ok (mkRaster (rshape r) (map f (rdata r)))).
Proof. exact @byDomain_spec. Qed.
Print Assumptions C74_domain_partial.

(** It never ends for empty rasters, whereas the other loops do nothing. *)
Theorem C74_domain_empty : forall A (f : A -> A) r, WF r -> ~ Positive (rshape r) ->
  forall fuel, byDomain f fuel (Z.of_nat (length (rshape r))) r = None.
Proof. exact @traversals_empty. Qed.
Print Assumptions C74_domain_empty.

(** For run-time dimension, it is right for one axis only, and throws otherwise. The domain of a raster without any axis is undefined. *)
Theorem C74_domain_runtime : forall A (f : A -> A) r s l, WF r -> rshape r = s :: l -> 0 < s ->
  exists enough, forall fuel, (enough <= fuel)%nat ->
    byDomain f fuel (-1) r = Some (match l with [] => Ok (mkRaster (rshape r) (map f (rdata r))) | _ => Throw ESize end).
Proof. exact @byDomain_runtime. Qed.
Print Assumptions C74_domain_runtime.
Theorem C74_domain_no_axis : forall A (f : A -> A) fuel data, byDomain f fuel (-1) (mkRaster [] data) = Some UB.
Proof. exact @byDomain_no_axis. Qed.
Print Assumptions C74_domain_no_axis.
Example C74_domain_runtime_met : byDomain (fun x => 2 * x) 4 (-1) (mkRaster [3] [1; 2; 3]) = Some (Ok (mkRaster [3] [2; 4; 6])) /\
  byDomain (fun x => 2 * x) 4 (-1) (mkRaster [3; 0] []) = Some (Throw ESize).
Proof. split; reflexivity. Qed.

Theorem C74_domain_refuted :
  (exists (f : Z -> Z) r, WF r /\ byPosition f 2 r = Ok r /\ forall fuel, byDomain f fuel 2 r = None) /\
  (exists (f : Z -> Z) r r', WF r /\ byPosition f (-1) r = Ok r' /\
    forall fuel, (3 <= fuel)%nat -> byDomain f fuel (-1) r = Some (Throw ESize)).
Proof.
  split.
  - exists (fun x => 2 * x), (mkRaster [3; 0] []). split; [split; [discriminate|]; split; [repeat constructor; lia|reflexivity]|].
    split; [reflexivity|]. apply (traversals_empty (fun x => 2 * x) (mkRaster [3; 0] [])).
    + split; [discriminate|]. split; [repeat constructor; lia|reflexivity].
    + intros H. inversion H; subst. inversion H3; subst. lia.
  - exists (fun x => 2 * x), (mkRaster [2; 2] [1; 2; 3; 4]), (mkRaster [2; 2] [2; 4; 6; 8]).
    split; [split; [discriminate|]; split; [repeat constructor; lia|reflexivity]|]. split; [reflexivity|].
    intros fuel H. destruct fuel as [|[|[|fuel]]]; try lia. reflexivity.
Qed.
Print Assumptions C74_domain_refuted.

Example C74_met :
  let r := mkRaster [2; 3] [1; 2; 3; 4; 5; 6] in let f := fun x => 2 * x in let r' := mkRaster [2; 3] [2; 4; 6; 8; 10; 12] in
  WF r /\ Positive (rshape r) /\ byPosition f 2 r = Ok r' /\ byPosition f (-1) r = Ok r' /\ byDomain f 7 2 r = Some (Ok r') /\
  byIndex f 7 r = Some (Ok r') /\ byIterator f 7 r = Some (Ok r') /\ byAlgorithm f r = Ok r' /\
  byPosition f 3 (mkRaster [2; 1; 2] [1; 2; 3; 4]) = Ok (mkRaster [2; 1; 2] [2; 4; 6; 8]).
Proof.
  cbn zeta. split; [split; [discriminate|]; split; [repeat constructor; cbn; lia|reflexivity]|]. split; [repeat constructor; cbn; lia|].
  repeat split.
Qed.
