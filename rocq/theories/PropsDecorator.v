(** Decorators refer to the objects they decorate (C110). *)
From Verif Require Import Res VecModel BoxModel RasterModel TypesModel InterpModel DecoratorModel DecoratorSpec DecoratorProofs.

(* C110: whatever was done since, as long as the raster and the extrapolator live, an extrapolator reads the raster as it is now. *)
Theorem C110_extrapolator : forall n s ops s' a r e m, dobject_at s a = Some (RasterObj r) -> dobject_at s e = Some (ExtraObj a m) ->
  drun n s ops = Some (Ok s') -> Kept a ops -> Kept e ops ->
  exists r', current n a r ops = Ok r' /\ forall p, subscript n s' e p = extraAt n m r' p.
Proof. exact extrapolator_live. Qed.
Print Assumptions C110_extrapolator.
Example C110_extrapolator_met :
  let s := [Some (RasterObj (row [1%Q; 2%Q])); Some (ExtraObj 0 Nearest)] in
  let ops := [NewRaster (row [7%Q]); Write 0 [1] 5%Q; Write 2 [0] 8%Q; Destroy 2; Write 0 [0] 4%Q; Assign 0 (row [4%Q; 3%Q; 9%Q]); Write 0 [2] 6%Q] in
  (exists s', drun 1 s ops = Some (Ok s') /\ subscript 1 s' 1 [12] = Ok 6%Q /\ subscript 1 s' 1 [-2] = Ok 4%Q) /\
  current 1 0 (row [1%Q; 2%Q]) ops = Ok (row [4%Q; 3%Q; 6%Q]) /\ Kept 0 ops /\ Kept 1 ops.
Proof.
  split; [eexists; split; [vm_compute; reflexivity|split; vm_compute; reflexivity]|]. split; [vm_compute; reflexivity|].
  split; unfold Kept; cbn [In]; intuition discriminate.
Qed.

(* C110: so do interpolators of rasters, *)
Theorem C110_interpolator : forall n s ops s' a r i m, dobject_at s a = Some (RasterObj r) -> dobject_at s i = Some (InterObj TRaster a m) ->
  drun n s ops = Some (Ok s') -> Kept a ops -> Kept i ops ->
  exists r', current n a r ops = Ok r' /\ (forall p, subscript n s' i p = rget n r' p) /\
    forall p, evaluate n s' i p = interAt m (rget n r') p.
Proof. exact interpolator_live. Qed.
Print Assumptions C110_interpolator.
Example C110_interpolator_met :
  let s := [Some (RasterObj (row [1%Q; 2%Q])); Some (InterObj TRaster 0 LinearInter)] in
  exists s', drun 1 s [Write 0 [1] 5%Q; Interpolate 0 CubicInter; Destroy 2] = Some (Ok s') /\
    subscript 1 s' 1 [1] = Ok 5%Q /\ evaluate 1 s' 1 [(1 # 2)%Q] = interAt LinearInter (rget 1 (row [1%Q; 5%Q])) [(1 # 2)%Q] /\
    evaluate 1 s' 1 [(1 # 2)%Q] <> UB.
Proof. eexists. split; [vm_compute; reflexivity|]. split; [vm_compute; reflexivity|]. split; [vm_compute; reflexivity|vm_compute; discriminate]. Qed.

(* C110: and interpolators of extrapolators as long as both live. *)
Theorem C110_nested : forall n s ops s' a r e m i k, dobject_at s a = Some (RasterObj r) -> dobject_at s e = Some (ExtraObj a m) ->
  dobject_at s i = Some (InterObj TExtra e k) -> drun n s ops = Some (Ok s') -> Kept a ops -> Kept e ops -> Kept i ops ->
  exists r', current n a r ops = Ok r' /\ (forall p, subscript n s' i p = extraAt n m r' p) /\
    forall p, evaluate n s' i p = interAt k (extraAt n m r') p.
Proof. exact nested_live. Qed.
Print Assumptions C110_nested.
Example C110_nested_met :
  let s := [Some (RasterObj (row [1%Q; 2%Q])); Some (ExtraObj 0 Repeated); Some (InterObj TExtra 1 NearestInter)] in
  exists s', drun 1 s [Write 0 [1] 5%Q; CopyOf 1; Destroy 3; Write 0 [0] 6%Q] = Some (Ok s') /\
    subscript 1 s' 2 [3] = Ok 5%Q /\ evaluate 1 s' 2 [(33 # 10)%Q] = Ok 5%Q /\ evaluate 1 s' 2 [(41 # 10)%Q] = Ok 6%Q.
Proof. eexists. split; [vm_compute; reflexivity|]. repeat split; vm_compute; reflexivity. Qed.

(* C110: and, more generally, decorators of decorators, however many, as long as all of them live. *)
Theorem C110_chain : forall n s ops s' i d l a m r, Decorates s i d l a m -> dobject_at s a = Some (RasterObj r) ->
  drun n s ops = Some (Ok s') -> (forall j, In j l -> Kept j ops) ->
  exists r', current n a r ops = Ok r' /\ (forall p, subscript n s' i p = valueAt n m r' p) /\
    forall e t k, dobject_at s i = Some (InterObj e t k) -> forall p, evaluate n s' i p = interAt k (valueAt n m r') p.
Proof. exact chain_live. Qed.
Print Assumptions C110_chain.
Example C110_chain_met :
  let s0 := [Some (RasterObj (row [1%Q; 2%Q]))] in
  exists s s', drun 1 s0 [Extrapolate 0 Nearest; Interpolate 1 CubicInter; Interpolate 2 NearestInter] = Some (Ok s) /\
    Decorates s 3 (TInter (TInter TExtra)) [3; 2; 1; 0]%nat 0 (Some Nearest) /\
    drun 1 s [Moved 0; NewRaster (row [1%Q; 2%Q]); Write 4 [0] 9%Q; Assign 0 (row [3%Q; 7%Q; 8%Q]); Write 0 [2] 6%Q] = Some (Ok s') /\
    subscript 1 s' 3 [5] = Ok 6%Q /\ evaluate 1 s' 3 [(6 # 10)%Q] = Ok 7%Q /\ subscript 1 s' 4 [0] = Ok 9%Q.
Proof.
  eexists. eexists. split; [vm_compute; reflexivity|]. split.
  - eapply interpolates; [reflexivity|]. eapply interpolates; [reflexivity|]. eapply extrapolates; reflexivity.
  - split; [vm_compute; reflexivity|]. repeat split; vm_compute; reflexivity.
Qed.

(* C110: the copy of an extrapolator refers to the same raster and does not depend on the original. *)
Theorem C110_copy : forall n s ops s' a r e m, dobject_at s a = Some (RasterObj r) -> dobject_at s e = Some (ExtraObj a m) ->
  drun n s (CopyOf e :: ops) = Some (Ok s') -> Kept a ops -> Kept (length s) ops ->
  exists r', current n a r ops = Ok r' /\ forall p, subscript n s' (length s) p = extraAt n m r' p.
Proof. exact copy_live. Qed.
Print Assumptions C110_copy.
Example C110_copy_met :
  let s := [Some (RasterObj (row [1%Q; 2%Q])); Some (ExtraObj 0 (Constant 3%Q))] in
  exists s', drun 1 s [CopyOf 1; Destroy 1; Write 0 [1] 5%Q] = Some (Ok s') /\
    subscript 1 s' 2 [1] = Ok 5%Q /\ subscript 1 s' 2 [2] = Ok 3%Q /\ subscript 1 s' 1 [1] = UB.
Proof. eexists. split; [vm_compute; reflexivity|]. repeat split; vm_compute; reflexivity. Qed.

(* C110: any use of a decorator is undefined once any of the decorated objects was destroyed. *)
Theorem C110_dangling : forall n s ops s' i d l a m t, Decorates s i d l a m -> In t l ->
  drun n s ops = Some (Ok s') -> In (Destroy t) ops ->
  (forall p, subscript n s' i p = UB) /\ forall p, evaluate n s' i p = UB.
Proof. exact dangling. Qed.
Print Assumptions C110_dangling.
Example C110_dangling_met :
  let s := [Some (RasterObj (row [1%Q; 2%Q])); Some (ExtraObj 0 (Constant 3%Q)); Some (InterObj TExtra 1 NearestInter)] in
  Decorates s 2 (TInter TExtra) [2; 1; 0]%nat 0 (Some (Constant 3%Q)) /\
  exists s', drun 1 s [Write 0 [1] 5%Q; Destroy 0; NewRaster (row [1%Q; 2%Q])] = Some (Ok s') /\ evaluate 1 s 2 [7%Q] = Ok 3%Q /\ evaluate 1 s' 2 [7%Q] = UB.
Proof.
  split; [eapply interpolates; [reflexivity|]; eapply extrapolates; reflexivity|].
  eexists. split; [vm_compute; reflexivity|]. split; vm_compute; reflexivity.
Qed.

(* C110 refuted: decorators do not follow the pixels when the raster is moved. With fixed dimension, the former one has no pixel left
   although its shape did not change, so that any read is undefined but out of the domain with a constant. *)
Theorem C110_moved_refuted : forall n s i d l a m r, n <> -1 -> Decorates s i d l a m -> dobject_at s a = Some (RasterObj r) ->
  exists s', drun n s [Moved a; NewRaster r] = Some (Ok s') /\ dobject_at s' (length s) = Some (RasterObj r) /\
    forall p, subscript n s' i p = UB \/ exists c, m = Some (Constant c) /\ contains r p = Ok false /\ subscript n s' i p = Ok c.
Proof. exact moved_chain. Qed.
Print Assumptions C110_moved_refuted.
Example C110_moved_refuted_met :
  let s := [Some (RasterObj (row [1%Q; 2%Q])); Some (ExtraObj 0 (Constant 3%Q))] in
  Decorates s 1 TExtra [1; 0]%nat 0 (Some (Constant 3%Q)) /\ subscript 1 s 1 [1] = Ok 2%Q /\
  exists s', drun 1 s [Moved 0; NewRaster (row [1%Q; 2%Q])] = Some (Ok s') /\ subscript 1 s' 1 [1] = UB /\ subscript 1 s' 1 [2] = Ok 3%Q.
Proof.
  split; [eapply extrapolates; reflexivity|]. split; [vm_compute; reflexivity|]. eexists. split; [vm_compute; reflexivity|]. split; vm_compute; reflexivity.
Qed.

(* C110 refuted: an interpolator made in one expression from a temporary extrapolator cannot be used, although the raster lives. *)
Theorem C110_refuted : forall n s a r m k, dobject_at s a = Some (RasterObj r) ->
  exists s', drun n s [Extrapolate a m; Interpolate (length s) k; Destroy (length s)] = Some (Ok s') /\
    dobject_at s' a = Some (RasterObj r) /\ dobject_at s' (S (length s)) = Some (InterObj TExtra (length s) k) /\
    forall p, evaluate n s' (S (length s)) p = UB.
Proof. exact temporary. Qed.
Print Assumptions C110_refuted.
Example C110_refuted_met : dobject_at [Some (RasterObj (row [1%Q; 2%Q]))] 0 = Some (RasterObj (row [1%Q; 2%Q])).
Proof. reflexivity. Qed.

(* C110: a reference returned by the subscript operator reads what the operator would read now, as long as the raster lives and is
   not assigned, and the extrapolator lives or the position is in the domain or the method is not constant. *)
Theorem C110_reference : forall n s ops s' a r e m p l, dobject_at s a = Some (RasterObj r) -> dobject_at s e = Some (ExtraObj a m) ->
  referTo n s e p = Ok l -> drun n s ops = Some (Ok s') -> Kept a ops -> NotAssigned a ops ->
  Kept e ops \/ (forall c, m = Constant c -> contains r p = Ok true) ->
  exists r', current n a r ops = Ok r' /\ readPlace n s' l = extraAt n m r' p.
Proof. exact reference_live. Qed.
Print Assumptions C110_reference.
Example C110_reference_met :
  let s := [Some (RasterObj (row [1%Q; 2%Q])); Some (ExtraObj 0 Nearest)] in
  exists l s', referTo 1 s 1 [7] = Ok l /\ readPlace 1 s l = Ok 2%Q /\
    drun 1 s [Write 0 [1] 5%Q; Destroy 1] = Some (Ok s') /\ readPlace 1 s' l = Ok 5%Q.
Proof. eexists. eexists. split; [vm_compute; reflexivity|]. split; [reflexivity|]. split; [vm_compute; reflexivity|vm_compute; reflexivity]. Qed.

(* C110 refuted: out of the domain, the reference returned by a constant extrapolator designates a member of the extrapolator. *)
Theorem C110_reference_refuted : forall n s ops s' a r e c p, dobject_at s a = Some (RasterObj r) ->
  dobject_at s e = Some (ExtraObj a (Constant c)) -> contains r p = Ok false -> drun n s ops = Some (Ok s') -> In (Destroy e) ops ->
  exists l, referTo n s e p = Ok l /\ readPlace n s l = Ok c /\ readPlace n s' l = UB.
Proof. exact reference_dangling. Qed.
Print Assumptions C110_reference_refuted.
Example C110_reference_refuted_met :
  let s := [Some (RasterObj (row [1%Q; 2%Q])); Some (ExtraObj 0 (Constant 3%Q))] in
  contains (row [1%Q; 2%Q]) [2] = Ok false /\ exists s', drun 1 s [Destroy 1] = Some (Ok s') /\ dobject_at s' 0 <> None.
Proof. split; [vm_compute; reflexivity|]. eexists. split; [vm_compute; reflexivity|vm_compute; discriminate]. Qed.
