(** Proofs about decorators as objects. *)
From Verif Require Import Res VecModel BoxModel RasterModel TypesModel InterpModel DecoratorModel DecoratorSpec Lemmas AccessProofs.

Lemma at_app : forall s i x o, dobject_at s i = Some o -> dobject_at (s ++ [x]) i = Some o.
Proof.
  unfold dobject_at; intros s i x o H. destruct (nth_error s i) as [[y|]|] eqn:E; try discriminate.
  rewrite nth_error_app1 by (apply nth_error_Some; congruence). rewrite E. exact H.
Qed.
Lemma at_app_none : forall s i x, (i < length s)%nat -> dobject_at s i = None -> dobject_at (s ++ [x]) i = None.
Proof. unfold dobject_at; intros s i x L H. rewrite nth_error_app1 by exact L. exact H. Qed.
Lemma at_last : forall s x, dobject_at (s ++ [Some x]) (length s) = Some x.
Proof. intros. unfold dobject_at. rewrite nth_error_app2, Nat.sub_diag by apply Nat.le_refl. reflexivity. Qed.
Lemma at_len : forall s i o, dobject_at s i = Some o -> (i < length s)%nat.
Proof. unfold dobject_at; intros s i o H. apply nth_error_Some. destruct (nth_error s i); congruence. Qed.
Lemma at_replace_eq : forall s i x, (i < length s)%nat -> dobject_at (replace s i x) i = x.
Proof. intros. unfold dobject_at. rewrite nth_error_replace_eq by assumption. destruct x; reflexivity. Qed.
Lemma at_replace_neq : forall s i j x, i <> j -> dobject_at (replace s i x) j = dobject_at s j.
Proof. intros. unfold dobject_at. rewrite nth_error_replace_neq by assumption. reflexivity. Qed.

Lemma destroy_dec : forall e ops, In (Destroy e) ops \/ Kept e ops.
Proof.
  unfold Kept. induction ops as [|o ops IH]; [right; intros []|]. destruct IH as [Y|N]; [left; right; exact Y|].
  assert (D : o = Destroy e \/ o <> Destroy e).
  { destruct o; try (right; discriminate). destruct (Nat.eq_dec i e) as [->|F]; [left; reflexivity|right; congruence]. }
  destruct D as [->|D]; [left; left; reflexivity|]. right. intros [F|F]; [exact (D F)|exact (N F)].
Qed.
Lemma rset_shape : forall n (r : raster Q) p v r', rset n r p v = Ok r' -> rshape r' = rshape r.
Proof.
  unfold rset; intros n r p v r' H. destruct (rindex n (rshape r) p) as [i|?|]; try discriminate. cbn [bind] in H.
  destruct (zset (rdata r) i v) as [d|?|]; try discriminate. cbn [bind] in H. injection H as <-. reflexivity.
Qed.

Definition isRaster (o : dobject) : bool := match o with RasterObj _ => true | _ => false end.

(* The target of [at] in a step is never a decorator. *)
Ltac steps H :=
  cbn [dstep] in H;
  repeat match type of H with
         | context [match dobject_at ?s ?i with _ => _ end] => destruct (dobject_at s i) as [[?|? ?|? ? ?]|] eqn:?; try discriminate
         end.

Lemma step_decorator : forall n s o s' i x, dstep n s o = Some (Ok s') -> dobject_at s i = Some x -> isRaster x = false ->
  o <> Destroy i -> dobject_at s' i = Some x.
Proof.
  intros n s o s' i x H A D N.
  assert (W : forall j r y, dobject_at s j = Some (RasterObj r) -> dobject_at (replace s j y) i = Some x).
  { intros j r y J. destruct (Nat.eq_dec j i) as [->|F]; [rewrite A in J; injection J as ->; discriminate|]. rewrite at_replace_neq by exact F. exact A. }
  destruct o as [r|t m|t m|j|j p v|j r|j|j]; steps H; try (injection H as <-; apply at_app; exact A).
  - destruct (rset n r p v) as [r'|?|]; try discriminate. injection H as <-. eapply W; eassumption.
  - injection H as <-. eapply W; eassumption.
  - injection H as <-. eapply W; eassumption.
  - injection H as <-. eapply W; eassumption.
  - injection H as <-. rewrite at_replace_neq by congruence. exact A.
  - injection H as <-. rewrite at_replace_neq by congruence. exact A.
Qed.

Lemma step_raster : forall n s o s' a r, dstep n s o = Some (Ok s') -> dobject_at s a = Some (RasterObj r) -> o <> Destroy a ->
  exists r', dobject_at s' a = Some (RasterObj r') /\ forall ops, current n a r (o :: ops) = current n a r' ops.
Proof.
  intros n s o s' a r H A N.
  destruct o as [r0|t m|t m|j|j p v|j r0|j|j]; steps H;
    try (injection H as <-; exists r; split; [apply at_app; exact A|reflexivity]).
  - destruct (rset n r0 p v) as [r'|?|] eqn:W; try discriminate. injection H as <-. cbn [current].
    destruct (Nat.eqb_spec j a) as [->|F].
    + rewrite A in Heqo. injection Heqo as ->. exists r'. split; [apply at_replace_eq; eapply at_len; exact A|]. rewrite W. reflexivity.
    + exists r. split; [rewrite at_replace_neq by exact F; exact A|reflexivity].
  - injection H as <-. cbn [current].
    destruct (Nat.eqb_spec j a) as [->|F].
    + exists r0. split; [apply at_replace_eq; eapply at_len; exact A|reflexivity].
    + exists r. split; [rewrite at_replace_neq by exact F; exact A|reflexivity].
  - injection H as <-. cbn [current].
    destruct (Nat.eqb_spec j a) as [->|F].
    + rewrite A in Heqo. injection Heqo as ->. eexists. split; [apply at_replace_eq; eapply at_len; exact A|reflexivity].
    + exists r. split; [rewrite at_replace_neq by exact F; exact A|reflexivity].
  - injection H as <-. exists r. split; [rewrite at_replace_neq by congruence; exact A|reflexivity].
  - injection H as <-. exists r. split; [rewrite at_replace_neq by congruence; exact A|reflexivity].
  - injection H as <-. exists r. split; [rewrite at_replace_neq by congruence; exact A|reflexivity].
Qed.

Lemma step_dead : forall n s o s' i, dstep n s o = Some (Ok s') -> (i < length s)%nat -> dobject_at s i = None ->
  dobject_at s' i = None /\ (i < length s')%nat.
Proof.
  intros n s o s' i H L A.
  destruct o as [r0|t m|t m|j|j p v|j r0|j|j]; steps H;
    try (injection H as <-; split; [apply at_app_none; assumption|rewrite app_length; cbn; lia]).
  all: try (destruct (rset n r p v) as [r'|?|] eqn:W; try discriminate).
  all: injection H as <-; split; [|rewrite replace_length; exact L].
  all: destruct (Nat.eq_dec j i) as [->|F]; [congruence|rewrite at_replace_neq by exact F; exact A].
Qed.

Lemma kept_cons : forall i o ops, Kept i (o :: ops) -> o <> Destroy i /\ Kept i ops.
Proof. unfold Kept; intros i o ops H. split; intro F; apply H; [left|right]; assumption. Qed.

Lemma run_decorator : forall n ops s s' i x, drun n s ops = Some (Ok s') -> dobject_at s i = Some x -> isRaster x = false ->
  Kept i ops -> dobject_at s' i = Some x.
Proof.
  induction ops as [|o ops IH]; intros s s' i x H A D K; cbn [drun] in H; [congruence|].
  destruct (dstep n s o) as [[s1|?|]|] eqn:E; try discriminate. destruct (kept_cons _ _ _ K) as [N K'].
  eapply IH; eauto using step_decorator.
Qed.

Lemma run_raster : forall n ops s s' a r, drun n s ops = Some (Ok s') -> dobject_at s a = Some (RasterObj r) -> Kept a ops ->
  exists r', current n a r ops = Ok r' /\ dobject_at s' a = Some (RasterObj r').
Proof.
  induction ops as [|o ops IH]; intros s s' a r H A K; cbn [drun] in H.
  - injection H as <-. exists r. split; [reflexivity|exact A].
  - destruct (dstep n s o) as [[s1|?|]|] eqn:E; try discriminate. destruct (kept_cons _ _ _ K) as [N K'].
    destruct (step_raster _ _ _ _ _ _ E A N) as [r1 [A1 C1]]. rewrite C1. exact (IH s1 s' a r1 H A1 K').
Qed.

Lemma run_dead : forall n ops s s' i, drun n s ops = Some (Ok s') -> (i < length s)%nat -> dobject_at s i = None -> dobject_at s' i = None.
Proof.
  induction ops as [|o ops IH]; intros s s' i H L A; cbn [drun] in H; [congruence|].
  destruct (dstep n s o) as [[s1|?|]|] eqn:E; try discriminate.
  destruct (step_dead _ _ _ _ _ E L A) as [A1 L1]. exact (IH s1 s' i H L1 A1).
Qed.

Lemma run_destroyed : forall n ops s s' i, drun n s ops = Some (Ok s') -> (i < length s)%nat -> In (Destroy i) ops -> dobject_at s' i = None.
Proof.
  induction ops as [|o ops IH]; intros s s' i H L D; [destruct D|]. cbn [drun] in H.
  destruct (dstep n s o) as [[s1|?|]|] eqn:E; try discriminate.
  assert (L1 : (length s <= length s1)%nat).
  { destruct o as [r0|t m|t m|j|j p v|j r0|j|j]; steps E.
    all: try (destruct (rset n r p v) as [r'|?|] eqn:W; try discriminate).
    all: injection E as <-; rewrite ?app_length, ?replace_length; lia. }
  destruct D as [->|D].
  - steps E; injection E as <-; (eapply run_dead; [exact H|rewrite replace_length; exact L|apply at_replace_eq; exact L]).
  - eapply IH; [exact H|lia|exact D].
Qed.

Lemma linear_ub : forall l idx, linearRec (fun _ => UB) l idx = UB.
Proof. induction l as [|x l IH]; intros idx; cbn [linearRec]; [reflexivity|]. destruct l as [|y l]; [reflexivity|]. rewrite IH. reflexivity. Qed.
Lemma cubic_ub : forall l idx, cubicRec (fun _ => UB) l idx = UB.
Proof. induction l as [|x l IH]; intros idx; cbn [cubicRec]; [reflexivity|]. destruct l as [|y l]; [reflexivity|]. rewrite IH. reflexivity. Qed.

Lemma linear_ext : forall f g, (forall p, f p = g p) -> forall l idx, linearRec f l idx = linearRec g l idx.
Proof.
  intros f g E. induction l as [|x l IH]; intros idx; cbn [linearRec]; [reflexivity|].
  destruct l as [|y l]; [rewrite !E; reflexivity|]. rewrite !IH. reflexivity.
Qed.
Lemma cubic_ext : forall f g, (forall p, f p = g p) -> forall l idx, cubicRec f l idx = cubicRec g l idx.
Proof.
  intros f g E. induction l as [|x l IH]; intros idx; cbn [cubicRec]; [reflexivity|].
  destruct l as [|y l]; [rewrite !E; reflexivity|]. rewrite !IH. reflexivity.
Qed.
Lemma inter_ext : forall m f g p, (forall q, f q = g q) -> interAt m f p = interAt m g p.
Proof. intros [] f g p E; cbn [interAt]; [apply E|apply linear_ext, E|apply cubic_ext, E]. Qed.
Lemma inter_ub : forall m f p, (forall q, f q = UB) -> interAt m f p = UB.
Proof.
  intros m f p E. rewrite (inter_ext m f (fun _ => UB) p E). destruct m; cbn [interAt]; [reflexivity|apply linear_ub|apply cubic_ub].
Qed.

(* Extrapolators. *)
Lemma extrapolator_live : forall n s ops s' a r e m, dobject_at s a = Some (RasterObj r) -> dobject_at s e = Some (ExtraObj a m) ->
  drun n s ops = Some (Ok s') -> Kept a ops -> Kept e ops ->
  exists r', current n a r ops = Ok r' /\ forall p, subscript n s' e p = extraAt n m r' p.
Proof.
  intros n s ops s' a r e m A E H Ka Ke. destruct (run_raster _ _ _ _ _ _ H A Ka) as [r' [C A']].
  pose proof (run_decorator _ _ _ _ _ _ H E eq_refl Ke) as E'.
  exists r'. split; [exact C|]. intros p. unfold subscript. rewrite E'. cbn [typeOf readTarget]. rewrite E', A'. reflexivity.
Qed.

(* Chains of decorators. *)
Lemma chain_kept : forall n s ops s', drun n s ops = Some (Ok s') -> forall i d l a m, Decorates s i d l a m -> (forall j, In j l -> Kept j ops) ->
  Decorates s' i d l a m.
Proof.
  intros n s ops s' H. induction 1 as [a r A|e a m r E A|i d t k l a m I D IH]; intros K.
  - destruct (run_raster _ _ _ _ _ _ H A (K a (or_introl eq_refl))) as (r' & _ & A'). exact (itself _ _ _ A').
  - destruct (run_raster _ _ _ _ _ _ H A (K a (or_intror (or_introl eq_refl)))) as (r' & _ & A').
    exact (extrapolates _ _ _ _ _ (run_decorator _ _ _ _ _ _ H E eq_refl (K e (or_introl eq_refl))) A').
  - apply (interpolates _ i d t k); [exact (run_decorator _ _ _ _ _ _ H I eq_refl (K i (or_introl eq_refl)))|]. apply IH. intros j J. apply K. right. exact J.
Qed.

Lemma chain_read : forall n s i d l a m r, Decorates s i d l a m -> dobject_at s a = Some (RasterObj r) -> forall p, readTarget n s d i p = valueAt n m r p.
Proof.
  intros n s i d l a m r D. induction D as [a r' A|e a m r' E A|i d t k l a m I D IH]; intros R p; cbn [readTarget valueAt].
  - rewrite R. reflexivity.
  - rewrite E, R. reflexivity.
  - rewrite I. apply IH. exact R.
Qed.

Lemma chain_ends : forall s i d l a m, Decorates s i d l a m -> In i l /\ In a l /\ exists x, dobject_at s i = Some x /\ typeOf x = d.
Proof.
  induction 1 as [a r A|e a m r E A|i d t k l a m I D IH]; cbn [In].
  - split; [auto|]. split; [auto|]. exists (RasterObj r). auto.
  - split; [auto|]. split; [auto|]. exists (ExtraObj a m). auto.
  - split; [auto|]. split; [tauto|]. exists (InterObj d t k). auto.
Qed.

Lemma chain_live : forall n s ops s' i d l a m r, Decorates s i d l a m -> dobject_at s a = Some (RasterObj r) ->
  drun n s ops = Some (Ok s') -> (forall j, In j l -> Kept j ops) ->
  exists r', current n a r ops = Ok r' /\ (forall p, subscript n s' i p = valueAt n m r' p) /\
    forall e t k, dobject_at s i = Some (InterObj e t k) -> forall p, evaluate n s' i p = interAt k (valueAt n m r') p.
Proof.
  intros n s ops s' i d l a m r D A H K. destruct (chain_ends _ _ _ _ _ _ D) as (Ii & Ia & _).
  destruct (run_raster _ _ _ _ _ _ H A (K a Ia)) as (r' & C & A'). assert (D' := chain_kept _ _ _ _ H _ _ _ _ _ D K).
  exists r'. split; [exact C|]. split.
  - intros p. destruct (chain_ends _ _ _ _ _ _ D') as (_ & _ & x & X & T). unfold subscript. rewrite X, T. exact (chain_read _ _ _ _ _ _ _ _ D' A' p).
  - intros e t k I p. assert (I' := run_decorator _ _ _ _ _ _ H I eq_refl (K i Ii)). unfold evaluate. rewrite I'. apply inter_ext. intros q.
    inversion D' as [? ? X|? ? ? ? X|? ? ? ? ? ? ? X D'']; subst; rewrite I' in X; try discriminate. injection X as <- <- <-. exact (chain_read _ _ _ _ _ _ _ _ D'' A' q).
Qed.

(* Interpolators of rasters and of extrapolators. *)
Lemma interpolator_live : forall n s ops s' a r i m, dobject_at s a = Some (RasterObj r) -> dobject_at s i = Some (InterObj TRaster a m) ->
  drun n s ops = Some (Ok s') -> Kept a ops -> Kept i ops ->
  exists r', current n a r ops = Ok r' /\ (forall p, subscript n s' i p = rget n r' p) /\
    forall p, evaluate n s' i p = interAt m (rget n r') p.
Proof.
  intros n s ops s' a r i m A I H Ka Ki.
  destruct (chain_live n s ops s' i (TInter TRaster) [i; a] a None r) as (r' & C & S & E); try assumption.
  - exact (interpolates _ _ _ _ _ _ _ _ I (itself _ _ _ A)).
  - intros j [<-|[<-|[]]]; assumption.
  - exists r'. split; [exact C|]. split; [exact S|]. exact (E _ _ _ I).
Qed.

Lemma nested_live : forall n s ops s' a r e m i k, dobject_at s a = Some (RasterObj r) -> dobject_at s e = Some (ExtraObj a m) ->
  dobject_at s i = Some (InterObj TExtra e k) -> drun n s ops = Some (Ok s') -> Kept a ops -> Kept e ops -> Kept i ops ->
  exists r', current n a r ops = Ok r' /\ (forall p, subscript n s' i p = extraAt n m r' p) /\
    forall p, evaluate n s' i p = interAt k (extraAt n m r') p.
Proof.
  intros n s ops s' a r e m i k A E I H Ka Ke Ki.
  destruct (chain_live n s ops s' i (TInter TExtra) [i; e; a] a (Some m) r) as (r' & C & S & V); try assumption.
  - exact (interpolates _ _ _ _ _ _ _ _ I (extrapolates _ _ _ _ _ E A)).
  - intros j [<-|[<-|[<-|[]]]]; assumption.
  - exists r'. split; [exact C|]. split; [exact S|]. exact (V _ _ _ I).
Qed.

(* Copies. *)
Lemma copy_live : forall n s ops s' a r e m, dobject_at s a = Some (RasterObj r) -> dobject_at s e = Some (ExtraObj a m) ->
  drun n s (CopyOf e :: ops) = Some (Ok s') -> Kept a ops -> Kept (length s) ops ->
  exists r', current n a r ops = Ok r' /\ forall p, subscript n s' (length s) p = extraAt n m r' p.
Proof.
  intros n s ops s' a r e m A E H Ka Kc. cbn [drun dstep] in H. rewrite E in H.
  refine (extrapolator_live n _ ops s' a r (length s) m _ (at_last _ _) H Ka Kc). apply at_app. exact A.
Qed.

(* Destroyed targets. *)
Lemma chain_dead : forall n s ops s', drun n s ops = Some (Ok s') -> forall i d l a m, Decorates s i d l a m -> forall t, In t l -> In (Destroy t) ops ->
  forall p, readTarget n s' d i p = UB.
Proof.
  intros n s ops s' H. induction 1 as [a r A|e a m r E A|i d u k l a m I D IH]; intros t T X p.
  - destruct T as [<-|[]]. cbn [readTarget]. rewrite (run_destroyed _ _ _ _ _ H (at_len _ _ _ A) X). reflexivity.
  - cbn [readTarget]. destruct (destroy_dec e ops) as [De|Ke]; [rewrite (run_destroyed _ _ _ _ _ H (at_len _ _ _ E) De); reflexivity|].
    rewrite (run_decorator _ _ _ _ _ _ H E eq_refl Ke). destruct T as [<-|[<-|[]]]; [contradiction (Ke X)|].
    rewrite (run_destroyed _ _ _ _ _ H (at_len _ _ _ A) X). reflexivity.
  - cbn [readTarget]. destruct (destroy_dec i ops) as [De|Ke]; [rewrite (run_destroyed _ _ _ _ _ H (at_len _ _ _ I) De); reflexivity|].
    rewrite (run_decorator _ _ _ _ _ _ H I eq_refl Ke). destruct T as [<-|T]; [contradiction (Ke X)|]. exact (IH t T X p).
Qed.

Lemma dangling : forall n s ops s' i d l a m t, Decorates s i d l a m -> In t l ->
  drun n s ops = Some (Ok s') -> In (Destroy t) ops ->
  (forall p, subscript n s' i p = UB) /\ forall p, evaluate n s' i p = UB.
Proof.
  intros n s ops s' i d l a m t D T H X. assert (R := chain_dead _ _ _ _ H _ _ _ _ _ D t T X).
  destruct (destroy_dec i ops) as [De|Ke].
  - destruct (chain_ends _ _ _ _ _ _ D) as (_ & _ & x & I & _). assert (I' := run_destroyed _ _ _ _ _ H (at_len _ _ _ I) De).
    split; intros p; unfold subscript, evaluate; rewrite I'; reflexivity.
  - destruct D as [a r A|e a m r E A|i d u k l a m I D].
    + destruct T as [<-|[]]. contradiction (Ke X).
    + assert (E' := run_decorator _ _ _ _ _ _ H E eq_refl Ke). split; intros p; [unfold subscript; rewrite E'; apply R|unfold evaluate; rewrite E'; reflexivity].
    + assert (I' := run_decorator _ _ _ _ _ _ H I eq_refl Ke). split; intros p; [unfold subscript; rewrite I'; apply R|].
      destruct T as [<-|T]; [contradiction (Ke X)|]. unfold evaluate. rewrite I'. apply inter_ub. exact (chain_dead _ _ _ _ H _ _ _ _ _ D t T X).
Qed.

Lemma temporary : forall n s a r m k, dobject_at s a = Some (RasterObj r) ->
  exists s', drun n s [Extrapolate a m; Interpolate (length s) k; Destroy (length s)] = Some (Ok s') /\
    dobject_at s' a = Some (RasterObj r) /\ dobject_at s' (S (length s)) = Some (InterObj TExtra (length s) k) /\
    forall p, evaluate n s' (S (length s)) p = UB.
Proof.
  intros n s a r m k A. set (s1 := s ++ [Some (ExtraObj a m)]). set (s2 := s1 ++ [Some (InterObj TExtra (length s) k)]).
  assert (L1 : length s1 = S (length s)) by (unfold s1; rewrite app_length; cbn [length]; lia).
  assert (E1 : dobject_at s1 (length s) = Some (ExtraObj a m)) by apply at_last.
  assert (E2 : dobject_at s2 (length s) = Some (ExtraObj a m)) by (apply at_app; exact E1).
  assert (I2 : dobject_at s2 (S (length s)) = Some (InterObj TExtra (length s) k)) by (rewrite <- L1; apply at_last).
  assert (A2 : dobject_at s2 a = Some (RasterObj r)) by (apply at_app, at_app; exact A).
  assert (La : a <> length s) by (apply at_len in A; lia).
  assert (R : drun n s [Extrapolate a m; Interpolate (length s) k; Destroy (length s)] = Some (Ok (replace s2 (length s) None))).
  { cbn [drun dstep]. rewrite A. fold s1. rewrite E1. cbn [typeOf]. fold s2. rewrite E2. reflexivity. }
  exists (replace s2 (length s) None). split; [exact R|].
  assert (I' : dobject_at (replace s2 (length s) None) (S (length s)) = Some (InterObj TExtra (length s) k))
    by (rewrite at_replace_neq by lia; exact I2).
  split; [rewrite at_replace_neq by congruence; exact A2|]. split; [exact I'|].
  intros p. unfold evaluate. rewrite I'. apply inter_ub. intros q. unfold readTarget.
  rewrite at_replace_eq by (eapply at_len; exact E2). reflexivity.
Qed.

(* References. *)
Lemma current_shape : forall n a ops r r', NotAssigned a ops -> current n a r ops = Ok r' -> rshape r' = rshape r.
Proof.
  induction ops as [|o ops IH]; intros r r' N C; [cbn [current] in C; congruence|].
  destruct N as [N M]. assert (N' : NotAssigned a ops) by (split; [intros r0 F; apply (N r0); right; exact F|intros F; apply M; right; exact F]).
  destruct o as [r0|t m|t m|j|j p v|j r0|j|j]; cbn [current] in C; try (apply IH; assumption).
  - destruct (Nat.eqb j a); [|apply IH; assumption].
    destruct (rset n r p v) as [r1|?|] eqn:W; try discriminate. rewrite (IH _ _ N' C). eapply rset_shape; exact W.
  - destruct (Nat.eqb_spec j a) as [->|F]; [destruct (N r0); left; reflexivity|apply IH; assumption].
  - destruct (Nat.eqb_spec j a) as [->|F]; [destruct M; left; reflexivity|apply IH; assumption].
Qed.

Lemma reference_live : forall n s ops s' a r e m p l, dobject_at s a = Some (RasterObj r) -> dobject_at s e = Some (ExtraObj a m) ->
  referTo n s e p = Ok l -> drun n s ops = Some (Ok s') -> Kept a ops -> NotAssigned a ops ->
  Kept e ops \/ (forall c, m = Constant c -> contains r p = Ok true) ->
  exists r', current n a r ops = Ok r' /\ readPlace n s' l = extraAt n m r' p.
Proof.
  intros n s ops s' a r e m p l A E R H Ka Na X. destruct (run_raster _ _ _ _ _ _ H A Ka) as [r' [C A']].
  exists r'. split; [exact C|]. pose proof (current_shape _ _ _ _ _ Na C) as S'.
  unfold referTo in R. rewrite E, A in R.
  assert (P : forall q, (_ <- rget n r q ;; Ok (Pixel a q)) = Ok l -> readPlace n s' l = rget n r' q).
  { intros q Q. destruct (rget n r q) as [v|?|]; try discriminate. cbn [bind] in Q. injection Q as <-.
    cbn [readPlace]. rewrite A'. reflexivity. }
  destruct m as [c| |]; cbn [extraPlace extraAt] in R |- *.
  - unfold constantAt. unfold contains in *. rewrite S'. destruct (containsLoop (rshape r) p) as [[]|?|] eqn:T; cbn [bind] in R |- *; try discriminate.
    + apply P, R.
    + injection R as <-. destruct X as [Ke|X]; [|specialize (X c eq_refl); discriminate].
      cbn [readPlace]. rewrite (run_decorator _ _ _ _ _ _ H E eq_refl Ke). reflexivity.
  - unfold nearestAt. rewrite S'. destruct (Nat.eqb (length p) (length (rshape r))); [apply P, R|discriminate].
  - unfold periodicAt. rewrite S'. destruct (periodicPos p (rshape r)) as [q|?|]; cbn [bind] in R |- *; try discriminate. apply P, R.
Qed.

Lemma reference_dangling : forall n s ops s' a r e c p, dobject_at s a = Some (RasterObj r) ->
  dobject_at s e = Some (ExtraObj a (Constant c)) -> contains r p = Ok false -> drun n s ops = Some (Ok s') -> In (Destroy e) ops ->
  exists l, referTo n s e p = Ok l /\ readPlace n s l = Ok c /\ readPlace n s' l = UB.
Proof.
  intros n s ops s' a r e c p A E F H D. exists (Member e). split; [|split].
  - unfold referTo. rewrite E, A. cbn [extraPlace]. rewrite F. reflexivity.
  - cbn [readPlace]. rewrite E. reflexivity.
  - cbn [readPlace]. rewrite (run_destroyed _ _ _ _ _ H (at_len _ _ _ E) D). reflexivity.
Qed.

(* Moves. *)
Lemma rget_empty : forall n sh p, rget n (mkRaster sh []) p = (i <- rindex n sh p ;; @UB Q).
Proof. intros n sh p. unfold rget. cbn [rshape rdata]. destruct (rindex n sh p) as [i|?|]; cbn [bind]; try reflexivity. unfold zget. destruct (i <? 0); [reflexivity|]. destruct (Z.to_nat i); reflexivity. Qed.

Lemma index_fixed_res : forall sh p e, indexFixed sh p <> Throw e.
Proof.
  induction sh as [|x sh IH]; intros [|y p] e; cbn [indexFixed]; try discriminate; [destruct sh; discriminate|].
  specialize (IH p). destruct sh as [|z sh]; destruct p as [|w p]; try discriminate;
    match goal with |- context [bind ?b _] => destruct b as [i|f|] eqn:E end; cbn [bind]; try discriminate; exact (fun _ => IH f eq_refl).
Qed.
Lemma moved_get : forall n sh p, n <> -1 -> @rget Q n (mkRaster sh []) p = UB.
Proof.
  intros n sh p N. rewrite rget_empty. unfold rindex. destruct (Z.eqb_spec n (-1)) as [E|_]; [contradiction|].
  destruct (indexFixed sh p) as [i|e|] eqn:E; cbn [bind]; try reflexivity. destruct (index_fixed_res _ _ _ E).
Qed.
Lemma moved_value : forall n m r p, n <> -1 -> valueAt n m (movedRaster n r) p = UB \/
  exists c, m = Some (Constant c) /\ contains r p = Ok false /\ valueAt n m (movedRaster n r) p = Ok c.
Proof.
  intros n m r p N. assert (G : forall q, rget n (movedRaster n r) q = UB) by (intros q; apply moved_get; exact N).
  assert (S : rshape (movedRaster n r) = rshape r) by (unfold movedRaster, movedFrom; cbn [rshape]; destruct (Z.eqb_spec n (-1)) as [E|_]; [contradiction|reflexivity]).
  destruct m as [[c| |]|]; cbn [valueAt extraAt].
  - unfold constantAt, contains. rewrite S. destruct (containsLoop (rshape r) p) as [[]|e|] eqn:C; cbn [bind]; [left; apply G|right; exists c; auto| |auto].
    exfalso. clear - C. revert p C. induction (rshape r) as [|x sh IH]; intros [|y p] C; cbn [containsLoop] in C; try discriminate.
    destruct (_ || _); [discriminate|]. exact (IH _ C).
  - left. unfold nearestAt. destruct (Nat.eqb _ _); [apply G|reflexivity].
  - left. unfold periodicAt. rewrite S. destruct (periodicPos p (rshape r)) as [q|e|] eqn:C; cbn [bind]; [apply G| |reflexivity].
    exfalso. clear - C. revert p C. induction (rshape r) as [|x sh IH]; intros [|y p] C; cbn [periodicPos] in C; try discriminate.
    destruct (x =? 0); [discriminate|]. destruct (periodicPos p sh) as [q|f|] eqn:E; cbn [bind] in C; try discriminate. apply (IH p). congruence.
  - left. apply G.
Qed.

Lemma moved_chain : forall n s i d l a m r, n <> -1 -> Decorates s i d l a m -> dobject_at s a = Some (RasterObj r) ->
  exists s', drun n s [Moved a; NewRaster r] = Some (Ok s') /\ dobject_at s' (length s) = Some (RasterObj r) /\
    forall p, subscript n s' i p = UB \/ exists c, m = Some (Constant c) /\ contains r p = Ok false /\ subscript n s' i p = Ok c.
Proof.
  intros n s i d l a m r N D A.
  assert (H : drun n s [Moved a; NewRaster r] = Some (Ok (replace s a (Some (RasterObj (movedRaster n r))) ++ [Some (RasterObj r)]))).
  { cbn [drun dstep]. rewrite A. reflexivity. }
  eexists. split; [exact H|]. split; [rewrite <- (replace_length s a (Some (RasterObj (movedRaster n r)))); apply at_last|].
  destruct (chain_live _ _ _ _ _ _ _ _ _ _ D A H) as (r' & C & S & _); [intros j _; unfold Kept; cbn [In]; intuition discriminate|].
  cbn [current] in C. rewrite Nat.eqb_refl in C. injection C as <-. intros p. rewrite S. apply moved_value. exact N.
Qed.
