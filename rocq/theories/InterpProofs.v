(** Extrapolation and interpolation. *)
From Coq Require Import QArith Qround Qabs Lqa.
From Verif Require Import Res VecModel BoxModel RasterModel TypesModel InterpModel Spec RasterSpec InterpSpec
  Lemmas IndexProofs AccessProofs ContainerProofs.
Open Scope Z_scope.

(** ** Extrapolation *)

Lemma constant_at {A} n value (r : raster A) p : WF r -> length p = length (rshape r) ->
  (InDomain (rshape r) p -> constantAt n value r p = rget n r p) /\
  (~ InDomain (rshape r) p -> constantAt n value r p = Ok value).
Proof.
  intros W L. destruct (contains_spec n r p W L) as (c & E & Ec & _). unfold constantAt. rewrite E. cbn [bind].
  destruct c; split; intros H; try reflexivity; try (exfalso; apply H, Ec; reflexivity).
  apply Ec in H. discriminate.
Qed.

Lemma clamp_nearest shape p : Positive shape -> length p = length shape -> NearestIn shape p (vclamp p shape).
Proof.
  revert p. induction shape as [|s shape IH]; intros [|x p] P L; try discriminate L.
  - split; [constructor|]. intros q' _ i Hi. cbn in Hi. lia.
  - inversion P as [|? ? Ps P']; subst. destruct (IH p P' ltac:(cbn in L; lia)) as [D N].
    change (vclamp (x :: p) (s :: shape)) with (clampZ x 0 (s - 1) :: vclamp p shape). split.
    + constructor; [|exact D]. unfold clampZ. destruct (Z.ltb_spec x 0); [lia|]. destruct (Z.ltb_spec (s - 1) x); lia.
    + intros q' D' i Hi. inversion D' as [|? y ? q'' Hy D'']; subst. destruct i as [|i]; cbn [nth].
      * unfold clampZ. destruct (Z.ltb_spec x 0); [lia|]. destruct (Z.ltb_spec (s - 1) x); lia.
      * apply N; [exact D''|cbn in Hi; lia].
Qed.

Lemma nearest_at {A} n (r : raster A) p : WF r -> Positive (rshape r) -> length p = length (rshape r) ->
  exists q, NearestIn (rshape r) p q /\ nearestAt n r p = rget n r q.
Proof.
  intros W P L. exists (vclamp p (rshape r)). split; [apply clamp_nearest; assumption|].
  unfold nearestAt. rewrite L, Nat.eqb_refl. reflexivity.
Qed.

Lemma InDomain_ext shape p q : InDomain shape p -> InDomain shape q ->
  (forall i, (i < length shape)%nat -> nth i p 0 = nth i q 0) -> p = q.
Proof.
  intros H. revert q. induction H as [|s x shape p Hx H IH]; intros q Hq E.
  - inversion Hq. reflexivity.
  - inversion Hq as [|? y ? q' Hy Hq']; subst. f_equal.
    + apply (E O). cbn. lia.
    + apply IH; [exact Hq'|]. intros i Hi. apply (E (S i)). cbn. lia.
Qed.

Lemma nearest_inside shape p q : InDomain shape p -> NearestIn shape p q -> q = p.
Proof.
  intros H [D N]. apply (InDomain_ext shape); [exact D|exact H|]. intros i Hi. specialize (N p H i Hi). lia.
Qed.

Lemma rem_positive x s : 0 < s -> (if Z.rem x s <? 0 then Z.rem x s + s else Z.rem x s) = x mod s.
Proof.
  intros H. pose proof (Z.rem_bound_abs x s ltac:(lia)). pose proof (Z.quot_rem x s ltac:(lia)) as E.
  destruct (Z.ltb_spec (Z.rem x s) 0).
  - apply (Z.mod_unique x s (Z.quot x s - 1)); lia.
  - apply (Z.mod_unique x s (Z.quot x s)); lia.
Qed.

Lemma periodicPos_spec shape p : Positive shape -> length p = length shape ->
  exists q, periodicPos p shape = Ok q /\ Congruent shape p q.
Proof.
  revert p. induction shape as [|s shape IH]; intros [|x p] P L; try discriminate L.
  - exists []. split; [reflexivity|]. split; [constructor|]. split; [reflexivity|]. intros i Hi. cbn in Hi. lia.
  - inversion P as [|? ? Ps P']; subst. destruct (IH p P' ltac:(cbn in L; lia)) as (q & E & D & Lq & C).
    exists (x mod s :: q). split.
    + cbn [periodicPos]. destruct (Z.eqb_spec s 0); [lia|]. rewrite E. cbn [bind]. cbv zeta. rewrite rem_positive by lia. reflexivity.
    + split; [constructor; [apply Z.mod_pos_bound; lia|exact D]|]. split; [exact L|].
      intros [|i] Hi; cbn [nth].
      * exists (x / s). pose proof (Z.div_mod x s). lia.
      * apply C. cbn in Hi. lia.
Qed.

Lemma congruent_unique shape p q q' : Congruent shape p q -> Congruent shape p q' -> q = q'.
Proof.
  intros (D & _ & C) (D' & _ & C'). apply (InDomain_ext shape); [exact D|exact D'|]. intros i Hi.
  destruct (C i Hi) as [k K]. destruct (C' i Hi) as [k' K'].
  assert (B : forall l, InDomain shape l -> 0 <= nth i l 0 < nth i shape 0).
  { clear - Hi. intros l H. revert i Hi. induction H; intros i Hi; [cbn in Hi; lia|]. destruct i; cbn [nth]; [lia|]. apply IHInDomain. cbn in Hi. lia. }
  pose proof (B q D). pose proof (B q' D').
  assert (k = k'); [|subst; lia].
  assert ((k - k') * nth i shape 0 = nth i q' 0 - nth i q 0) by lia.
  destruct (Z.lt_trichotomy k k') as [?|[?|?]]; [exfalso|assumption|exfalso]; nia.
Qed.

Lemma periodic_at {A} n (r : raster A) p : WF r -> Positive (rshape r) -> length p = length (rshape r) ->
  exists q, Congruent (rshape r) p q /\ periodicAt n r p = rget n r q.
Proof.
  intros W P L. destruct (periodicPos_spec _ p P L) as (q & E & C). exists q. split; [exact C|]. unfold periodicAt. rewrite E. reflexivity.
Qed.

Lemma congruent_inside shape p : InDomain shape p -> Congruent shape p p.
Proof.
  intros D. split; [exact D|]. split.
  - clear - D. induction D; cbn; lia.
  - intros i Hi. exists 0. lia.
Qed.

Lemma nth_plus (p : list Z) : forall t i, length p = length t -> nth i (map2 Z.add p t) 0 = nth i p 0 + nth i t 0.
Proof.
  induction p as [|x p IH]; intros [|y t] i L; try discriminate L; [destruct i; reflexivity|].
  destruct i; cbn [map2 nth]; [reflexivity|]. apply IH. cbn in L. lia.
Qed.

Lemma length_plus (p : list Z) : forall t, length p = length t -> length (map2 Z.add p t) = length p.
Proof.
  induction p as [|x p IH]; intros [|y t] L; try discriminate L; [reflexivity|]. cbn [map2 length]. f_equal. apply IH. cbn in L. lia.
Qed.

Lemma nth_times (k : list Z) : forall s i, length k = length s -> nth i (map2 Z.mul k s) 0 = nth i k 0 * nth i s 0.
Proof.
  induction k as [|x k IH]; intros [|y t] i L; try discriminate L; [destruct i; reflexivity|].
  destruct i; cbn [map2 nth]; [reflexivity|]. apply IH. cbn in L. lia.
Qed.

Lemma length_times (k : list Z) : forall s, length k = length s -> length (map2 Z.mul k s) = length k.
Proof.
  induction k as [|x p IH]; intros [|y t] L; try discriminate L; [reflexivity|]. cbn [map2 length]. f_equal. apply IH. cbn in L. lia.
Qed.

Lemma periodic_translate {A} n (r : raster A) p k : WF r -> Positive (rshape r) -> length p = length (rshape r) -> length k = length (rshape r) ->
  periodicAt n r (map2 Z.add p (map2 Z.mul k (rshape r))) = periodicAt n r p.
Proof.
  intros W P L Lk. set (p' := map2 Z.add p _).
  assert (Lt : length (map2 Z.mul k (rshape r)) = length (rshape r)) by (rewrite length_times; assumption).
  assert (Lp' : length p' = length (rshape r)) by (unfold p'; rewrite length_plus; congruence).
  destruct (periodic_at n r p W P L) as (q & C & ->). destruct (periodic_at n r p' W P Lp') as (q' & C' & ->).
  f_equal. apply (congruent_unique (rshape r) p'); [exact C'|]. destruct C as (D & _ & C). split; [exact D|]. split; [exact Lp'|].
  intros i Hi. destruct (C i Hi) as [m Hm]. exists (m + nth i k 0). unfold p'.
  rewrite nth_plus by congruence. rewrite nth_times by congruence. lia.
Qed.

Lemma extrapolate_inside {A} n value (r : raster A) p : WF r -> Positive (rshape r) -> InDomain (rshape r) p ->
  constantAt n value r p = rget n r p /\ nearestAt n r p = rget n r p /\ periodicAt n r p = rget n r p.
Proof.
  intros W P D. pose proof (InDomain_length _ _ D) as L. assert (L' : length p = length (rshape r)) by lia.
  split; [apply constant_at; assumption|]. split.
  - destruct (nearest_at n r p W P L') as (q & N & ->). f_equal. eapply nearest_inside; eauto.
  - destruct (periodic_at n r p W P L') as (q & N & ->). f_equal. eapply congruent_unique; eauto using congruent_inside.
Qed.

Lemma extrapolate_defined {A} n value (r : raster A) p : WF r -> Positive (rshape r) -> length p = length (rshape r) ->
  (exists a, constantAt n value r p = Ok a) /\ (exists a, nearestAt n r p = Ok a) /\ (exists a, periodicAt n r p = Ok a).
Proof.
  intros W P L. split; [|split].
  - destruct (contains_spec n r p W L) as (c & E & Ec & _). unfold constantAt. rewrite E. cbn [bind]. destruct c; [|eauto].
    destruct (rget_domain n r p W) as (a & Ha & _); [apply Ec; reflexivity|eauto].
  - destruct (nearest_at n r p W P L) as (q & [D _] & ->). destruct (rget_domain n r q W D) as (a & Ha & _). eauto.
  - destruct (periodic_at n r p W P L) as (q & [D _] & ->). destruct (rget_domain n r q W D) as (a & Ha & _). eauto.
Qed.

(** ** Nearest-neighbor interpolation *)

Lemma trunc_nearest x : (- (1 # 2) <= x)%Q -> (Qabs (x - inject_Z (qtrunc (x + (1 # 2)))) <= 1 # 2)%Q.
Proof.
  intros H. rewrite qtrunc_nonneg by lra. pose proof (Qfloor_le (x + (1 # 2))) as F. pose proof (Qlt_floor (x + (1 # 2))) as G.
  rewrite inject_Z_plus in G. change (inject_Z 1) with 1%Q in G. apply Qabs_Qle_condition. split; lra.
Qed.

Lemma nn_nearest {A} (get : list Z -> res A) p : Forall (fun x => - (1 # 2) <= x)%Q p ->
  exists q, Around (1 # 2) p q /\ nearestInterp get p = get q.
Proof.
  intros H. eexists. split; [|reflexivity]. induction H as [|x p Hx H IH]; cbn [map]; constructor; [apply trunc_nearest; exact Hx|exact IH].
Qed.

Lemma trunc_integral z : (0 <= z) -> qtrunc (inject_Z z + (1 # 2)) = z.
Proof.
  intros H. assert (0 <= inject_Z z)%Q by (change 0%Q with (inject_Z 0); rewrite <- Zle_Qle; exact H). rewrite qtrunc_nonneg by lra.
  apply Qfloor_unique; [lra|]. rewrite inject_Z_plus. change (inject_Z 1) with 1%Q. lra.
Qed.

Lemma nn_integral {A} (get : list Z -> res A) q : Forall (fun z => 0 <= z) q -> nearestInterp get (map inject_Z q) = get q.
Proof.
  intros H. unfold nearestInterp. f_equal. rewrite map_map. induction H as [|x p Hx H IH]; cbn [map]; [reflexivity|].
  rewrite trunc_integral by exact Hx. f_equal. exact IH.
Qed.

Lemma trunc_negative z : (z < 0) -> qtrunc (inject_Z z + (1 # 2)) = z + 1.
Proof.
  intros H. assert (inject_Z z <= -1)%Q by (change (-1)%Q with (inject_Z (-1)); rewrite <- Zle_Qle; lia).
  rewrite qtrunc_neg by lra. assert (Qfloor (- (inject_Z z + (1 # 2))) = - z - 1); [|lia].
  apply Qfloor_unique; rewrite ?inject_Z_plus, ?inject_Z_opp; unfold Z.sub; rewrite ?inject_Z_plus, ?inject_Z_opp;
    change (inject_Z 1) with 1%Q; change (inject_Z (-1)) with (-1)%Q; lra.
Qed.

Lemma nn_negative {A} (get : list Z -> res A) q : Forall (fun z => z < 0) q -> nearestInterp get (map inject_Z q) = get (map Z.succ q).
Proof.
  intros H. unfold nearestInterp. f_equal. rewrite map_map. induction H as [|x p Hx H IH]; cbn [map]; [reflexivity|].
  rewrite trunc_negative by exact Hx. f_equal. exact IH.
Qed.

(** ** Tensors *)

Fixpoint sm (l : list (Z * Q)) (F : Z -> Q) : Q :=
  match l with [] => 0 | (i, w) :: l' => w * F i + sm l' F end%Q.

Fixpoint tensor (image : list Z -> Q) (ws : list (list (Z * Q))) : Q :=
  match ws with [] => image [] | w :: ws' => sm w (fun i => tensor (fun q => image (i :: q)) ws') end.

Lemma sm_ext l F G : (forall i, In i (map fst l) -> F i == G i)%Q -> (sm l F == sm l G)%Q.
Proof.
  induction l as [|[i w] l IH]; intros H; cbn [sm]; [reflexivity|]. rewrite (H i) by (left; reflexivity).
  rewrite IH by (intros j Hj; apply H; right; exact Hj). reflexivity.
Qed.

Lemma sm_scal l a F : (sm l (fun i => a * F i) == a * sm l F)%Q.
Proof. induction l as [|[i w] l IH]; cbn [sm]; [ring|]. rewrite IH. ring. Qed.

Lemma sm_add l F G : (sm l (fun i => F i + G i) == sm l F + sm l G)%Q.
Proof. induction l as [|[i w] l IH]; cbn [sm]; [ring|]. rewrite IH. ring. Qed.

Lemma sm_zero l : (sm l (fun _ => 0) == 0)%Q.
Proof. induction l as [|[i w] l IH]; cbn [sm]; [ring|]. rewrite IH. ring. Qed.

Lemma sm_swap l m (F : Z -> Z -> Q) : (sm l (fun i => sm m (F i)) == sm m (fun j => sm l (fun i => F i j)))%Q.
Proof.
  induction l as [|[i w] l IH]; cbn [sm].
  - rewrite sm_zero. reflexivity.
  - rewrite IH, sm_add, sm_scal. reflexivity.
Qed.

(** The positions of a tensor *)
Definition Support (ws : list (list (Z * Q))) (q : list Z) : Prop := Forall2 (fun w i => In i (map fst w)) ws q.

Lemma tensor_ext ws : forall f g, (forall q, Support ws q -> f q == g q)%Q -> (tensor f ws == tensor g ws)%Q.
Proof.
  induction ws as [|w ws IH]; intros f g H; cbn [tensor]; [apply H; constructor|].
  apply sm_ext. intros i Hi. apply IH. intros q Hq. apply H. constructor; assumption.
Qed.

Lemma tensor_snoc ws w : forall f, (tensor f (ws ++ [w]) == sm w (fun i => tensor (fun q => f (q ++ [i])) ws))%Q.
Proof.
  induction ws as [|v ws IH]; intros f; cbn [app tensor].
  - apply sm_ext. intros; reflexivity.
  - rewrite (sm_ext v _ (fun j => sm w (fun i => tensor (fun q => f (j :: q ++ [i])) ws))).
    + apply sm_swap.
    + intros j _. rewrite IH. reflexivity.
Qed.

Lemma tensor_equiv f ws ws' : Forall2 (fun w w' => forall F, sm w F == sm w' F)%Q ws ws' -> (tensor f ws == tensor f ws')%Q.
Proof.
  intros H. revert f. induction H as [|w w' ws ws' E H IH]; intros f; cbn [tensor]; [reflexivity|].
  rewrite E. apply sm_ext. intros. apply IH.
Qed.

Lemma tensor_pick f : forall q, (tensor f (map (fun i => [(i, 1)]) q) == f q)%Q.
Proof.
  intros q. revert f. induction q as [|i q IH]; intros f; cbn [map tensor]; [reflexivity|]. cbn [sm]. rewrite IH. ring.
Qed.

Lemma affine_shift s : forall a p, (affine a s p == a + affine 0 s p)%Q.
Proof.
  induction s as [|x s IH]; intros a [|y p]; cbn [affine]; try ring. rewrite (IH (a + x * y)%Q), (IH (0 + x * y)%Q). ring.
Qed.

Lemma sm_affine w a b x : (sm w (fun _ => 1) == 1)%Q -> (sm w (fun i => inject_Z i) == x)%Q -> (sm w (fun i => a + b * inject_Z i) == a + b * x)%Q.
Proof.
  intros H1 H2. rewrite sm_add, sm_scal, H2. rewrite (sm_ext w (fun _ => a) (fun _ => a * 1)%Q) by (intros; ring).
  rewrite sm_scal, H1. ring.
Qed.

Lemma tensor_affine ws p : Forall2 (fun w x => sm w (fun _ => 1) == 1 /\ sm w (fun i => inject_Z i) == x)%Q ws p ->
  forall a s, (tensor (fun q => affine a s (map inject_Z q)) ws == affine a s p)%Q.
Proof.
  induction 1 as [|w x ws p [H1 H2] H IH]; intros a s; cbn [tensor map]; [reflexivity|].
  destruct s as [|y s]; cbn [affine map].
  - rewrite (sm_ext w _ (fun _ => a + 0 * inject_Z 0)%Q).
    + rewrite (sm_ext w _ (fun i => a + 0 * inject_Z i)%Q) by (intros; ring). rewrite (sm_affine w a 0 x H1 H2). ring.
    + intros i _. rewrite (tensor_ext ws _ (fun q => affine a [] (map inject_Z q))) by (intros; cbn [affine]; reflexivity).
      rewrite IH. cbn [affine]. ring.
  - rewrite (sm_ext w _ (fun i => (a + affine 0 s p) + y * inject_Z i)%Q).
    + rewrite (sm_affine w _ y x H1 H2). rewrite (affine_shift s (a + y * x)%Q). ring.
    + intros i _. rewrite IH. rewrite affine_shift. ring.
Qed.

Lemma sm_between w lo hi : (Forall (fun iw => 0 <= snd iw)%Q w) -> (sm w (fun _ => 1) == 1)%Q ->
  forall F, (forall i, In i (map fst w) -> lo <= F i <= hi)%Q -> (lo <= sm w F <= hi)%Q.
Proof.
  intros N U F H.
  assert (B : (lo * sm w (fun _ => 1) <= sm w F <= hi * sm w (fun _ => 1))%Q).
  { clear U. induction N as [|[i a] w Ha N IH]; cbn [sm]; [lra|]. cbn [snd] in Ha.
    destruct (IH ltac:(intros j Hj; apply H; right; exact Hj)) as [L R]. destruct (H i ltac:(left; reflexivity)) as [l r].
    assert (a * lo <= a * F i)%Q by (rewrite !(Qmult_comm a); apply Qmult_le_compat_r; assumption).
    assert (a * F i <= a * hi)%Q by (rewrite !(Qmult_comm a); apply Qmult_le_compat_r; assumption). split; lra. }
  rewrite U in B. lra.
Qed.

Lemma tensor_between lo hi ws : Forall (fun w => Forall (fun iw => 0 <= snd iw)%Q w /\ sm w (fun _ => 1) == 1)%Q ws ->
  forall f, (forall q, Support ws q -> lo <= f q <= hi)%Q -> (lo <= tensor f ws <= hi)%Q.
Proof.
  induction 1 as [|w ws [N U] H IH]; intros f Hf; cbn [tensor]; [apply Hf; constructor|].
  apply sm_between; [exact N|exact U|]. intros i Hi. apply IH. intros q Hq. apply Hf. constructor; assumption.
Qed.

(** ** Linear interpolation *)

Lemma floorM_cell x : (inject_Z (floorM x) <= x <= inject_Z (floorM x + 1))%Q.
Proof.
  destruct (Qlt_le_dec x 0) as [H|H].
  - rewrite floorM_neg by exact H. destruct (Qeq_bool x (inject_Z (Qfloor x))) eqn:E.
    + apply Qeq_bool_iff in E. replace (Qfloor x - 1 + 1) with (Qfloor x) by lia. rewrite <- E.
      split; [|lra]. unfold Z.sub. rewrite inject_Z_plus. change (inject_Z (-(1))) with (-(1))%Q. lra.
    + split; [apply Qfloor_le|apply Qlt_le_weak, Qlt_floor].
  - rewrite floorM_nonneg by exact H. split; [apply Qfloor_le|apply Qlt_le_weak, Qlt_floor].
Qed.

Definition linearWeights (x : Q) : list (Z * Q) :=
  [(floorM x, (x - inject_Z (floorM x))%Q); (floorM x + 1, (1 - (x - inject_Z (floorM x)))%Q)].
Definition cellWeights (f : Z) (x : Q) : list (Z * Q) :=
  let '(w0, w1, w2, w3) := cubicWeights (x - inject_Z f) in [(f - 1, w0); (f, w1); (f + 1, w2); (f + 2, w3)].

Lemma support_app ws : forall q ws' q', Support ws q -> Support ws' q' -> Support (ws ++ ws') (q ++ q').
Proof. intros. apply Forall2_app; assumption. Qed.

Lemma linear_rec (image : list Z -> Q) get p : p <> [] -> forall idx,
  (forall q, Support (map linearWeights p) q -> get (q ++ idx) = Ok (image (q ++ idx))) ->
  exists v, linearRec get (rev p) idx = Ok v /\ (v == tensor (fun q => image (q ++ idx)) (map linearWeights p))%Q.
Proof.
  induction p as [|x p IH] using rev_ind; [congruence|]. intros _ idx H. rewrite rev_app_distr. cbn [rev app].
  set (f := floorM x). set (at_ := fun i : Z => match rev p with [] => get (i :: idx) | _ :: _ => linearRec get (rev p) (i :: idx) end).
  assert (R : linearRec get (x :: rev p) idx = (a <- at_ f ;; b <- at_ (f + 1) ;; Ok (linearFormula (x - inject_Z f) a b))) by reflexivity.
  rewrite R. clear R.
  assert (A : forall i, In i (map fst (linearWeights x)) -> exists v, at_ i = Ok v /\ (v == tensor (fun q => image (q ++ i :: idx)) (map linearWeights p))%Q).
  { intros i Hi. unfold at_. clear at_. destruct p as [|y p'].
    - cbn [rev map]. exists (image (i :: idx)). split; [|reflexivity]. apply (H [i]). constructor; [exact Hi|constructor].
    - destruct (IH ltac:(discriminate) (i :: idx)) as (v & E & Ev).
      + intros q Hq. replace (q ++ i :: idx) with ((q ++ [i]) ++ idx) by (rewrite <- app_assoc; reflexivity). apply H.
        rewrite map_app. apply support_app; [exact Hq|]. constructor; [exact Hi|constructor].
      + exists v. split; [|exact Ev]. rewrite <- E. destruct (rev (y :: p')) eqn:R; [|reflexivity].
        apply (f_equal (@length _)) in R. rewrite rev_length in R. discriminate. }
  destruct (A f) as (v & E & Ev); [left; reflexivity|]. destruct (A (f + 1)) as (w & E' & Ew); [right; left; reflexivity|].
  rewrite E, E'. cbn [bind]. eexists. split; [reflexivity|]. rewrite map_app. cbn [map]. rewrite tensor_snoc. unfold linearWeights at 1.
  cbn [sm]. fold f. unfold linearFormula. rewrite Ev, Ew.
  rewrite (tensor_ext _ (fun q => image ((q ++ [f]) ++ idx)) (fun q => image (q ++ f :: idx))) by (intros q _; rewrite <- app_assoc; reflexivity).
  rewrite (tensor_ext _ (fun q => image ((q ++ [f + 1]) ++ idx)) (fun q => image (q ++ f + 1 :: idx))) by (intros q _; rewrite <- app_assoc; reflexivity).
  ring.
Qed.

Lemma cubic_rec (image : list Z -> Q) get p : p <> [] -> forall idx,
  let W := map (fun x => cellWeights (floorM x) x) p in
  (forall q, Support W q -> get (q ++ idx) = Ok (image (q ++ idx))) ->
  exists v, cubicRec get (rev p) idx = Ok v /\ (v == tensor (fun q => image (q ++ idx)) W)%Q.
Proof.
  cbv zeta. induction p as [|x p IH] using rev_ind; [congruence|]. intros _ idx H. rewrite rev_app_distr. cbn [rev app].
  set (f := floorM x). set (at_ := fun i : Z => match rev p with [] => get (i :: idx) | _ :: _ => cubicRec get (rev p) (i :: idx) end).
  assert (R : cubicRec get (x :: rev p) idx = (z <- at_ (f - 1) ;; a <- at_ f ;; b <- at_ (f + 1) ;; c <- at_ (f + 2) ;; Ok (cubicFormula (x - inject_Z f) z a b c))) by reflexivity.
  rewrite R. clear R.
  set (W := map (fun x => cellWeights (floorM x) x)) in *.
  assert (A : forall i, In i (map fst (cellWeights f x)) -> exists v, at_ i = Ok v /\ (v == tensor (fun q => image (q ++ i :: idx)) (W p))%Q).
  { intros i Hi. unfold at_. clear at_. destruct p as [|y p'].
    - cbn [rev map]. exists (image (i :: idx)). split; [|reflexivity]. apply (H [i]). constructor; [exact Hi|constructor].
    - destruct (IH ltac:(discriminate) (i :: idx)) as (v & E & Ev).
      + intros q Hq. replace (q ++ i :: idx) with ((q ++ [i]) ++ idx) by (rewrite <- app_assoc; reflexivity). apply H.
        unfold W. rewrite map_app. apply support_app; [exact Hq|]. constructor; [exact Hi|constructor].
      + exists v. split; [|exact Ev]. rewrite <- E. destruct (rev (y :: p')) eqn:R; [|reflexivity].
        apply (f_equal (@length _)) in R. rewrite rev_length in R. discriminate. }
  destruct (A (f - 1)) as (v0 & E0 & Ev0); [left; reflexivity|]. destruct (A f) as (v1 & E1 & Ev1); [right; left; reflexivity|].
  destruct (A (f + 1)) as (v2 & E2 & Ev2); [right; right; left; reflexivity|]. destruct (A (f + 2)) as (v3 & E3 & Ev3); [right; right; right; left; reflexivity|].
  rewrite E0, E1, E2, E3. cbn [bind]. eexists. split; [reflexivity|].
  assert (T : forall i, (tensor (fun q => image ((q ++ [i]) ++ idx)) (W p) == tensor (fun q => image (q ++ i :: idx)) (W p))%Q)
    by (intros i; apply tensor_ext; intros q _; rewrite <- app_assoc; reflexivity).
  unfold W. rewrite map_app. cbn [map]. rewrite tensor_snoc. fold W. fold f. unfold cellWeights at 1, cubicWeights.
  cbn [sm]. unfold cubicFormula. rewrite !T, Ev0, Ev1, Ev2, Ev3. field.
Qed.

Lemma Forall2_map_l {A B C} (P : B -> C -> Prop) (f : A -> B) l : forall l', Forall2 P (map f l) l' <-> Forall2 (fun a c => P (f a) c) l l'.
Proof.
  induction l as [|a l IH]; intros [|c l']; cbn [map]; split; intros H; inversion H; subst; constructor; try assumption; apply IH; assumption.
Qed.

Ltac injZ := unfold Z.sub in *; rewrite ?inject_Z_plus, ?inject_Z_opp, ?inject_Z_mult, ?inject_Z_plus, ?inject_Z_opp in *; 
  change (inject_Z 1) with 1%Q in *; change (inject_Z 2) with 2%Q in *; change (inject_Z (-(1))) with (-(1))%Q in *; change (inject_Z (-1)) with (-1)%Q in *.

Lemma linear_support p q : Support (map linearWeights p) q -> Around 1 p q.
Proof.
  intros H. apply Forall2_map_l in H. induction H as [|x i p q Hi H IH]; constructor; [|exact IH].
  pose proof (floorM_cell x). cbn in Hi. injZ. apply Qabs_Qle_condition. destruct Hi as [<-|[<-|[]]]; injZ; split; lra.
Qed.

Lemma cubic_support p q : Support (map (fun x => cellWeights (floorM x) x) p) q -> Around 2 p q.
Proof.
  intros H. apply Forall2_map_l in H. induction H as [|x i p q Hi H IH]; constructor; [|exact IH].
  pose proof (floorM_cell x). cbn in Hi. injZ. apply Qabs_Qle_condition. destruct Hi as [<-|[<-|[<-|[<-|[]]]]]; injZ; split; lra.
Qed.

Lemma app_nil_image (image : list Z -> Q) W : (tensor (fun q => image (q ++ [])) W == tensor image W)%Q.
Proof. apply tensor_ext. intros. rewrite app_nil_r. reflexivity. Qed.

Lemma linear_tensor image get p : p <> [] -> (forall q, Around 1 p q -> get q = Ok (image q)) ->
  exists v, linearAt get p = Ok v /\ (v == tensor image (map linearWeights p))%Q.
Proof.
  intros N H. destruct (linear_rec image get p N []) as (v & E & Ev).
  - intros q Hq. rewrite app_nil_r. apply H, linear_support, Hq.
  - exists v. split; [exact E|]. rewrite Ev. apply app_nil_image.
Qed.

Lemma cubic_tensor image get p : p <> [] -> (forall q, Around 2 p q -> get q = Ok (image q)) ->
  exists v, cubicAt get p = Ok v /\ (v == tensor image (map (fun x => cellWeights (floorM x) x) p))%Q.
Proof.
  intros N H. destruct (cubic_rec image get p N []) as (v & E & Ev).
  - intros q Hq. rewrite app_nil_r. apply H, cubic_support, Hq.
  - exists v. split; [exact E|]. rewrite Ev. apply app_nil_image.
Qed.

(** *** The linear interpolation of reference *)

Definition floorWeights (x : Q) : list (Z * Q) := [(Qfloor x, (1 - (x - inject_Z (Qfloor x)))%Q); (Qfloor x + 1, (x - inject_Z (Qfloor x))%Q)].

Lemma multilinear_tensor p : forall image, (multilinear image p == tensor image (map floorWeights p))%Q.
Proof.
  induction p as [|x p IH]; intros image; cbn [multilinear map tensor]; [reflexivity|]. cbv zeta. unfold floorWeights at 1. cbn [sm].
  rewrite !IH. ring.
Qed.

Lemma floorM_mirror x : exists m, (m == inject_Z (2 * floorM x + 1) - x)%Q /\ mirrored x m.
Proof.
  exists (inject_Z (2 * floorM x + 1) - x)%Q. split; [reflexivity|]. unfold mirrored. destruct (Qlt_le_dec x 0) as [H|H].
  - rewrite floorM_neg by exact H. destruct (Qeq_bool x (inject_Z (Qfloor x))) eqn:E.
    + apply Qeq_bool_iff in E. left. split; [exact H|]. split; [exact E|]. injZ. lra.
    + right. split; [right; apply Qeq_bool_neq; exact E|]. reflexivity.
  - rewrite floorM_nonneg by exact H. right. split; [left; exact H|]. reflexivity.
Qed.

Lemma mirrored_floorM x m : mirrored x m -> (m == inject_Z (2 * floorM x + 1) - x)%Q.
Proof.
  destruct (floorM_mirror x) as (m' & E & H'). intros H. rewrite <- E. destruct H as [(A & B & C)|[A C]], H' as [(A' & B' & C')|[A' C']].
  - lra.
  - exfalso. destruct A'; [lra|contradiction].
  - exfalso. destruct A; [lra|contradiction].
  - lra.
Qed.

Lemma mirror_weights x m : mirrored x m -> forall F, (sm (linearWeights x) F == sm (floorWeights m) F)%Q.
Proof.
  intros H F. apply mirrored_floorM in H. pose proof (floorM_cell x) as C. unfold linearWeights, floorWeights. cbn [sm].
  set (f := floorM x) in *. destruct (Qlt_le_dec (inject_Z f) x) as [L|L].
  - assert (E : Qfloor m = f) by (apply Qfloor_unique; injZ; lra). rewrite E. rewrite H. injZ. ring.
  - assert (E : Qfloor m = f + 1) by (apply Qfloor_unique; injZ; lra). rewrite E. rewrite H.
    assert (X : (x == inject_Z f)%Q) by (injZ; lra). rewrite X. injZ. ring.
Qed.

Lemma linear_mirror image get p m : p <> [] -> (forall q, Around 1 p q -> get q = Ok (image q)) -> Forall2 mirrored p m ->
  exists v, linearAt get p = Ok v /\ (v == multilinear image m)%Q.
Proof.
  intros N H M. destruct (linear_tensor image get p N H) as (v & E & Ev). exists v. split; [exact E|]. rewrite Ev, multilinear_tensor.
  apply tensor_equiv. clear - M. induction M as [|x y p m Hx M IH]; cbn [map]; constructor; [apply mirror_weights; exact Hx|exact IH].
Qed.

Lemma mirrored_exists p : exists m, Forall2 mirrored p m.
Proof.
  induction p as [|x p (m & IH)]; [exists []; constructor|]. destruct (floorM_mirror x) as (y & _ & H). exists (y :: m). constructor; assumption.
Qed.

Lemma floorWeights_unit x : (sm (floorWeights x) (fun _ => 1) == 1)%Q /\ (sm (floorWeights x) (fun i => inject_Z i) == x)%Q.
Proof. unfold floorWeights. cbn [sm]. injZ. split; ring. Qed.

Lemma linear_affine a s get p m : p <> [] -> (forall q, Around 1 p q -> get q = Ok (affine a s (map inject_Z q))) -> Forall2 mirrored p m ->
  exists v, linearAt get p = Ok v /\ (v == affine a s m)%Q.
Proof.
  intros N H M. destruct (linear_mirror (fun q => affine a s (map inject_Z q)) get p m N H M) as (v & E & Ev). exists v. split; [exact E|].
  rewrite Ev, multilinear_tensor. apply tensor_affine. clear. induction m as [|x m IH]; cbn [map]; constructor; [apply floorWeights_unit|exact IH].
Qed.

Lemma linear_between image get p lo hi : p <> [] -> (forall q, Around 1 p q -> get q = Ok (image q) /\ lo <= image q <= hi)%Q ->
  exists v, linearAt get p = Ok v /\ (lo <= v <= hi)%Q.
Proof.
  intros N H. destruct (linear_tensor image get p N) as (v & E & Ev); [intros q Hq; apply H, Hq|]. exists v. split; [exact E|]. rewrite Ev.
  apply tensor_between.
  - clear. induction p as [|x p IH]; cbn [map]; constructor; [|exact IH]. pose proof (floorM_cell x). unfold linearWeights. injZ. split.
    + repeat apply Forall_cons; cbn [snd]; [lra|lra|apply Forall_nil].
    + cbn [sm]. ring.
  - intros q Hq. apply H, linear_support, Hq.
Qed.

Lemma linear_center image get p : p <> [] -> (forall q, Around 1 p q -> get q = Ok (image q)) ->
  Forall (fun x => x == inject_Z (Qfloor x) + (1 # 2))%Q p -> exists v, linearAt get p = Ok v /\ (v == multilinear image p)%Q.
Proof.
  intros N H C. apply linear_mirror; [exact N|exact H|]. clear - C. induction C as [|x p Hx C IH]; constructor; [|exact IH].
  right. split; [right; intros E; rewrite Hx in E at 1; lra|]. injZ. lra.
Qed.

(** The linear interpolation of reference does what the property says. *)
Lemma multilinear_integral image q : (multilinear image (map inject_Z q) == image q)%Q.
Proof.
  rewrite multilinear_tensor, map_map. rewrite <- (tensor_pick image q). apply tensor_equiv. induction q as [|i q IH]; cbn [map]; constructor; [|exact IH].
  intros F. unfold floorWeights. cbn [sm]. rewrite Qfloor_Z. ring.
Qed.

Lemma linear_refuted_integral : exists image x v, linearAt (fun q => Ok (image q)) [inject_Z x] = Ok v /\ 0 <= x /\ ~ (v == image [x])%Q.
Proof.
  exists (fun q => match q with [i] => inject_Z i | _ => 0%Q end), 1. eexists. split; [vm_compute; reflexivity|]. split; [lia|]. vm_compute. discriminate.
Qed.

Lemma linear_refuted_affine : exists a s x v, linearAt (fun q => Ok (affine a s (map inject_Z q))) [x] = Ok v /\ ~ (v == affine a s [x])%Q.
Proof.
  exists 0%Q, [1%Q], (1 # 4)%Q. eexists. split; [vm_compute; reflexivity|]. vm_compute. discriminate.
Qed.

Lemma linear_refuted_continuous : exists image x v, linearAt (fun q => Ok (image q)) [x] = Ok v /\
  forall e, (0 < e < 1)%Q -> exists w, linearAt (fun q => Ok (image q)) [(x - e)%Q] = Ok w /\ (1 <= v - w)%Q.
Proof.
  pose (image := fun q => match q with [i] => inject_Z i | _ => 0%Q end).
  exists image, 1%Q. eexists. split; [reflexivity|]. intros e He. eexists. split; [reflexivity|].
  assert (F1 : floorM 1 = 1) by reflexivity.
  assert (F : floorM (1 - e) = 0) by (rewrite floorM_nonneg by lra; apply Qfloor_unique; injZ; change (inject_Z 0) with 0%Q; lra).
  rewrite F1, F. unfold linearFormula, image. injZ. change (inject_Z 0) with 0%Q. cbn [Z.add]. lra.
Qed.

(** ** Cubic interpolation *)

Lemma cellCubic_tensor c p : length c = length p -> forall image,
  (cellCubic image c p == tensor image (map (fun fx => cellWeights (fst fx) (snd fx)) (combine c p)))%Q.
Proof.
  revert p. induction c as [|f c IH]; intros [|x p] L image; try discriminate L; [reflexivity|]. cbn [cellCubic combine map tensor fst snd].
  unfold cellWeights at 1. destruct (cubicWeights _) as [[[w0 w1] w2] w3]. cbn [sm]. rewrite !IH by (cbn in L; lia). ring.
Qed.

Lemma weights_glue x f c : (inject_Z f <= x <= inject_Z (f + 1))%Q -> (inject_Z c <= x <= inject_Z (c + 1))%Q ->
  forall F, (sm (cellWeights f x) F == sm (cellWeights c x) F)%Q.
Proof.
  intros Hf Hc F.
  assert (A : f <= c + 1) by (rewrite Zle_Qle; injZ; lra). assert (B : c <= f + 1) by (rewrite Zle_Qle; injZ; lra).
  assert (f = c \/ f = c + 1 \/ c = f + 1) as [->|[->| ->]] by lia; [reflexivity| |]; unfold cellWeights, cubicWeights; cbn [sm].
  - assert (X : (x == inject_Z c + 1)%Q) by (injZ; lra). rewrite X. replace (c + 1 - 1) with c by lia. injZ. field.
  - assert (X : (x == inject_Z f + 1)%Q) by (injZ; lra). rewrite X. replace (f + 1 - 1) with f by lia. injZ. field.
Qed.

Lemma cubic_cell image get p c : p <> [] -> (forall q, Around 2 p q -> get q = Ok (image q)) -> InCell c p ->
  exists v, cubicAt get p = Ok v /\ (v == cellCubic image c p)%Q.
Proof.
  intros N H C. destruct (cubic_tensor image get p N H) as (v & E & Ev). exists v. split; [exact E|].
  rewrite Ev. rewrite cellCubic_tensor by (clear - C; induction C; cbn; lia).
  apply tensor_equiv. clear - C. induction C as [|f x c p Hx C IH]; cbn [map combine]; constructor; [|exact IH].
  apply weights_glue; [apply floorM_cell|exact Hx].
Qed.

Lemma cubic_integral image get z : z <> [] -> (forall q, Around 2 (map inject_Z z) q -> get q = Ok (image q)) ->
  exists v, cubicAt get (map inject_Z z) = Ok v /\ (v == image z)%Q.
Proof.
  intros N H. destruct (cubic_cell image get (map inject_Z z) z) as (v & E & Ev); [destruct z; [congruence|discriminate]|exact H| |].
  - clear. induction z as [|x z IH]; cbn [map]; constructor; [|exact IH]. injZ. lra.
  - exists v. split; [exact E|]. rewrite Ev. rewrite cellCubic_tensor by (rewrite map_length; reflexivity). rewrite <- (tensor_pick image z).
    apply tensor_equiv. clear. induction z as [|x z IH]; cbn [map combine]; constructor; [|exact IH].
    intros F. unfold cellWeights, cubicWeights. cbn [sm fst snd]. field.
Qed.

Lemma cubic_affine a s get p : p <> [] -> (forall q, Around 2 p q -> get q = Ok (affine a s (map inject_Z q))) ->
  exists v, cubicAt get p = Ok v /\ (v == affine a s p)%Q.
Proof.
  intros N H. destruct (cubic_tensor (fun q => affine a s (map inject_Z q)) get p N H) as (v & E & Ev). exists v. split; [exact E|].
  rewrite Ev. apply tensor_affine. clear. induction p as [|x m IH]; cbn [map]; constructor; [|exact IH].
  unfold cellWeights, cubicWeights. cbn [sm]. injZ. split; field.
Qed.

Lemma cubic_glue image get p c c' v : p <> [] -> (forall q, Around 2 p q -> get q = Ok (image q)) -> InCell c p -> InCell c' p ->
  cubicAt get p = Ok v -> (v == cellCubic image c p)%Q /\ (v == cellCubic image c' p)%Q.
Proof.
  intros N H C C' E. destruct (cubic_cell image get p c N H C) as (w & E1 & H1). destruct (cubic_cell image get p c' N H C') as (w' & E2 & H2).
  rewrite E in E1, E2. assert (w = v) by congruence. assert (w' = v) by congruence. subst. split; assumption.
Qed.

(** ** Interpolation of extrapolated rasters *)

Lemma around_length r p q : Around r p q -> length q = length p.
Proof. induction 1; cbn; lia. Qed.

Definition valueOf (get : list Z -> res Q) (q : list Z) : Q := match get q with Ok a => a | _ => 0%Q end.

Lemma interp_total get p d : p <> [] -> length p = d -> (forall q, length q = d -> exists a, get q = Ok a) ->
  (exists v, nearestInterp get p = Ok v) /\ (exists v, linearAt get p = Ok v) /\ (exists v, cubicAt get p = Ok v).
Proof.
  intros N L H. assert (V : forall q, length q = d -> get q = Ok (valueOf get q)).
  { intros q Hq. destruct (H q Hq) as [a E]. unfold valueOf. rewrite E. reflexivity. }
  split; [apply H; rewrite map_length; exact L|]. split.
  - destruct (linear_tensor (valueOf get) get p N) as (v & E & _); [|eauto]. intros q Hq. apply V. rewrite (around_length _ _ _ Hq). exact L.
  - destruct (cubic_tensor (valueOf get) get p N) as (v & E & _); [|eauto]. intros q Hq. apply V. rewrite (around_length _ _ _ Hq). exact L.
Qed.

Lemma interp_extrapolated n value (r : raster Q) p get : WF r -> Positive (rshape r) -> length p = length (rshape r) ->
  In get [constantAt n value r; nearestAt n r; periodicAt n r] ->
  (exists v, nearestInterp get p = Ok v) /\ (exists v, linearAt get p = Ok v) /\ (exists v, cubicAt get p = Ok v).
Proof.
  intros W P L G. apply (interp_total get p (length (rshape r))); [|exact L|].
  - destruct W as (Hne & _). intros ->. destruct (rshape r); [apply Hne; reflexivity|discriminate L].
  - intros q Hq. destruct (extrapolate_defined n value r q W P Hq) as (A & B & C). destruct G as [<-|[<-|[<-|[]]]]; assumption.
Qed.

Lemma nn_refuted : exists z, nearestInterp (@Ok _) [inject_Z z] <> Ok [z].
Proof. exists (-1). vm_compute. discriminate. Qed.
