(** Proofs about correlations between values of different types. *)
From Coq Require Import QArith.
From Verif Require Import Res Lemmas VecModel BoxModel RasterModel SamplingModel LineKernelModel SeparableModel WidthModel WidthSpec TypesModel MixedModel MixedSpec.
From Verif Require Import WidthProofs.
Open Scope Z_scope.

(** ** Simulation of exact correlations *)

Definition rrel {A B} (allow : Prop) (P : A -> B -> Prop) (r : res A) (e : res B) : Prop :=
  match r with Ok a => exists b, e = Ok b /\ P a b | Throw x => e = Throw x | UB => e = UB \/ allow end.
Definition orel {A B} (allow : Prop) (P : A -> B -> Prop) (r : option (res A)) (e : option (res B)) : Prop :=
  match r with Some r => match r with Ok a => exists b, e = Some (Ok b) /\ P a b | Throw x => e = Some (Throw x) | UB => e = Some UB \/ allow end | None => e = None end.

Lemma rrel_bind {A B A' B'} allow (P : A -> B -> Prop) (P' : A' -> B' -> Prop) r e f g :
  rrel allow P r e -> (forall a b, P a b -> rrel allow P' (f a) (g b)) -> rrel allow P' (bind r f) (bind e g).
Proof.
  intros H K. destruct r as [a|x|]; cbn [rrel bind] in *.
  - destruct H as (b & -> & H). cbn [bind]. auto.
  - now subst.
  - destruct H as [->|H]; [left; reflexivity|auto].
Qed.
Lemma orel_bind {A B A' B'} allow (P : A -> B -> Prop) (P' : A' -> B' -> Prop) r e f g :
  orel allow P r e -> (forall a b, P a b -> orel allow P' (f a) (g b)) -> orel allow P' (obind r f) (obind e g).
Proof.
  intros H K. destruct r as [[a|x|]|]; cbn [orel obind] in *.
  - destruct H as (b & -> & H). cbn [obind]. auto.
  - now subst.
  - destruct H as [->|H]; [left; reflexivity|auto].
  - now subst.
Qed.
Lemma orel_same {A B C} allow (P : A -> B -> Prop) (r : option (res C)) f g : (forall c, orel allow P (f c) (g c)) -> orel allow P (obind r f) (obind r g).
Proof. intros H. destruct r as [[c|x|]|]; cbn [obind orel]; auto. Qed.

Lemma forall2_get {A B} (P : A -> B -> Prop) l l' i : Forall2 P l l' -> rrel False P (zget l i) (zget l' i).
Proof.
  intros H. unfold zget. destruct (i <? 0); [now left|]. revert l l' H. induction (Z.to_nat i) as [|n IH].
  all: intros l l' H; destruct H; cbn [nth_error rrel]; eauto.
Qed.
Lemma forall2_replace {A B} (P : A -> B -> Prop) l l' a b : Forall2 P l l' -> P a b -> forall n, Forall2 P (replace l n a) (replace l' n b).
Proof. induction 1; intros Hab [|n]; cbn [replace]; constructor; auto. Qed.
Lemma forall2_len {A B} (P : A -> B -> Prop) l l' : Forall2 P l l' -> length l = length l'.
Proof. induction 1; cbn; lia. Qed.
Lemma forall2_set {A B} (P : A -> B -> Prop) l l' i a b : Forall2 P l l' -> P a b -> rrel False (Forall2 P) (zset l i a) (zset l' i b).
Proof.
  intros H Hab. unfold zset. rewrite (forall2_len _ _ _ H). destruct (_ || _); [now left|]. cbn. eexists. split; [reflexivity|]. now apply forall2_replace.
Qed.
Lemma rrel_weaken {A B} (allow : Prop) (P Q : A -> B -> Prop) r e : (forall a b, P a b -> Q a b) -> rrel False P r e -> rrel allow Q r e.
Proof. intros H. destruct r; cbn; auto; [intros (b & E & K); eauto|tauto]. Qed.

Section Simulation.
Context {X : Type} (step : Z -> Z -> X -> res Z) (allow : Prop) (k : list Z) (RX : X -> Z -> Prop) (R : nat -> Z -> Z -> Prop).
Hypothesis Hzero : R 0 0 0.
Hypothesis Hmono : forall n m a b, (n <= m)%nat -> R n a b -> R m a b.
Hypothesis Hstep : forall n acc acc0 v x y, (n < length k)%nat -> In v k -> RX x y -> R n acc acc0 ->
  match step acc v x with Ok a => R (S n) a (acc0 + v * y) | Throw _ => False | UB => allow end.

Lemma inner_sim mem mem' stride : Forall2 RX mem mem' -> forall n m a b acc acc0, (m <= length k)%nat -> (a < 0 \/ Z.of_nat m <= a) -> R m acc acc0 ->
  rrel allow (R (length k)) (innerLoopT step n k mem a b stride acc) (innerLoop n k mem' a b stride acc0).
Proof.
  intros HM. induction n as [|n IH]; intros m a b acc acc0 Hm Ha HR; cbn [innerLoopT innerLoop].
  - exists acc0. split; [reflexivity|]. now apply (Hmono m).
  - destruct (zget k a) as [v|x|] eqn:Ev; cbn [bind rrel]; auto.
    assert (Ra := zget_range _ _ _ Ev). assert (Iv : In v k) by (apply zget_ok in Ev; destruct Ev as [_ Ev]; now apply nth_error_In in Ev).
    apply (rrel_bind allow RX); [apply (rrel_weaken _ RX); auto; now apply forall2_get|]. intros x y Hxy.
    pose proof (Hstep m acc acc0 v x y ltac:(lia) Iv Hxy HR) as HS. destruct (step acc v x) as [acc'|e|]; cbn [bind rrel]; [|contradiction|auto].
    apply (IH (S m)); auto; lia.
Qed.

Lemma product_sim mem mem' first last b stride : Forall2 RX mem mem' ->
  rrel allow (R (length k)) (innerProductT step k mem first last b stride) (innerProduct k mem' first last b stride 0).
Proof. intros H. unfold innerProductT, innerProduct. destruct (last <? first); [now left|]. apply (inner_sim _ _ _ H _ 0%nat); auto; lia. Qed.

Definition crel (s s' : cstate) : Prop := ci s = ci s' /\ cin s = cin s' /\ cout s = cout s' /\ Forall2 (R (length k)) (cmem s) (cmem s').

Lemma loop_sim cond value value' st istride ostride : (forall i it, rrel allow (R (length k)) (value i it) (value' i it)) ->
  forall fuel s s', crel s s' -> orel allow crel (corrLoop fuel cond value st istride ostride s) (corrLoop fuel cond value' st istride ostride s').
Proof.
  intros HV. induction fuel as [|fuel IH]; intros s s' (E1 & E2 & E3 & HM); cbn [corrLoop]; [reflexivity|].
  rewrite <- E1, <- E2, <- E3. destruct (cond (ci s)).
  - pose proof (HV (ci s) (cin s)) as V. destruct (value (ci s) (cin s)) as [v|x|]; cbn [rrel] in V.
    + destruct V as (v' & -> & V). pose proof (forall2_set _ _ _ (cout s) v v' HM V) as Z. destruct (zset (cmem s) (cout s) v) as [m|x|]; cbn [rrel] in Z.
      * destruct Z as (m' & -> & Z). apply IH. repeat split; cbn [ci cin cout cmem]; auto.
      * now rewrite Z.
      * destruct Z as [->|[]]. now left.
    + now rewrite V.
    + destruct V as [->|V]; [now left|now right].
  - cbn [orel]. exists s'. repeat split; auto.
Qed.

Lemma correlate_sim fuel o mem mem' din mout mout' dout : Forall2 RX mem mem' -> Forall2 (R (length k)) mout mout' ->
  orel allow (Forall2 (R (length k))) (correlateT step fuel (mkLkernel k o) mem din mout dout) (correlate fuel (mkLkernel k o) mem' din mout' dout).
Proof.
  intros HM HO. unfold correlateT, correlate. cbn [lvalues].
  apply (orel_bind allow crel); [apply loop_sim; [intros; now apply product_sim|repeat split; auto]|]. intros s1 s1' H1.
  apply (orel_bind allow crel); [apply loop_sim; [intros; now apply product_sim|auto]|]. intros s2 s2' H2.
  apply (orel_bind allow crel); [apply loop_sim; [intros; now apply product_sim|auto]|]. intros s3 s3' (_ & _ & _ & H3).
  cbn [orel]. eauto.
Qed.

Lemma rows_sim (f g : list Z -> list Z -> option (res (list Z))) ps :
  (forall p out out', Forall2 (R (length k)) out out' -> orel allow (Forall2 (R (length k))) (f out p) (g out' p)) ->
  forall out out', Forall2 (R (length k)) out out' -> orel allow (Forall2 (R (length k))) (eachRow f ps out) (eachRow g ps out').
Proof.
  intros H. induction ps as [|p ps IH]; intros out out' HO; cbn [eachRow].
  - cbn [orel]. eauto.
  - apply (orel_bind allow (Forall2 (R (length k)))); auto.
Qed.

Definition rastersRel (P : Z -> Z -> Prop) (r r' : raster Z) : Prop := rshape r = rshape r' /\ Forall2 P (rdata r) (rdata r').

Lemma zeros_sim n : Forall2 (R (length k)) (repeat 0 n) (repeat 0 n).
Proof. induction n; cbn; constructor; auto. apply (Hmono 0); auto; lia. Qed.

Lemma along_sim fuel n o axis (r : raster X) r' : rshape r = rshape r' -> Forall2 RX (rdata r) (rdata r') ->
  orel allow (rastersRel (R (length k))) (correlateAlongT step fuel n (mkLkernel k o) axis r) (correlateAlong fuel n (mkLkernel k o) axis r').
Proof.
  intros ES HD. unfold correlateAlongT, correlateAlong. rewrite ES.
  apply orel_same. intros len. apply orel_same. intros domain. apply orel_same. intros ps.
  apply (orel_bind allow (Forall2 (R (length k)))); [|intros out out' HO; cbn; eexists; split; [reflexivity|now split]].
  apply rows_sim; [|apply zeros_sim]. intros p out out' HO. apply orel_same. intros a. apply correlate_sim; auto.
Qed.
End Simulation.

(** ** Types *)

Lemma common_bits t u : ibits (promoted t) <= ibits (common t u) /\ ibits (promoted u) <= ibits (common t u).
Proof. unfold common. cbv zeta. destruct (Z.eqb_spec (ibits (promoted t)) (ibits (promoted u))); cbn [ibits]; [lia|]. destruct (Z.ltb_spec (ibits (promoted t)) (ibits (promoted u))); lia. Qed.
Lemma promoted_bits t : ibits t <= ibits (promoted t).
Proof. unfold promoted. destruct (Z.ltb_spec (ibits t) 32); cbn; lia. Qed.
Lemma promoted_min t : 32 <= ibits (promoted t).
Proof. unfold promoted. destruct (Z.ltb_spec (ibits t) 32); cbn; lia. Qed.
Lemma common_wf t u : Wf (common t u).
Proof. right. pose proof (common_bits t u). pose proof (promoted_min t). lia. Qed.

(** If the common type is signed, it has the values of both types. *)
Lemma common_signed t u z : Wf t -> Wf u -> isigned (common t u) = true -> InType t z \/ InType u z -> InType (common t u) z.
Proof.
  intros Wt Wu S H. assert (G : InType (promoted t) z \/ InType (promoted u) z) by (destruct H; [left|right]; now apply promoted_incl).
  clear H. pose proof (promoted_min t) as Pt. pose proof (promoted_min u) as Pu. unfold common in *. set (t' := promoted t) in *. set (u' := promoted u) in *. clearbody t' u'. cbv zeta in *.
  assert (I : forall a b : itype, 32 <= ibits a -> ibits a < ibits b -> isigned b = true -> InType a z -> InType b z).
  { intros a b A L B. unfold InType, itmin, itmax. rewrite B. pose proof (pow_le (ibits a) (ibits b - 1) ltac:(lia)). pose proof (Z.pow_pos_nonneg 2 (ibits a) ltac:(lia) ltac:(lia)).
    pose proof (pow_le (ibits a - 1) (ibits a) ltac:(lia)). destruct (isigned a); lia. }
  destruct (Z.eqb_spec (ibits t') (ibits u')) as [E|E].
  - cbn [isigned] in S. apply andb_prop in S. destruct S as [S1 S2]. unfold InType, itmin, itmax in *. cbn [isigned ibits]. rewrite S1, S2 in *. cbn [andb]. rewrite <- E in G. tauto.
  - destruct (Z.ltb_spec (ibits t') (ibits u')); destruct G as [G|G]; auto; eapply I; try apply G; auto; lia.
Qed.

Lemma arith_spec c z : Wf c -> match arith c z with Ok w => exists j, w = z + j * 2 ^ ibits c | Throw _ => False | UB => isigned c = true /\ ~ InType c z end.
Proof.
  intros W. unfold arith. destruct (isigned c) eqn:S.
  - destruct (fits c z) eqn:F; [exists 0; lia|]. split; [reflexivity|]. intros I. apply fits_spec in I. congruence.
  - destruct (convert_wrapped c z W) as [_ H]. exact H.
Qed.

Lemma pow_split a b : 0 <= a <= b -> exists q, 2 ^ b = q * 2 ^ a.
Proof. intros H. exists (2 ^ (b - a)). rewrite <- Z.pow_add_r by lia. f_equal. lia. Qed.

Definition Cong (t : itype) (a b : Z) : Prop := exists j, a = b + j * 2 ^ ibits t.

Lemma step_wraps t tin acc acc0 v x y : Wf t -> Cong t acc acc0 -> Cong t x y ->
  match innerStep t tin acc v x with Ok a => Wrapped t (acc0 + v * y) a | Throw _ => False | UB => True end.
Proof.
  intros W [ja Ha] [jx Hx]. unfold innerStep. cbv zeta. set (c := common t tin). assert (Wc : Wf c) by apply common_wf.
  assert (Q : exists q, 2 ^ ibits c = q * 2 ^ ibits t).
  { apply pow_split. pose proof (common_bits t tin). pose proof (promoted_bits t). fold c in H. unfold Wf in W. lia. }
  destruct Q as [q Q].
  pose proof (arith_spec c (convert c v * convert c x) Wc) as A. destruct (arith c (convert c v * convert c x)) as [p|e|]; cbn [bind]; auto.
  destruct A as [jp Hp]. pose proof (arith_spec c (convert c acc + p) Wc) as A. destruct (arith c (convert c acc + p)) as [s|e|]; cbn [bind]; auto.
  destruct A as [js Hs].
  destruct (convert_wrapped c v Wc) as [_ [k1 E1]]. destruct (convert_wrapped c x Wc) as [_ [k2 E2]]. destruct (convert_wrapped c acc Wc) as [_ [k3 E3]].
  destruct (convert_wrapped t s W) as [I [k4 E4]]. split; [exact I|].
  rewrite E4, Hs, Hp, E1, E2, E3, Q, Ha, Hx. set (P := 2 ^ ibits t).
  exists (ja + k3 * q + v * jx + v * k2 * q + k1 * q * y + k1 * q * jx * P + k1 * q * k2 * q * P + jp * q + js * q + k4). ring.
Qed.

Lemma step_defined t tin acc v x n m K M : Wf t -> Wf tin -> 0 <= K -> 0 <= M -> 0 <= n < m -> NoOverflow t tin m K M -> InType t acc ->
  (isigned t = true -> m * (K * M) <= itmax t -> Z.abs acc <= n * (K * M)) ->
  InType t v -> Z.abs v <= K -> InType tin x -> Z.abs x <= M ->
  exists a, innerStep t tin acc v x = Ok a /\ (isigned t = true -> m * (K * M) <= itmax t -> Z.abs a <= (n + 1) * (K * M)).
Proof.
  intros W Wi HK HM Hn HN HA Habs HV HVK HX HXM. unfold innerStep. cbv zeta. set (c := common t tin). assert (Wc : Wf c) by apply common_wf.
  assert (HP : Z.abs (v * x) <= K * M) by (rewrite Z.abs_mul; apply Z.mul_le_mono_nonneg; lia).
  assert (KM : 0 <= K * M) by lia.
  destruct (half t W) as [Et Pt].
  assert (SB : isigned t = true -> m * (K * M) <= itmax t -> Z.abs (acc + v * x) <= (n + 1) * (K * M) /\ InType t (acc + v * x) /\ InType t (v * x)).
  { intros S B. specialize (Habs S B). assert ((n + 1) * (K * M) <= m * (K * M)) by (apply Z.mul_le_mono_nonneg_r; lia).
    assert (Z.abs (acc + v * x) <= (n + 1) * (K * M)) by lia. split; [auto|]. assert (1 * (K * M) <= m * (K * M)) by (apply Z.mul_le_mono_nonneg_r; lia).
    unfold InType, itmin, itmax in *. rewrite S in *. lia. }
  destruct (isigned c) eqn:S.
  - assert (Cv : InType c v) by (apply common_signed; auto). assert (Cx : InType c x) by (apply common_signed; auto). assert (Ca : InType c acc) by (apply common_signed; auto).
    rewrite (convert_id c v), (convert_id c x), (convert_id c acc) by auto. unfold arith. rewrite S.
    assert (D : InType c (v * x) /\ InType c (acc + v * x)).
    { destruct HN as [N|[[St N]|N]].
      - fold c in N. congruence.
      - destruct (SB St N) as (_ & B1 & B2). split; apply common_signed; auto.
      - fold c in N. destruct (half c Wc) as [Ec Pc]. unfold InType, itmin, itmax in *. rewrite S in *. destruct (isigned t); lia. }
    destruct D as [D1 D2]. rewrite (proj2 (fits_spec _ _) D1). cbn [bind]. rewrite (proj2 (fits_spec _ _) D2). cbn [bind].
    eexists. split; [reflexivity|]. intros St B. destruct (SB St B) as (B0 & B1 & _). rewrite convert_id; auto.
  - unfold arith. rewrite S. cbn [bind]. eexists. split; [reflexivity|]. intros St B. destruct (SB St B) as (B0 & B1 & _).
    pose proof (step_wraps t tin acc acc v x x W) as SW. unfold innerStep in SW. cbv zeta in SW. fold c in SW. unfold arith in SW. rewrite S in SW. cbn [bind] in SW.
    rewrite (in_type_wrapped t (acc + v * x) _ W B1 (SW ltac:(exists 0; lia) ltac:(exists 0; lia))). exact B0.
Qed.

(** ** Integers *)

Lemma orel_true {A B} (P : A -> B -> Prop) r e a : orel True P r e -> r = Some (Ok a) -> exists b, e = Some (Ok b) /\ P a b.
Proof. intros H ->. exact H. Qed.
Lemma orel_false {A B} (P : A -> B -> Prop) r e b : orel False P r e -> e = Some (Ok b) -> exists a, r = Some (Ok a) /\ P a b.
Proof.
  intros H ->. destruct r as [[a|x|]|]; cbn [orel] in H; try discriminate.
  - destruct H as (b' & E & H). injection E as <-. eauto.
  - destruct H as [H|[]]. discriminate.
Qed.

Lemma wrapped_zero t : Wf t -> Wrapped t 0 0.
Proof. intros W. split; [apply in01; auto|exists 0; lia]. Qed.

Lemma along_wraps_rel t tin fuel n k axis r r' : Wf t -> rshape r = rshape r' -> Forall2 (Cong t) (rdata r) (rdata r') ->
  orel True (rastersRel (fun a b => Wrapped t b a)) (correlateAlongT (innerStep t tin) fuel n k axis r) (correlateAlong fuel n k axis r').
Proof.
  intros W ES HD. destruct k as [k o].
  apply (along_sim (innerStep t tin) True k (Cong t) (fun _ a b => Wrapped t b a)); auto.
  - now apply wrapped_zero.
  - intros m acc acc0 v x y _ _ HX HW. apply step_wraps; auto. destruct HW as [_ HW]. exact HW.
Qed.

Lemma cong_refl t l : Forall2 (Cong t) l l.
Proof. induction l; constructor; auto. exists 0. lia. Qed.

Lemma forall2_weaken {A B} (P Q : A -> B -> Prop) l l' : (forall a b, P a b -> Q a b) -> Forall2 P l l' -> Forall2 Q l l'.
Proof. intros H. induction 1; constructor; auto. Qed.
Lemma forall2_flip {A B} (P : A -> B -> Prop) l l' : Forall2 (fun a b => P b a) l l' -> Forall2 P l' l.
Proof. induction 1; constructor; auto. Qed.

Lemma along_wraps t tin fuel n k axis r out : Wf t -> correlateAlongT (innerStep t tin) fuel n k axis r = Some (Ok out) ->
  exists exact, correlateAlong fuel n k axis r = Some (Ok (mkRaster (rshape out) exact)) /\ Forall2 (Wrapped t) exact (rdata out).
Proof.
  intros W H. destruct (orel_true _ _ _ _ (along_wraps_rel t tin fuel n k axis r r W eq_refl (cong_refl t _)) H) as (e & E & ES & HF).
  exists (rdata e). rewrite ES. split; [destruct e; exact E|]. now apply forall2_flip.
Qed.

Lemma seq_wraps t fuel n m axes : Wf t -> forall r r', rshape r = rshape r' -> Forall2 (fun a b => Wrapped t b a) (rdata r) (rdata r') ->
  orel True (rastersRel (fun a b => Wrapped t b a)) (correlateSeqT t fuel n m axes r) (correlateSeq fuel n m axes r').
Proof.
  intros W. induction axes as [|axis axes IH]; intros r r' ES HD; cbn [correlateSeqT correlateSeq].
  - cbn. exists r'. repeat split; auto.
  - apply orel_same. intros k. apply (orel_bind True (rastersRel (fun a b => Wrapped t b a))).
    + apply along_wraps_rel; auto. apply (forall2_weaken (fun a b => Wrapped t b a)); auto. intros a b [_ H]. exact H.
    + intros a b [E H]. now apply IH.
Qed.

Lemma separable_wraps t tin fuel n s r out : Wf t -> sapplyT (innerStep t tin) t fuel n s r = Some (Ok out) ->
  exists exact, sapply fuel n s r = Some (Ok (mkRaster (rshape out) exact)) /\ Forall2 (Wrapped t) exact (rdata out).
Proof.
  intros W H. unfold sapply. unfold sapplyT in H. destruct (saxes s) as [|axis axes]; [discriminate|]. cbn [correlateSeq].
  assert (G : orel True (rastersRel (fun a b => Wrapped t b a))
    (obind (lift (mapAt (smap s) axis)) (fun k => obind (correlateAlongT (innerStep t tin) fuel n k axis r) (correlateSeqT t fuel n (smap s) axes)))
    (obind (lift (mapAt (smap s) axis)) (fun k => obind (correlateAlong fuel n k axis r) (correlateSeq fuel n (smap s) axes)))).
  { apply orel_same. intros k. apply (orel_bind True (rastersRel (fun a b => Wrapped t b a))).
    - apply along_wraps_rel; auto. apply cong_refl.
    - intros a b [E HF]. now apply seq_wraps. }
  destruct (orel_true _ _ _ _ G H) as (e & E & ES & HF). exists (rdata e). rewrite ES. split; [destruct e; exact E|]. now apply forall2_flip.
Qed.

Lemma wrapped_exact t exact out : Wf t -> Forall2 (Wrapped t) exact out -> Forall (InType t) exact -> out = exact.
Proof. intros W. induction 1; intros HF; inversion HF; subst; auto. f_equal; auto. now apply (in_type_wrapped t). Qed.

Lemma separable_exact t tin fuel n s r out shape exact : Wf t -> sapplyT (innerStep t tin) t fuel n s r = Some (Ok out) ->
  sapply fuel n s r = Some (Ok (mkRaster shape exact)) -> Forall (InType t) exact -> out = mkRaster shape exact.
Proof.
  intros W H E F. destruct (separable_wraps _ _ _ _ _ _ _ W H) as (e & E' & HF). rewrite E' in E. injection E as E1 E2. subst.
  destruct out as [sh data]. cbn [rdata rshape] in *. f_equal. now apply (wrapped_exact t).
Qed.

Lemma along_defined t tin K M fuel n k axis r out : Wf t -> Wf tin -> 0 <= K -> 0 <= M -> KernelValues t K k -> PixelValues tin M (rdata r) ->
  NoOverflow t tin (lsize k) K M -> correlateAlong fuel n k axis r = Some (Ok out) ->
  exists data, correlateAlongT (innerStep t tin) fuel n k axis r = Some (Ok (mkRaster (rshape out) data)) /\ Forall2 (Wrapped t) (rdata out) data.
Proof.
  intros W Wi HK HM HV HP HN H. destruct k as [k o]. unfold KernelValues, lsize in *. cbn [lvalues] in *.
  set (R := fun (m : nat) (a b : Z) => Wrapped t b a /\ (isigned t = true -> Z.of_nat (length k) * (K * M) <= itmax t -> Z.abs a <= Z.of_nat m * (K * M))).
  assert (G : orel False (rastersRel (R (length k))) (correlateAlongT (innerStep t tin) fuel n (mkLkernel k o) axis r) (correlateAlong fuel n (mkLkernel k o) axis r)).
  { apply (along_sim (innerStep t tin) False k (fun x y => x = y /\ InType tin x /\ Z.abs x <= M) R); auto.
    - split; [now apply wrapped_zero|]. intros; lia.
    - intros p q a b Hpq [H1 H2]. split; [auto|]. intros S B. specialize (H2 S B). assert (Z.of_nat p * (K * M) <= Z.of_nat q * (K * M)) by (apply Z.mul_le_mono_nonneg_r; lia). lia.
    - intros p acc acc0 v x y Hp Hv (<- & X1 & X2) [R1 R2]. rewrite Forall_forall in HV. destruct (HV v Hv) as [V1 V2].
      destruct (step_defined t tin acc v x (Z.of_nat p) (Z.of_nat (length k)) K M) as (a & E & B); auto; try lia. { apply R1. }
      pose proof (step_wraps t tin acc acc0 v x x W (proj2 R1) ltac:(exists 0; lia)) as SW. rewrite E in *. split; [exact SW|]. intros S B'. specialize (B S B').
      replace (Z.of_nat (Datatypes.S p)) with (Z.of_nat p + 1) by lia. exact B.
    - induction HP; constructor; auto. }
  destruct (orel_false _ _ _ _ G H) as (a & E & ES & HF). exists (rdata a). rewrite <- ES. split; [destruct a; exact E|].
  apply forall2_flip. apply (forall2_weaken (R (length k))); auto. intros x y [Y _]. exact Y.
Qed.

(** ** Floating-point pixels *)

Lemma qtrunc_num acc v y d x : (x == y # d)%Q -> qtrunc (inject_Z acc + inject_Z v * x) = Z.quot (acc * Zpos d + v * y) (Zpos d).
Proof.
  intros H. assert (E : (inject_Z acc + inject_Z v * x == (acc * Zpos d + v * y) # d)%Q).
  { rewrite H. unfold Qeq, Qplus, Qmult, inject_Z. cbn [Qnum Qden]. lia. }
  set (q := (inject_Z acc + inject_Z v * x)%Q) in *. clearbody q. unfold qtrunc. unfold Qeq in E. cbn [Qnum Qden] in E.
  assert (A : Z.quot (Qnum q) (Zpos (Qden q)) = Z.quot (Zpos d * Qnum q) (Zpos d * Zpos (Qden q))) by (symmetry; apply Z.quot_mul_cancel_l; lia).
  assert (B : Z.quot (acc * Zpos d + v * y) (Zpos d) = Z.quot (Zpos (Qden q) * (acc * Zpos d + v * y)) (Zpos (Qden q) * Zpos d)) by (symmetry; apply Z.quot_mul_cancel_l; lia).
  rewrite A, B. f_equal; lia.
Qed.

Lemma quot_near a d : 0 < d -> Z.abs (d * Z.quot a d - a) <= d - 1.
Proof. intros H. pose proof (Z.quot_rem' a d). pose proof (Z.rem_bound_abs a d ltac:(lia)). lia. Qed.

Lemma along_floating t d fuel n k axis shape data ys out : Multiples d data ys ->
  correlateAlongT (innerStepQ t) fuel n k axis (mkRaster shape data) = Some (Ok out) ->
  exists exact, correlateAlong fuel n k axis (mkRaster shape ys) = Some (Ok (mkRaster (rshape out) exact)) /\
    Forall2 (fun e v => Z.abs (Zpos d * v - e) <= lsize k * (Zpos d - 1)) exact (rdata out).
Proof.
  intros HM H. destruct k as [k o]. set (R := fun (m : nat) (a b : Z) => Z.abs (Zpos d * a - b) <= Z.of_nat m * (Zpos d - 1)).
  assert (G : orel True (rastersRel (R (length k))) (correlateAlongT (innerStepQ t) fuel n (mkLkernel k o) axis (mkRaster shape data)) (correlateAlong fuel n (mkLkernel k o) axis (mkRaster shape ys))).
  { apply (along_sim (innerStepQ t) True k (fun x y => x == y # d)%Q R); auto.
    - unfold R. lia.
    - intros p q a b Hpq HR. unfold R in *. assert (Z.of_nat p * (Zpos d - 1) <= Z.of_nat q * (Zpos d - 1)) by (apply Z.mul_le_mono_nonneg_r; lia). lia.
    - intros p acc acc0 v x y _ _ HX HR. unfold innerStepQ, scalarOf. rewrite (qtrunc_num acc v y d x HX). destruct (fits t _); [|exact I].
      unfold R in *. pose proof (quot_near (acc * Zpos d + v * y) (Zpos d) ltac:(lia)). rewrite Nat2Z.inj_succ. lia. }
  destruct (orel_true _ _ _ _ G H) as (e & E & ES & HF). exists (rdata e). rewrite ES. split; [destruct e; exact E|]. apply forall2_flip. exact HF.
Qed.

Lemma separable_floating_integral t fuel n s shape data ys out : Wf t -> Multiples 1 data ys ->
  sapplyT (innerStepQ t) t fuel n s (mkRaster shape data) = Some (Ok out) ->
  exists exact, sapply fuel n s (mkRaster shape ys) = Some (Ok (mkRaster (rshape out) exact)) /\ Forall2 (Wrapped t) exact (rdata out).
Proof.
  intros W HM H. unfold sapply. unfold sapplyT in H. destruct (saxes s) as [|axis axes]; [discriminate|]. cbn [correlateSeq].
  assert (G : orel True (rastersRel (fun a b => Wrapped t b a))
    (obind (lift (mapAt (smap s) axis)) (fun k => obind (correlateAlongT (innerStepQ t) fuel n k axis (mkRaster shape data)) (correlateSeqT t fuel n (smap s) axes)))
    (obind (lift (mapAt (smap s) axis)) (fun k => obind (correlateAlong fuel n k axis (mkRaster shape ys)) (correlateSeq fuel n (smap s) axes)))).
  { apply orel_same. intros [k o]. apply (orel_bind True (rastersRel (fun a b => a = b /\ InType t a))).
    - apply (along_sim (innerStepQ t) True k (fun x y => x == y # 1)%Q (fun _ a b => a = b /\ InType t a)); auto.
      + split; [reflexivity|]. apply in01; auto.
      + intros p acc acc0 v x y _ _ HX [-> HI]. unfold innerStepQ, scalarOf. rewrite (qtrunc_num acc0 v y 1 x HX). rewrite Z.mul_1_r, Z.quot_1_r.
        destruct (fits t _) eqn:F; [|exact I]. split; [reflexivity|]. now apply fits_spec.
    - intros a b [E HF]. apply seq_wraps; auto. apply (forall2_weaken (fun a b => a = b /\ InType t a)); auto. intros x y [-> I]. split; [auto|exists 0; lia]. }
  destruct (orel_true _ _ _ _ G H) as (e & E & ES & HF). exists (rdata e). rewrite ES. split; [destruct e; exact E|]. now apply forall2_flip.
Qed.

Lemma along_floating_defined t d K M fuel n k axis shape data ys out : Wf t -> isigned t = true -> 0 <= K -> 0 <= M -> KernelValues t K k ->
  Multiples d data ys -> Forall (fun y => Z.abs y <= M * Zpos d) ys -> lsize k * (K * M) <= itmax t ->
  correlateAlong fuel n k axis (mkRaster shape ys) = Some (Ok out) ->
  exists data', correlateAlongT (innerStepQ t) fuel n k axis (mkRaster shape data) = Some (Ok (mkRaster (rshape out) data')).
Proof.
  intros W St HK HM HV HD HY HN H. destruct k as [k o]. unfold KernelValues, lsize in *. cbn [lvalues] in *.
  set (R := fun (m : nat) (a b : Z) => Z.abs a <= Z.of_nat m * (K * M)).
  assert (KM : 0 <= K * M) by lia.
  assert (G : orel False (rastersRel (R (length k))) (correlateAlongT (innerStepQ t) fuel n (mkLkernel k o) axis (mkRaster shape data)) (correlateAlong fuel n (mkLkernel k o) axis (mkRaster shape ys))).
  { apply (along_sim (innerStepQ t) False k (fun x y => (x == y # d)%Q /\ Z.abs y <= M * Zpos d) R); auto.
    - unfold R. lia.
    - intros p q a b Hpq HR. unfold R in *. assert (Z.of_nat p * (K * M) <= Z.of_nat q * (K * M)) by (apply Z.mul_le_mono_nonneg_r; lia). lia.
    - intros p acc acc0 v x y Hp Hv [HX HB] HR. unfold innerStepQ, scalarOf. rewrite (qtrunc_num acc v y d x HX). rewrite Forall_forall in HV. destruct (HV v Hv) as [V1 V2].
      assert (B : Z.abs (Z.quot (acc * Zpos d + v * y) (Zpos d)) <= Z.of_nat (S p) * (K * M)).
      { rewrite Nat2Z.inj_succ. unfold R in HR. assert (B1 : Z.abs (v * y) <= K * (M * Zpos d)) by (rewrite Z.abs_mul; apply Z.mul_le_mono_nonneg; lia).
        assert (B2 : Z.abs (acc * Zpos d) <= Z.of_nat p * (K * M) * Zpos d) by (rewrite Z.abs_mul; apply Z.mul_le_mono_nonneg; lia).
        set (N := acc * Zpos d + v * y) in *. assert (B3 : Z.abs N <= Z.succ (Z.of_nat p) * (K * M) * Zpos d) by lia.
        rewrite <- Z.quot_abs by lia. cbn [Z.abs]. apply Z.quot_le_upper_bound; lia. }
      assert (L : Z.of_nat (S p) * (K * M) <= Z.of_nat (length k) * (K * M)) by (apply Z.mul_le_mono_nonneg_r; lia).
      destruct (half t W) as [Et Pt].
      rewrite (proj2 (fits_spec _ _)); [exact B|]. unfold InType, itmin, itmax in *. rewrite St in *. lia.
    - cbn [rdata]. clear H. induction HD; inversion HY; subst; constructor; auto. }
  destruct (orel_false _ _ _ _ G H) as (a & E & ES & HF). exists (rdata a). rewrite <- ES. destruct a; exact E.
Qed.

Definition u8 : itype := mkItype false 8.
Definition u16 : itype := mkItype false 16.

Lemma wrap_refuted : ~ (forall t tin fuel n s r out exact, Wf t -> Wf tin -> Forall (fun ik => Forall (InType t) (lvalues (snd ik))) (smap s) -> Forall (InType tin) (rdata r) ->
  sapplyT (innerStep t tin) t fuel n s r = Some (Ok out) -> sapply fuel n s r = Some (Ok exact) -> out = exact).
Proof.
  intros H. specialize (H u8 u8 10%nat 1 (salong (mkLkernel [1; 1; 1] 1) [0]) (mkRaster [3] [100; 100; 100])).
  assert (E := H (mkRaster [3] [200; 44; 200]) (mkRaster [3] [200; 300; 200])). cbn in E. discriminate E.
  - left. cbn. lia.
  - left. cbn. lia.
  - repeat constructor; cbn; lia.
  - repeat constructor; cbn; lia.
  - reflexivity.
  - reflexivity.
Qed.

Lemma overflow_refuted : ~ (forall t tin fuel n s r exact, Wf t -> Wf tin -> Forall (fun ik => Forall (InType t) (lvalues (snd ik))) (smap s) -> Forall (InType tin) (rdata r) ->
  isigned t = false -> isigned tin = false -> sapply fuel n s r = Some (Ok exact) -> exists out, sapplyT (innerStep t tin) t fuel n s r = Some (Ok out)).
Proof.
  intros H. specialize (H u16 u16 10%nat 1 (salong (mkLkernel [65535] 0) [0]) (mkRaster [1] [65535])).
  assert (E := H (mkRaster [1] [4294836225])). destruct E as [out E].
  - left. cbn. lia.
  - left. cbn. lia.
  - repeat constructor; cbn; lia.
  - repeat constructor; cbn; lia.
  - reflexivity.
  - reflexivity.
  - reflexivity.
  - vm_compute in E. discriminate E.
Qed.

Lemma floating_refuted : ~ (forall t d fuel n k axis shape data ys out exact, Wf t -> Forall (InType t) (lvalues k) -> Multiples d data ys ->
  correlateAlongT (innerStepQ t) fuel n k axis (mkRaster shape data) = Some (Ok out) -> correlateAlong fuel n k axis (mkRaster shape ys) = Some (Ok exact) ->
  Forall2 (fun e v => v = Z.quot e (Zpos d)) (rdata exact) (rdata out)).
Proof.
  intros H. specialize (H int32 2%positive 10%nat 1 (mkLkernel [1; 1; 1] 1) 0 [3] [1 # 2; 1 # 2; 1 # 2]%Q [1; 1; 1] (mkRaster [3] [0; 0; 0]) (mkRaster [3] [2; 3; 2])).
  assert (E : Forall2 (fun e v => v = Z.quot e 2) [2; 3; 2] [0; 0; 0]).
  { apply H; [right; cbn; lia|repeat constructor; cbn; lia|repeat constructor|reflexivity|reflexivity]. }
  inversion E as [|a b l l' E1 E2]. discriminate E1.
Qed.
