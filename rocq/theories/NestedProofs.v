(** Lazy pipelines whose steps use the pipeline themselves. *)
From Coq Require Import QArith.
From Verif Require Import Res PipelineModel PipelineSpec PipelineProofs NestedModel NestedSpec.
Open Scope Z_scope.

Definition endOf (e : event) : list (nat * Q) := match e with Ended s (Some q) => [(s, q)] | _ => [] end.
Definition ends (l : list event) : list (nat * Q) := flat_map endOf l.
Definition EHas (l : list event) (s : nat) : Prop := exists q, In (Ended s (Some q)) l.

Definition turn (s : nat) (o : bool) (e : event) : bool :=
  match e with Began t => if Nat.eqb s t then true else o | Ended t _ => if Nat.eqb s t then false else o | Cleared => o end.
Definition opened (s : nat) (l : list event) : bool := fold_left (turn s) l false.

Lemma ends_app l m : ends (l ++ m) = ends l ++ ends m.
Proof. unfold ends. apply flat_map_app. Qed.

Lemma ends_in l s q : In (s, q) (ends l) <-> In (Ended s (Some q)) l.
Proof.
  unfold ends. rewrite in_flat_map. split.
  - intros (e & Hi & H). destruct e as [t|t [r|]|]; cbn [endOf] in H; try destruct H as [H|[]]; try (destruct H; fail). congruence.
  - intros H. exists (Ended s (Some q)). split; [exact H|]. left. reflexivity.
Qed.

Lemma opened_app s l m : opened s (l ++ m) = fold_left (turn s) m (opened s l).
Proof. unfold opened. apply fold_left_app. Qed.

Lemma turn_other s m : (forall e, In e m -> stepOf e <> Some s) -> forall o, fold_left (turn s) m o = o.
Proof.
  induction m as [|e m IH]; intros H o; cbn [fold_left]; [reflexivity|]. rewrite IH; [|intros e' He; apply H; right; exact He].
  specialize (H e (or_introl eq_refl)). destruct e as [t|t o'|]; cbn [turn stepOf] in *; try reflexivity; destruct (Nat.eqb_spec s t); congruence.
Qed.

Lemma opened_other s l m : (forall e, In e m -> stepOf e <> Some s) -> opened s (l ++ m) = opened s l.
Proof. intros H. rewrite opened_app. apply turn_other, H. Qed.

Lemma closed_ended s l : opened s l = false -> forall a b, l = a ++ Began s :: b -> exists o, In (Ended s o) b.
Proof.
  induction l as [|e l IH] using rev_ind; intros H a b E; [destruct a; discriminate|].
  apply snoc_split in E. destruct E as [(-> & -> & _)|(b' & -> & ->)].
  - exfalso. rewrite opened_app in H. cbn [fold_left turn] in H. rewrite Nat.eqb_refl in H. discriminate.
  - rewrite opened_app in H. cbn [fold_left] in H. destruct e as [t|t o|]; cbn [turn] in H.
    + destruct (Nat.eqb s t); [discriminate|]. destruct (IH H a b' eq_refl) as [o Ho]. exists o. apply in_or_app. left. exact Ho.
    + destruct (Nat.eqb_spec s t) as [->|_]; [exists o; apply in_or_app; right; left; reflexivity|].
      destruct (IH H a b' eq_refl) as [o' Ho]. exists o'. apply in_or_app. left. exact Ho.
    + destruct (IH H a b' eq_refl) as [o Ho]. exists o. apply in_or_app. left. exact Ho.
Qed.

Lemma opened_began s l : opened s l = true -> exists a b, l = a ++ Began s :: b /\ forall o, ~ In (Ended s o) b.
Proof.
  induction l as [|e l IH] using rev_ind; intros H; [discriminate|]. rewrite opened_app in H. cbn [fold_left] in H.
  assert (K : opened s l = true -> (forall o, e <> Ended s o) -> exists a b, l ++ [e] = a ++ Began s :: b /\ forall o, ~ In (Ended s o) b).
  { intros Ho He. destruct (IH Ho) as (a & b & -> & N). exists a, (b ++ [e]). split; [rewrite <- app_assoc; reflexivity|].
    intros o Hi. apply in_app_or in Hi. destruct Hi as [Hi|[Hi|[]]]; [exact (N o Hi)|exact (He o Hi)]. }
  destruct e as [t|t o|]; cbn [turn] in H.
  - destruct (Nat.eqb_spec s t) as [<-|_]; [|apply K; [exact H|discriminate]]. exists l, []. split; [reflexivity|]. intros o [].
  - destruct (Nat.eqb_spec s t) as [<-|n]; [discriminate|]. apply K; [exact H|]. intros o' E. congruence.
  - apply K; [exact H|discriminate].
Qed.

Lemma began_twice l s t a b c : l ++ [Began s] = a ++ Began t :: b ++ Began t :: c ->
  (c = [] /\ t = s /\ l = a ++ Began s :: b) \/ exists c', c = c' ++ [Began s] /\ l = a ++ Began t :: b ++ Began t :: c'.
Proof.
  intros E. change (a ++ Began t :: b ++ Began t :: c) with (a ++ (Began t :: b) ++ Began t :: c) in E. rewrite app_assoc in E.
  apply snoc_split in E. destruct E as [(-> & E & ->)|(c' & -> & ->)].
  - left. assert (t = s) by congruence. subst t. auto.
  - right. exists c'. split; [reflexivity|]. rewrite <- app_assoc. reflexivity.
Qed.

Lemma retried_began l s : Retried l -> opened s l = false -> ~ EHas l s -> Retried (l ++ [Began s]).
Proof.
  intros R C N a t b c E. apply began_twice in E. destruct E as [(-> & -> & ->)|(c' & _ & ->)]; [|exact (R a t b c' eq_refl)].
  assert (M : forall q, ~ In (Ended s (Some q)) b).
  { intros q Hi. apply N. exists q. apply in_or_app. right. right. exact Hi. }
  split; [|exact M]. destruct (closed_ended s _ C a b eq_refl) as [[q|] Ho]; [exfalso; exact (M q Ho)|exact Ho].
Qed.

Lemma retried_ended l s o : Retried l -> Retried (l ++ [Ended s o]).
Proof.
  intros R a t b c E. change (a ++ Began t :: b ++ Began t :: c) with (a ++ (Began t :: b) ++ Began t :: c) in E. rewrite app_assoc in E.
  apply snoc_split in E. destruct E as [(_ & E & _)|(c' & _ & ->)]; [discriminate|]. apply (R a t b c'). rewrite <- app_assoc. reflexivity.
Qed.

Lemma bracketed_began l s : Bracketed l -> Bracketed (l ++ [Began s]).
Proof.
  intros B a t o c E. apply snoc_split in E. destruct E as [(_ & E & _)|(c' & _ & ->)]; [discriminate|]. exact (B a t o c' eq_refl).
Qed.

Lemma bracketed_ended l s o : Bracketed l -> opened s l = true -> Bracketed (l ++ [Ended s o]).
Proof.
  intros B H a t o' c E. apply snoc_split in E. destruct E as [(_ & E & <-)|(c' & _ & ->)]; [|exact (B a t o' c' eq_refl)].
  assert (t = s) by congruence. subst t. apply opened_began, H.
Qed.

Lemma ehas_app l m s : EHas l s -> EHas (l ++ m) s.
Proof. intros (q & H). exists q. apply in_or_app. left. exact H. Qed.

Lemma find_record_none s q m : find s m = None -> record s q m = m ++ [(s, q)].
Proof.
  induction m as [|[t r] m IH]; cbn [find record]; [reflexivity|]. destruct (Nat.eqb s t); [discriminate|]. intros H. rewrite IH by exact H. reflexivity.
Qed.

Section Nested.
Context {D V : Type}.
Variable pre : nat -> list nat.
Variable doEvaluate : nat -> D -> @body D V Q.
Variable doGet : nat -> D -> @body D V V.
Variable rank : nat -> nat.
Notation npipe := (@npipe D).
Notation nget := (nget pre doEvaluate doGet).
Notation ngets := (ngets pre doEvaluate doGet).
Notation Needs := (Needs pre).
Notation UsesAll := (UsesAll pre doEvaluate doGet).
Notation Wants := (Wants pre).

Lemma prepared_began l s : Prepared pre l -> (forall t, Needs s t -> EHas l t) -> Prepared pre (l ++ [Began s]).
Proof.
  intros P H a t c E u Hu. apply snoc_split in E. destruct E as [(_ & E & <-)|(c' & _ & ->)]; [|exact (P a t c' eq_refl u Hu)].
  assert (t = s) by congruence. subst t. exact (H u Hu).
Qed.

Lemma prepared_ended l s o : Prepared pre l -> Prepared pre (l ++ [Ended s o]).
Proof. intros P a t c E. apply snoc_split in E. destruct E as [(_ & E & _)|(c' & _ & ->)]; [discriminate|]. exact (P a t c' eq_refl). Qed.

Definition NInv (base l : list event) (p : npipe) : Prop :=
  nlog p = base ++ l /\ nmilli p = ends l /\ Retried l /\ Bracketed l /\ Prepared pre l.

Lemma ninv_evaluated base l p s : NInv base l p -> (nevaluated p s = true <-> EHas l s).
Proof.
  intros (_ & M & _). unfold nevaluated. rewrite M. destruct (find s (ends l)) as [q|] eqn:E.
  - split; [intros _|reflexivity]. exists q. apply ends_in, find_in, E.
  - split; [discriminate|]. intros (q & H). exfalso. apply ends_in in H. exact (find_none _ _ E q H).
Qed.

Lemma ninv_data base l p d : NInv base l p -> NInv base l (mkNpipe d (nmilli p) (nlog p)).
Proof. intros I. exact I. Qed.

Lemma ninv_nil p : nmilli p = [] -> NInv (nlog p) [] p.
Proof.
  intros M. split; [rewrite app_nil_r; reflexivity|]. split; [exact M|]. split; [|split].
  - intros a s b c E. destruct a; discriminate.
  - intros a s o c E. destruct a; discriminate.
  - intros a s c E. destruct a; discriminate.
Qed.

Hypothesis Acyc : NoCycle pre doEvaluate doGet rank.
Hypothesis Keep : NeverReset doEvaluate doGet.

Lemma uses_rank s t : UsesAll s t -> (rank t <= rank s)%nat.
Proof. induction 1 as [s|s t u H1 H2 IH]; [lia|]. specialize (Acyc s t H1). lia. Qed.

Lemma wants_uses s t : Wants s t -> UsesAll s t.
Proof.
  intros [->|H]; [apply Uses_self|]. induction H as [s t H|s t u H1 H2 IH].
  - apply Uses_trans with t; [left; exact H|apply Uses_self].
  - apply Uses_trans with t; [left; exact H1|exact IH].
Qed.

(** The events [m] of something which uses the steps [Us] only *)
Definition Events (Us : nat -> Prop) (m : list event) : Prop := forall e, In e m -> exists t, stepOf e = Some t /\ Us t.

Definition Threw (s : nat) (m : list event) : Prop := (exists t, In (Ended t None) m) \/ exists t d d', UsesAll s t /\ MayReturn (doGet t d) d' None.

Definition GetDoes (base : list event) (g : nat -> npipe -> option (npipe * option V)) (s : nat) : Prop :=
  forall l p p' v, NInv base l p -> (forall t, (rank t <= rank s)%nat -> opened t l = false) -> g s p = Some (p', v) ->
  exists m, NInv base (l ++ m) p' /\ Events (UsesAll s) m /\ (forall t, opened t (l ++ m) = opened t l) /\
    match v with
    | Some x => (forall t, Wants s t -> EHas (l ++ m) t) /\ exists d, MayReturn (doGet s d) (ndata p') (Some x)
    | None => Threw s m
    end.

Lemma run_body {T} base g R : (forall t, (rank t < R)%nat -> GetDoes base g t) ->
  forall b : @body D V T, NoReset b -> (forall t, MayAsk b t -> (rank t < R)%nat) ->
  forall l p p' o, NInv base l p -> (forall t, (rank t < R)%nat -> opened t l = false) -> runBody g b p = Some (p', o) ->
  exists m, NInv base (l ++ m) p' /\ Events (fun t => exists u, MayAsk b u /\ UsesAll u t) m /\ (forall t, opened t (l ++ m) = opened t l) /\
    MayReturn b (ndata p') o.
Proof.
  intros G. induction b as [d o|d u k IH|d k IH]; intros K A l p p' o' I O E; cbn [runBody NoReset MayAsk MayReturn] in *.
  - exists []. rewrite app_nil_r. assert (p' = mkNpipe d (nmilli p) (nlog p)) by congruence. subst p'. split; [exact I|]. split; [intros e []|]. split; [reflexivity|].
    split; [reflexivity|congruence].
  - destruct (g u (mkNpipe d (nmilli p) (nlog p))) as [[p1 v]|] eqn:Eg; [|discriminate].
    assert (Ru : (rank u < R)%nat) by (apply A; left; reflexivity).
    destruct (G u Ru l _ p1 v (ninv_data base l p d I)) as (m1 & I1 & T1 & O1 & _); [intros t Ht; apply O; lia|exact Eg|].
    destruct (IH (ndata p1) v) with (l := l ++ m1) (p := p1) (p' := p') (o := o') as (m2 & I2 & T2 & O2 & V2).
    + apply K.
    + intros t Ht. apply A. right. exists (ndata p1), v. exact Ht.
    + exact I1.
    + intros t Ht. rewrite O1. apply O, Ht.
    + exact E.
    + exists (m1 ++ m2). rewrite app_assoc. split; [exact I2|]. split; [|split; [intros t; rewrite O2; apply O1|exists (ndata p1), v; exact V2]].
      intros e He. apply in_app_or in He. destruct He as [He|He].
      * destruct (T1 e He) as (t & St & Ut). exists t. split; [exact St|]. exists u. split; [left; reflexivity|exact Ut].
      * destruct (T2 e He) as (t & St & w & Aw & Ut). exists t. split; [exact St|]. exists w. split; [right; exists (ndata p1), v; exact Aw|exact Ut].
  - destruct K.
Qed.

Lemma value_get base g s : (forall t, (rank t < rank s)%nat -> GetDoes base g t) ->
  forall l p p' v, NInv base l p -> (forall t, (rank t < rank s)%nat -> opened t l = false) -> runBody g (doGet s (ndata p)) p = Some (p', v) ->
  exists m, NInv base (l ++ m) p' /\ Events (UsesAll s) m /\ (forall t, opened t (l ++ m) = opened t l) /\ MayReturn (doGet s (ndata p)) (ndata p') v.
Proof.
  intros G l p p' v I O E.
  destruct (run_body base g (rank s) G (doGet s (ndata p))) with (l := l) (p := p) (p' := p') (o := v) as (m & I1 & T1 & O1 & V1); auto.
  - apply Keep.
  - intros t Ht. apply Acyc. right. right. exists (ndata p). exact Ht.
  - exists m. split; [exact I1|]. split; [|split; assumption]. intros e He. destruct (T1 e He) as (t & St & u & Au & Ut). exists t. split; [exact St|].
    apply Uses_trans with u; [|exact Ut]. right. right. exists (ndata p). exact Au.
Qed.

Lemma evaluate_get base g s : (forall t, (rank t < rank s)%nat -> GetDoes base g t) ->
  forall l p p' v, NInv base l p -> (forall t, (rank t <= rank s)%nat -> opened t l = false) -> (forall t, Needs s t -> EHas l t) ->
  nevaluateGet doEvaluate doGet g s p = Some (p', v) ->
  exists m, NInv base (l ++ m) p' /\ Events (UsesAll s) m /\ (forall t, opened t (l ++ m) = opened t l) /\
    match v with
    | Some x => (forall t, Wants s t -> EHas (l ++ m) t) /\ exists d, MayReturn (doGet s d) (ndata p') (Some x)
    | None => Threw s m
    end.
Proof.
  intros G l p p' v I O N E. unfold nevaluateGet in E. destruct (nevaluated p s) eqn:Ev.
  - destruct (value_get base g s G l p p' v I) as (m & I1 & T1 & O1 & V1); [intros t Ht; apply O; lia|exact E|].
    exists m. split; [exact I1|]. split; [exact T1|]. split; [exact O1|]. destruct v as [x|].
    + split; [|exists (ndata p); exact V1]. intros t [->|Ht]; apply ehas_app; [|exact (N t Ht)]. apply (ninv_evaluated base l p s I), Ev.
    + right. exists s, (ndata p), (ndata p'). split; [apply Uses_self|exact V1].
  - assert (H0 : ~ EHas l s) by (intros H; apply (ninv_evaluated base l p s I) in H; congruence).
    destruct (runBody g (doEvaluate s (ndata p)) (mkNpipe (ndata p) (nmilli p) (nlog p ++ [Began s]))) as [[p1 o]|] eqn:Er; [|discriminate].
    assert (I0 : NInv base (l ++ [Began s]) (mkNpipe (ndata p) (nmilli p) (nlog p ++ [Began s]))).
    { destruct I as (L & M & Rt & B & P). split; [cbn [nlog]; rewrite L, app_assoc; reflexivity|].
      split; [cbn [nmilli]; rewrite M, ends_app; cbn; rewrite app_nil_r; reflexivity|].
      split; [apply retried_began; [exact Rt|apply O; lia|exact H0]|]. split; [apply bracketed_began, B|apply prepared_began; assumption]. }
    assert (Other : forall t, (rank t < rank s)%nat -> t <> s) by (intros t Ht ->; lia).
    destruct (run_body base g (rank s) G (doEvaluate s (ndata p))) with (l := l ++ [Began s]) (p := mkNpipe (ndata p) (nmilli p) (nlog p ++ [Began s])) (p' := p1) (o := o)
      as (m & I1 & T1 & O1 & _).
    + apply Keep.
    + intros t Ht. apply Acyc. right. left. exists (ndata p). exact Ht.
    + exact I0.
    + intros t Ht. rewrite opened_app. cbn [fold_left turn]. destruct (Nat.eqb_spec t s) as [Ets|_]; [exfalso; exact (Other t Ht Ets)|]. apply O. lia.
    + exact Er.
    + assert (Below : Events (fun t => (rank t < rank s)%nat /\ UsesAll s t) m).
      { intros e He. destruct (T1 e He) as (t & St & u & Au & Ut). exists t. split; [exact St|].
        assert (Us : Uses pre doEvaluate doGet s u) by (right; left; exists (ndata p); exact Au). split.
        - pose proof (uses_rank u t Ut). pose proof (Acyc s u Us). lia.
        - apply Uses_trans with u; assumption. }
      assert (NoS : forall e, In e m -> stepOf e <> Some s).
      { intros e He Se. destruct (Below e He) as (t & St & Rt & _). assert (t = s) by congruence. subst t. lia. }
      assert (Hs : ~ EHas (l ++ [Began s] ++ m) s).
      { intros (q & Hi). apply in_app_or in Hi. destruct Hi as [Hi|[Hi|Hi]]; [apply H0; exists q; exact Hi|discriminate|exact (NoS _ Hi eq_refl)]. }
      assert (Op : opened s ((l ++ [Began s]) ++ m) = true).
      { rewrite O1, opened_app. cbn [fold_left turn]. rewrite Nat.eqb_refl. reflexivity. }
      assert (Last : forall w d, NInv base (l ++ ([Began s] ++ m) ++ [Ended s w])
        (mkNpipe d (match w with Some q => record s q (nmilli p1) | None => nmilli p1 end) (nlog p1 ++ [Ended s w]))).
      { intros w d. pose proof I1 as (L & M & Rt & B & P). split; [cbn [nlog]; rewrite L; rewrite !app_assoc; reflexivity|]. split.
        - cbn [nmilli]. rewrite !app_assoc, ends_app. rewrite <- M. destruct w as [q|]; [|cbn; rewrite app_nil_r; reflexivity].
          cbn [ends flat_map endOf app]. apply find_record_none. destruct (find s (nmilli p1)) as [r|] eqn:Ef; [|reflexivity]. exfalso. apply Hs.
          exists r. rewrite app_assoc. apply ends_in. rewrite <- M. apply find_in, Ef.
        - rewrite !app_assoc. split; [apply retried_ended, Rt|]. split; [apply bracketed_ended; assumption|apply prepared_ended, P]. }
      assert (Evs : forall w, Events (UsesAll s) (([Began s] ++ m) ++ [Ended s w])).
      { intros w e He. apply in_app_or in He. destruct He as [[<-|He]|[<-|[]]].
        - exists s. split; [reflexivity|apply Uses_self].
        - destruct (Below e He) as (t & St & _ & Ut). exists t. split; assumption.
        - exists s. split; [reflexivity|apply Uses_self]. }
      assert (Ops : forall w t, opened t (l ++ ([Began s] ++ m) ++ [Ended s w]) = opened t l).
      { intros w t. rewrite !app_assoc, opened_app. cbn [fold_left turn]. destruct (Nat.eqb_spec t s) as [->|n].
        - symmetry. apply O. lia.
        - rewrite O1, opened_app. cbn [fold_left turn]. destruct (Nat.eqb_spec t s); [contradiction|reflexivity]. }
      destruct o as [q|].
      * destruct (value_get base g s G _ _ p' v (Last (Some q) (ndata p1))) as (m2 & I2 & T2 & O2 & V2);
          [intros t Ht; rewrite Ops; apply O; lia|exact E|].
        exists ((([Began s] ++ m) ++ [Ended s (Some q)]) ++ m2). rewrite app_assoc. split; [exact I2|]. split.
        { intros e He. apply in_app_or in He. destruct He as [He|He]; [exact (Evs _ e He)|exact (T2 e He)]. }
        split; [intros t; rewrite O2; apply Ops|].
        destruct v as [x|].
        -- split; [|exists (ndata p1); exact V2]. intros t [->|Ht].
           ++ apply ehas_app. exists q. apply in_or_app. right. apply in_or_app. right. left. reflexivity.
           ++ apply ehas_app, ehas_app, N, Ht.
        -- right. exists s, (ndata p1), (ndata p'). split; [apply Uses_self|exact V2].
      * assert (v = None) by congruence. subst v. assert (Ep : p' = mkNpipe (ndata p1) (nmilli p1) (nlog p1 ++ [Ended s None])) by congruence.
        exists (([Began s] ++ m) ++ [Ended s None]). split; [rewrite Ep; exact (Last None (ndata p1))|]. split; [apply Evs|]. split; [apply Ops|].
        left. exists s. apply in_or_app. right. left. reflexivity.
Qed.

Lemma get_multiple base g ss : (forall s, In s ss -> GetDoes base g s) -> forall R, (forall s, In s ss -> (rank s <= R)%nat) ->
  forall l p p' b, NInv base l p -> (forall t, (rank t <= R)%nat -> opened t l = false) -> ngetMultiple g ss p = Some (p', b) ->
  exists m, NInv base (l ++ m) p' /\ Events (fun t => exists s, In s ss /\ UsesAll s t) m /\ (forall t, opened t (l ++ m) = opened t l) /\
    if b then forall s t, In s ss -> Wants s t -> EHas (l ++ m) t else exists s, In s ss /\ Threw s m.
Proof.
  intros G R. induction ss as [|s ss IH]; intros HR l p p' b I O E; cbn [ngetMultiple] in E.
  - assert (p' = p) by congruence. assert (b = true) by congruence. subst. exists []. rewrite app_nil_r. split; [exact I|]. split; [intros e []|]. split; [reflexivity|]. intros s t [].
  - destruct (g s p) as [[p1 v]|] eqn:Eg; [|discriminate].
    destruct (G s (or_introl eq_refl) l p p1 v I) as (m1 & I1 & T1 & O1 & V1); [intros t Ht; apply O; specialize (HR s (or_introl eq_refl)); lia|exact Eg|].
    destruct v as [x|].
    + destruct V1 as [V1 _]. destruct (IH (fun s Hs => G s (or_intror Hs)) (fun s Hs => HR s (or_intror Hs)) (l ++ m1) p1 p' b I1) as (m2 & I2 & T2 & O2 & V2); [intros t Ht; rewrite O1; apply O, Ht|exact E|].
      exists (m1 ++ m2). rewrite app_assoc. split; [exact I2|]. split; [|split].
      * intros e He. apply in_app_or in He. destruct He as [He|He].
        -- destruct (T1 e He) as (t & St & Ut). exists t. split; [exact St|]. exists s. split; [left; reflexivity|exact Ut].
        -- destruct (T2 e He) as (t & St & u & Hu & Ut). exists t. split; [exact St|]. exists u. split; [right; exact Hu|exact Ut].
      * intros t. rewrite O2. apply O1.
      * destruct b.
        -- intros u t [<-|Hu] W; [apply ehas_app, V1, W|exact (V2 u t Hu W)].
        -- destruct V2 as (u & Hu & [(t & Ht)|Th]).
           ++ exists u. split; [right; exact Hu|]. left. exists t. apply in_or_app. right. exact Ht.
           ++ exists u. split; [right; exact Hu|]. right. exact Th.
    + assert (p' = p1) by congruence. assert (b = false) by congruence. subst. exists m1. split; [exact I1|]. split; [|split].
      * intros e He. destruct (T1 e He) as (t & St & Ut). exists t. split; [exact St|]. exists s. split; [left; reflexivity|exact Ut].
      * exact O1.
      * exists s. split; [left; reflexivity|exact V1].
Qed.

Lemma get_does base fuel : forall s, GetDoes base (nget fuel) s.
Proof.
  induction fuel as [|fuel IH]; intros s l p p' v I O E; [discriminate|]. cbn [NestedModel.nget] in E.
  destruct (ngetMultiple (nget fuel) (pre s) p) as [[p1 b]|] eqn:Em; [|discriminate].
  assert (Rs : forall t, In t (pre s) -> (rank t <= rank s)%nat) by (intros t Ht; assert (rank t < rank s)%nat by (apply Acyc; left; exact Ht); lia).
  destruct (get_multiple base (nget fuel) (pre s) (fun t _ => IH t) (rank s) Rs l p p1 b I O Em) as (m1 & I1 & T1 & O1 & V1).
  assert (T1' : Events (UsesAll s) m1).
  { intros e He. destruct (T1 e He) as (t & St & u & Hu & Ut). exists t. split; [exact St|]. apply Uses_trans with u; [left; exact Hu|exact Ut]. }
  destruct b.
  - destruct (evaluate_get base (nget fuel) s (fun t _ => IH t) (l ++ m1) p1 p' v I1) as (m2 & I2 & T2 & O2 & V2).
    + intros t Ht. rewrite O1. apply O, Ht.
    + intros t Ht. apply (needs_wants pre s t) in Ht. destruct Ht as (u & Hu & W). exact (V1 u t Hu W).
    + exact E.
    + exists (m1 ++ m2). rewrite app_assoc. split; [exact I2|]. split; [|split].
      * intros e He. apply in_app_or in He. destruct He; auto.
      * intros t. rewrite O2. apply O1.
      * destruct v as [x|]; [exact V2|]. destruct V2 as [(t & Ht)|Th]; [left; exists t; apply in_or_app; right; exact Ht|right; exact Th].
  - assert (p' = p1) by congruence. assert (v = None) by congruence. subst. exists m1. split; [exact I1|]. split; [exact T1'|]. split; [exact O1|].
    destruct V1 as (u & Hu & [Th|(t & d & d' & Ut & Gd)]); [left; exact Th|]. right. exists t, d, d'. split; [|exact Gd]. apply Uses_trans with u; [left; exact Hu|exact Ut].
Qed.

(** Ends *)
Lemma body_ends {T} g R : (forall t p, (rank t < R)%nat -> exists p' v, g t p = Some (p', v)) ->
  forall b : @body D V T, (forall t, MayAsk b t -> (rank t < R)%nat) -> forall p, exists p' o, runBody g b p = Some (p', o).
Proof.
  intros G. induction b as [d o|d u k IH|d k IH]; intros A p; cbn [runBody MayAsk] in *.
  - eauto.
  - destruct (G u (mkNpipe d (nmilli p) (nlog p))) as (p1 & v & E); [apply A; left; reflexivity|]. rewrite E.
    apply IH. intros t Ht. apply A. right. exists (ndata p1), v. exact Ht.
  - apply IH. exact A.
Qed.

Lemma nget_ends fuel : forall s p, (rank s < fuel)%nat -> exists p' v, nget fuel s p = Some (p', v).
Proof.
  induction fuel as [|fuel IH]; intros s p H; [lia|]. cbn [NestedModel.nget].
  assert (M : forall ss p, (forall t, In t ss -> (rank t < fuel)%nat) -> exists p' b, ngetMultiple (nget fuel) ss p = Some (p', b)).
  { induction ss as [|t ss IHs]; intros p0 Hs; cbn [ngetMultiple]; [eauto|].
    destruct (IH t p0) as (p1 & v & E); [apply Hs; left; reflexivity|]. rewrite E. destruct v; [|eauto]. apply IHs. intros u Hu. apply Hs. right. exact Hu. }
  destruct (M (pre s) p) as (p1 & b & E); [intros t Ht; assert (rank t < rank s)%nat by (apply Acyc; left; exact Ht); lia|]. rewrite E. destruct b; [|eauto].
  assert (Vs : forall p, exists p' v, runBody (nget fuel) (doGet s (ndata p)) p = Some (p', v)).
  { intros p0. apply (body_ends (nget fuel) (rank s)).
    - intros t p2 Ht. apply IH. lia.
    - intros t Ht. apply Acyc. right. right. exists (ndata p0). exact Ht. }
  unfold nevaluateGet. destruct (nevaluated p1 s).
  - apply Vs.
  - destruct (body_ends (T := Q) (nget fuel) (rank s)) with (b := doEvaluate s (ndata p1)) (p := mkNpipe (ndata p1) (nmilli p1) (nlog p1 ++ [Began s])) as (p2 & o & E2).
    + intros t p0 Ht. apply IH. lia.
    + intros t Ht. apply Acyc. right. left. exists (ndata p1). exact Ht.
    + rewrite E2. destruct o as [q|]; [|eauto]. apply Vs.
Qed.

Lemma ngets_ends ss p : exists enough, forall fuel, (enough <= fuel)%nat -> exists p' vs, ngets fuel ss p = Some (p', vs).
Proof.
  exists (S (list_max (map rank ss))). intros fuel H. assert (B : Forall (fun s => (rank s < fuel)%nat) ss).
  { apply Forall_forall. intros s Hs. assert (rank s <= list_max (map rank ss))%nat; [|lia].
    pose proof (proj1 (list_max_le (map rank ss) _) (le_n _)) as F. rewrite Forall_forall in F. apply F, in_map, Hs. }
  clear H. revert p. induction B as [|s ss Hs B IH]; intros p; cbn [NestedModel.ngets]; [eauto|].
  destruct (nget_ends fuel s p Hs) as (p1 & v & E). rewrite E. destruct (IH p1) as (p2 & vs & E2). rewrite E2. eauto.
Qed.

Lemma ngets_does base fuel ss : forall l p p' vs, NInv base l p -> (forall t, opened t l = false) -> ngets fuel ss p = Some (p', vs) ->
  exists m, NInv base (l ++ m) p' /\ Events (fun t => exists s, In s ss /\ UsesAll s t) m /\ (forall t, opened t (l ++ m) = false) /\ length vs = length ss.
Proof.
  induction ss as [|s ss IH]; intros l p p' vs I O E; cbn [NestedModel.ngets] in E.
  - assert (p' = p) by congruence. assert (vs = []) by congruence. subst. exists []. rewrite app_nil_r. split; [exact I|]. split; [intros e []|]. split; [exact O|reflexivity].
  - destruct (nget fuel s p) as [[p1 v]|] eqn:Eg; [|discriminate]. destruct (ngets fuel ss p1) as [[p2 ws]|] eqn:Es; [|discriminate].
    assert (p' = p2) by congruence. assert (vs = v :: ws) by congruence. subst.
    destruct (get_does base fuel s l p p1 v I (fun t _ => O t) Eg) as (m1 & I1 & T1 & O1 & _).
    destruct (IH (l ++ m1) p1 p2 ws I1) as (m2 & I2 & T2 & O2 & L); [intros t; rewrite O1; apply O|exact Es|].
    exists (m1 ++ m2). rewrite app_assoc. split; [exact I2|]. split; [|split; [exact O2|cbn [length]; congruence]].
    intros e He. apply in_app_or in He. destruct He as [He|He].
    + destruct (T1 e He) as (t & St & Ut). exists t. split; [exact St|]. exists s. split; [left; reflexivity|exact Ut].
    + destruct (T2 e He) as (t & St & u & Hu & Ut). exists t. split; [exact St|]. exists u. split; [right; exact Hu|exact Ut].
Qed.

Lemma retried_success l a s q b : Retried l -> Bracketed l -> l = a ++ Ended s (Some q) :: b -> ~ In (Began s) b.
Proof.
  intros R B E Hi. apply in_split in Hi. destruct Hi as (b1 & b2 & ->). destruct (B a s (Some q) _ E) as (a1 & a2 & -> & N).
  assert (E' : l = a1 ++ Began s :: (a2 ++ Ended s (Some q) :: b1) ++ Began s :: b2).
  { rewrite E. repeat (rewrite <- app_assoc; cbn [app]). reflexivity. }
  destruct (R a1 s _ b2 E') as [_ M]. apply (M q). apply in_or_app. right. left. reflexivity.
Qed.

Lemma success_once l a s q b : Retried l -> Bracketed l -> l = a ++ Ended s (Some q) :: b -> forall o, ~ In (Ended s o) b.
Proof.
  intros R B E o Hi. apply in_split in Hi. destruct Hi as (b1 & b2 & ->).
  destruct (B (a ++ Ended s (Some q) :: b1) s o b2) as (a' & c & E' & N); [rewrite E, <- app_assoc; reflexivity|].
  apply (retried_success l a s q (b1 ++ Ended s o :: b2) R B E).
  assert (H : In (Began s) (a ++ Ended s (Some q) :: b1)) by (rewrite E'; apply in_or_app; right; left; reflexivity).
  (* the last beginning is after the success *)
  clear H E. revert b1 E'. induction c as [|e c IH] using rev_ind; intros b1 E'.
  - destruct b1 as [|e' b1] using rev_ind.
    + exfalso. change (a ++ [Ended s (Some q)] = a' ++ [Began s]) in E'. apply app_inj_tail in E'. destruct E'. discriminate.
    + clear IHb1. change (a ++ Ended s (Some q) :: b1 ++ [e']) with (a ++ (Ended s (Some q) :: b1) ++ [e']) in E'. rewrite app_assoc in E'.
      apply app_inj_tail in E'. destruct E' as [_ ->]. apply in_or_app. left. apply in_or_app. right. left. reflexivity.
  - destruct b1 as [|e' b1] using rev_ind.
    + exfalso. change (a ++ [Ended s (Some q)] = a' ++ (Began s :: c) ++ [e]) in E'. rewrite app_assoc in E'. apply app_inj_tail in E'. destruct E' as [_ <-].
      apply (N (Some q)). apply in_or_app. right. left. reflexivity.
    + clear IHb1. assert (E2 : a ++ Ended s (Some q) :: b1 = a' ++ Began s :: c).
      { change (a ++ Ended s (Some q) :: b1 ++ [e']) with (a ++ (Ended s (Some q) :: b1) ++ [e']) in E'. rewrite app_assoc in E'.
        change (a' ++ Began s :: c ++ [e]) with (a' ++ (Began s :: c) ++ [e]) in E'. rewrite app_assoc in E'. apply app_inj_tail in E'. apply E'. }
      assert (N' : forall o', ~ In (Ended s o') c) by (intros o' Ho; apply (N o'); apply in_or_app; left; exact Ho).
      specialize (IH N' b1 E2). apply in_app_or in IH. apply in_or_app. destruct IH as [IH|IH]; [left; apply in_or_app; left; exact IH|right; exact IH].
Qed.

Lemma nested_history ss p : nmilli p = [] ->
  exists enough, forall fuel, (enough <= fuel)%nat -> exists p' vs l, ngets fuel ss p = Some (p', vs) /\ length vs = length ss /\
    nlog p' = nlog p ++ l /\ Retried l /\ Bracketed l /\ Prepared pre l /\
    (forall a s b, l = a ++ Began s :: b -> exists o, In (Ended s o) b) /\
    (forall e, In e l -> exists t s, stepOf e = Some t /\ In s ss /\ UsesAll s t) /\
    (forall t, nevaluated p' t = true <-> exists q, In (Ended t (Some q)) l) /\
    (forall t q, In (Ended t (Some q)) l -> nmilliseconds p' t = q) /\
    (forall t, (forall q, ~ In (Ended t (Some q)) l) -> nmilliseconds p' t = (-1)%Q).
Proof.
  intros M. destruct (ngets_ends ss p) as (enough & H). exists enough. intros fuel Hf. destruct (H fuel Hf) as (p' & vs & E).
  destruct (ngets_does (nlog p) fuel ss [] p p' vs (ninv_nil p M) (fun t => eq_refl) E) as (l & I & T & O & L). cbn [app] in I, O. exists p', vs, l.
  split; [exact E|]. split; [exact L|]. pose proof I as (C & Mi & R & B & P). split; [exact C|]. split; [exact R|]. split; [exact B|]. split; [exact P|].
  split; [intros a s b El; exact (closed_ended s l (O s) a b El)|].
  split; [intros e He; destruct (T e He) as (t & St & s & Hs & Ut); exists t, s; auto|].
  split; [intros t; apply (ninv_evaluated _ _ _ t I)|]. unfold nmilliseconds. rewrite Mi. split.
  - intros t q Hq. destruct (find t (ends l)) as [r|] eqn:Ef.
    + apply find_in, ends_in in Ef. apply in_split in Hq. destruct Hq as (a & b & El). rewrite El in Ef. apply in_app_or in Ef. destruct Ef as [Ef|[Ef|Ef]].
      * exfalso. apply in_split in Ef. destruct Ef as (a1 & a2 & ->). apply (success_once l a1 t r (a2 ++ Ended t (Some q) :: b) R B) with (o := Some q).
        -- rewrite El, <- app_assoc. reflexivity.
        -- apply in_or_app. right. left. reflexivity.
      * congruence.
      * exfalso. exact (success_once l a t q b R B El _ Ef).
    + exfalso. apply (find_none _ _ Ef q). apply ends_in, Hq.
  - intros t N. destruct (find t (ends l)) as [r|] eqn:Ef; [|reflexivity]. exfalso. apply (N r). apply ends_in, find_in, Ef.
Qed.

Lemma nested_get ss p0 fuel p vs : nmilli p0 = [] -> ngets fuel ss p0 = Some (p, vs) ->
  forall fuel' s p' v, nget fuel' s p = Some (p', v) -> exists l, nlog p' = nlog p ++ l /\
    (forall e, In e l -> exists t, stepOf e = Some t /\ UsesAll s t /\ nevaluated p t = false) /\
    match v with
    | Some x => (exists d, MayReturn (doGet s d) (ndata p') (Some x)) /\ (forall t, t = s \/ Needs s t -> nevaluated p' t = true)
    | None => (exists t, In (Ended t None) l) \/ exists t d d', UsesAll s t /\ MayReturn (doGet t d) d' None
    end.
Proof.
  intros M E fuel' s p' v G. destruct (ngets_does (nlog p0) fuel ss [] p0 p vs (ninv_nil p0 M) (fun t => eq_refl) E) as (l0 & I & _ & O & _). cbn [app] in I, O.
  destruct (get_does (nlog p0) fuel' s l0 p p' v I (fun t _ => O t) G) as (m & I' & T & O' & A). exists m.
  pose proof I as (C & _ & _). pose proof I' as (C' & _ & R & B & _).
  split; [rewrite C', C, app_assoc; reflexivity|]. split.
  - intros e He. destruct (T e He) as (t & St & Ut). exists t. split; [exact St|]. split; [exact Ut|].
    destruct (nevaluated p t) eqn:Ev; [|reflexivity]. exfalso. apply (ninv_evaluated _ _ _ t I) in Ev. destruct Ev as [q Hq].
    apply in_split in Hq. destruct Hq as (a & b & ->).
    assert (El : (a ++ Ended t (Some q) :: b) ++ m = a ++ Ended t (Some q) :: (b ++ m)) by (rewrite <- app_assoc; reflexivity).
    destruct e as [u|u o|]; cbn [stepOf] in St; [assert (u = t) by congruence; subst u|assert (u = t) by congruence; subst u|discriminate].
    + apply (retried_success _ a t q (b ++ m) R B El). apply in_or_app. right. exact He.
    + apply (success_once _ a t q (b ++ m) R B El o). apply in_or_app. right. exact He.
  - destruct v as [x|]; [|exact A]. destruct A as [A Gx]. split; [exact Gx|]. intros t Ht. apply (ninv_evaluated _ _ _ t I'), A, Ht.
Qed.

Lemma plain_body {T} g (b : @body D V T) : NoReset b -> (forall t, ~ MayAsk b t) -> forall p p' o, runBody g b p = Some (p', o) ->
  nlog p' = nlog p /\ nmilli p' = nmilli p.
Proof.
  destruct b as [d o|d t k|d k]; cbn [NoReset MayAsk runBody]; intros K A p p' o' E; [|elim (A t); left; reflexivity|destruct K].
  assert (p' = mkNpipe d (nmilli p) (nlog p)) by congruence. subst p'. split; reflexivity.
Qed.

Lemma nested_cached : (forall s d t, ~ MayAsk (doGet s d) t) -> forall ss p0 fuel p vs, nmilli p0 = [] -> ngets fuel ss p0 = Some (p, vs) ->
  forall fuel' s p' v, nevaluated p s = true -> nget fuel' s p = Some (p', v) -> nlog p' = nlog p /\ nmilli p' = nmilli p.
Proof.
  intros Plain ss p0 fuel p vs M E fuel' s p' v Ev G. destruct (ngets_does (nlog p0) fuel ss [] p0 p vs (ninv_nil p0 M) (fun t => eq_refl) E) as (l0 & I & _ & O & _). cbn [app] in I, O.
  assert (K : forall fuel' s p p' v, (forall t, Wants s t -> nevaluated p t = true) -> nget fuel' s p = Some (p', v) -> nlog p' = nlog p /\ nmilli p' = nmilli p).
  { clear - pre Plain Keep. intros fuel'. induction fuel' as [|f IH]; intros s p p' v H G; [discriminate|]. cbn [NestedModel.nget] in G.
    assert (Mu : forall ss q q' b, (forall u t, In u ss -> Wants u t -> nevaluated q t = true) -> ngetMultiple (nget f) ss q = Some (q', b) -> nlog q' = nlog q /\ nmilli q' = nmilli q).
    { induction ss as [|u ss IHs]; intros q q' b Hq Em; cbn [ngetMultiple] in Em; [split; congruence|].
      destruct (nget f u q) as [[q1 w]|] eqn:Eg; [|discriminate]. destruct (IH u q q1 w (fun t => Hq u t (or_introl eq_refl)) Eg) as [L1 M1].
      destruct w as [x|]; [|split; congruence]. destruct (IHs q1 q' b) as [L2 M2]; [|exact Em|split; congruence].
      intros u' t Hu W. unfold nevaluated. rewrite M1. exact (Hq u' t (or_intror Hu) W). }
    destruct (ngetMultiple (nget f) (pre s) p) as [[p1 b]|] eqn:Em; [|discriminate].
    destruct (Mu (pre s) p p1 b) as [L1 M1]; [|exact Em|].
    { intros u t Hu W. apply H. right. apply needs_wants. exists u. split; assumption. }
    destruct b; [|split; congruence]. unfold nevaluateGet in G. assert (Es : nevaluated p1 s = true) by (unfold nevaluated; rewrite M1; apply H; left; reflexivity).
    rewrite Es in G. destruct (plain_body _ _ (proj2 (Keep s (ndata p1))) (Plain s (ndata p1)) _ _ _ G). split; congruence. }
  apply (K fuel' s p p' v); [|exact G]. intros t [->|Ht]; [exact Ev|]. apply (ninv_evaluated _ _ _ s I) in Ev. destruct Ev as [q Hq].
  apply in_split in Hq. destruct Hq as (a & b & El). pose proof I as (_ & _ & _ & B & P). destruct (B a s (Some q) b El) as (a1 & a2 & Ea & _).
  apply (ninv_evaluated _ _ _ t I). destruct (P a1 s (a2 ++ Ended s (Some q) :: b)) with (t := t) as [r Hr]; [rewrite El, Ea, <- app_assoc; reflexivity|exact Ht|].
  exists r. rewrite El, Ea, <- app_assoc. apply in_or_app. left. exact Hr.
Qed.
End Nested.

(** Endless recursion *)
Lemma nested_endless {D V} pre (doEvaluate : nat -> D -> @body D V Q) doGet C : Endless pre doEvaluate C ->
  forall fuel s p, C s -> (forall t, C t -> nevaluated p t = false) -> nget pre doEvaluate doGet fuel s p = None.
Proof.
  intros En. induction fuel as [|fuel IH]; intros s p Cs H; [reflexivity|]. cbn [nget]. destruct (En s Cs) as [(t & ts & E & Ct)|[E B]].
  - rewrite E. cbn [ngetMultiple]. rewrite (IH t p Ct H). reflexivity.
  - rewrite E. cbn [ngetMultiple]. unfold nevaluateGet. rewrite (H s Cs). destruct (B (ndata p)) as (d' & t & k & Eb & Ct). rewrite Eb. cbn [runBody].
    rewrite IH; [reflexivity|exact Ct|]. intros u Hu. exact (H u Hu).
Qed.

Lemma nested_endless_value {D V} pre (doEvaluate : nat -> D -> @body D V Q) doGet C : Endless pre doGet C ->
  forall fuel s p, C s -> (forall t, C t -> nevaluated p t = true) -> nget pre doEvaluate doGet fuel s p = None.
Proof.
  intros En. induction fuel as [|fuel IH]; intros s p Cs H; [reflexivity|]. cbn [nget]. destruct (En s Cs) as [(t & ts & E & Ct)|[E B]].
  - rewrite E. cbn [ngetMultiple]. rewrite (IH t p Ct H). reflexivity.
  - rewrite E. cbn [ngetMultiple]. unfold nevaluateGet. rewrite (H s Cs). destruct (B (ndata p)) as (d' & t & k & Eb & Ct). rewrite Eb. cbn [runBody].
    rewrite IH; [reflexivity|exact Ct|]. intros u Hu. exact (H u Hu).
Qed.

Lemma example_nocycle : NoCycle examplePrerequisites exampleBody exampleGet exampleRank.
Proof.
  intros s t [H|[[d H]|[d H]]]; [| |destruct H]; destruct s as [|[|[|[|s]]]]; cbn [examplePrerequisites exampleBody In MayAsk exampleRank] in *;
  repeat match goal with
  | H : _ \/ _ |- _ => destruct H as [H|H]
  | H : exists _, _ |- _ => destruct H as [? H]
  | H : False |- _ => destruct H
  | H : MayAsk (match ?v with Some _ => _ | None => _ end) _ |- _ => destruct v; cbn [MayAsk] in H
  end; subst; cbn [exampleRank]; lia.
Qed.

Lemma example_noreset : NeverReset exampleBody exampleGet.
Proof.
  intros s d. split; [|exact I].
  destruct s as [|[|[|s]]]; cbn [exampleBody NoReset]; auto. intros d' [x|]; exact I.
Qed.

Lemma nested_refuted : ~ (forall (D V : Type) prerequisites (doEvaluate : nat -> D -> @body D V Q) doGet rank,
  NoCycle prerequisites doEvaluate doGet rank -> forall fuel s p p' x, nmilli p = [] -> nget prerequisites doEvaluate doGet fuel s p = Some (p', Some x) ->
  forall t, Needs prerequisites s t -> nevaluated p' t = true).
Proof.
  intros H. assert (A : NoCycle examplePrerequisites resetBody exampleGet exampleRank).
  { intros s t [K|[[d K]|[d K]]]; [| |destruct K]; destruct s as [|[|[|[|s]]]]; cbn [examplePrerequisites resetBody In MayAsk exampleRank] in *; try contradiction;
    destruct K as [<-|[]]; cbn [exampleRank]; lia. }
  specialize (H nat nat examplePrerequisites resetBody exampleGet exampleRank A 5%nat 1%nat (mkNpipe 0%nat [] [])
    (mkNpipe 2%nat [(1%nat, 1%Q)] [Began 0; Ended 0 (Some 1%Q); Began 1; Cleared; Ended 1 (Some 1%Q)]) 12%nat eq_refl eq_refl 0%nat).
  assert (N : Needs examplePrerequisites 1 0) by (apply Needs_direct; left; reflexivity). specialize (H N). discriminate.
Qed.

Lemma asking_nocycle : NoCycle examplePrerequisites plainBody askingGet exampleRank.
Proof.
  intros s t [H|[[d H]|[d H]]]; destruct s as [|[|[|[|s]]]]; cbn [examplePrerequisites plainBody askingGet exampleGet In MayAsk exampleRank] in *;
  repeat match goal with
  | H : _ \/ _ |- _ => destruct H as [H|H]
  | H : exists _, _ |- _ => destruct H as [? H]
  | H : False |- _ => destruct H
  end; subst; cbn [exampleRank]; lia.
Qed.

Lemma asking_noreset : NeverReset plainBody askingGet.
Proof. intros s d. split; [exact I|]. destruct s as [|[|s]]; cbn [askingGet exampleGet NoReset]; auto. Qed.

Lemma cached_refuted : ~ (forall (D V : Type) prerequisites (doEvaluate : nat -> D -> @body D V Q) doGet rank,
  NoCycle prerequisites doEvaluate doGet rank -> NeverReset doEvaluate doGet ->
  forall ss p0 fuel p vs, nmilli p0 = [] -> ngets prerequisites doEvaluate doGet fuel ss p0 = Some (p, vs) ->
  forall fuel' s p' v, nevaluated p s = true -> nget prerequisites doEvaluate doGet fuel' s p = Some (p', v) -> nlog p' = nlog p).
Proof.
  intros H.
  specialize (H nat nat examplePrerequisites plainBody askingGet exampleRank asking_nocycle asking_noreset [1%nat] (mkNpipe 0%nat [] []) 5%nat
    (mkNpipe 3%nat [(0, 1%Q); (1, 1%Q)]%nat [Began 0; Ended 0 (Some 1%Q); Began 1; Ended 1 (Some 1%Q); Began 2; Ended 2 None]%nat) [None] eq_refl eq_refl 5%nat 1%nat
    (mkNpipe 4%nat [(0, 1%Q); (1, 1%Q); (2, 1%Q)]%nat [Began 0; Ended 0 (Some 1%Q); Began 1; Ended 1 (Some 1%Q); Began 2; Ended 2 None; Began 2; Ended 2 (Some 1%Q)]%nat) (Some 24%nat) eq_refl eq_refl).
  discriminate.
Qed.

(** Durations, whatever steps do. *)
Definition news (t : nat) (o : option Q) (e : event) : option Q :=
  match e with Cleared => None | Ended s (Some q) => if Nat.eqb t s then Some q else o | _ => o end.
Definition latest (l : list event) (t : nat) : option Q := fold_left (news t) l None.

Lemma latest_snoc l e t : latest (l ++ [e]) t = news t (latest l t) e.
Proof. unfold latest. rewrite fold_left_app. reflexivity. Qed.

Lemma latest_spec l t q : latest l t = Some q <-> Latest l t q.
Proof.
  revert q. induction l as [|e l IH] using rev_ind; intros q.
  - split; [discriminate|]. intros (a & b & E & _). destruct a; discriminate.
  - rewrite latest_snoc.
    assert (Keep : e <> Cleared -> (forall q', e <> Ended t (Some q')) -> Latest (l ++ [e]) t q <-> Latest l t q).
    { intros H1 H2. split.
      - intros (a & b & E & C & N). destruct b as [|x b _] using rev_ind.
        + apply app_inj_tail in E as [_ E]. destruct (H2 _ E).
        + rewrite app_comm_cons, app_assoc in E. apply app_inj_tail in E as [E _]. exists a, b. split; [exact E|]. split.
          * intros Hc. apply C. apply in_or_app. left. exact Hc.
          * intros q' Hq. apply (N q'). apply in_or_app. left. exact Hq.
      - intros (a & b & -> & C & N). exists a, (b ++ [e]). split; [rewrite <- app_assoc; reflexivity|]. split.
        + intros Hc. apply in_app_or in Hc as [Hc|[Hc|[]]]; [exact (C Hc)|exact (H1 Hc)].
        + intros q' Hq. apply in_app_or in Hq as [Hq|[Hq|[]]]; [exact (N q' Hq)|exact (H2 q' Hq)]. }
    destruct e as [s|s [q1|]|]; cbn [news].
    + rewrite Keep; [apply IH|discriminate|discriminate].
    + destruct (Nat.eqb_spec t s) as [<-|Hts].
      * split.
        -- intros [= ->]. exists l, []. split; [reflexivity|]. split; [intros []|intros q' []].
        -- intros (a & b & E & C & N). destruct b as [|x b _] using rev_ind.
           ++ apply app_inj_tail in E as [_ E]. injection E as ->. reflexivity.
           ++ rewrite app_comm_cons, app_assoc in E. apply app_inj_tail in E as [_ E]. subst x.
              destruct (N q1). apply in_or_app. right. left. reflexivity.
      * rewrite Keep; [apply IH|discriminate|intros q' [= -> _]; apply Hts; reflexivity].
    + rewrite Keep; [apply IH|discriminate|discriminate].
    + split; [discriminate|]. intros (a & b & E & C & N). destruct b as [|x b _] using rev_ind.
      * apply app_inj_tail in E as [_ E]. discriminate.
      * rewrite app_comm_cons, app_assoc in E. apply app_inj_tail in E as [_ E]. subst x.
        destruct C. apply in_or_app. right. left. reflexivity.
Qed.

Lemma find_record s q m t : find t (record s q m) = if Nat.eqb t s then Some q else find t m.
Proof.
  induction m as [|[u r] m IH]; cbn [record find].
  - reflexivity.
  - destruct (Nat.eqb_spec s u) as [<-|Hsu]; cbn [find].
    + destruct (Nat.eqb t s); reflexivity.
    + destruct (Nat.eqb_spec t u) as [->|Htu]; [|exact IH].
      destruct (Nat.eqb_spec u s) as [->|]; [destruct (Hsu eq_refl)|reflexivity].
Qed.

Section Durations.
Context {D V : Type}.
Variable pre : nat -> list nat.
Variable doEvaluate : nat -> D -> @body D V Q.
Variable doGet : nat -> D -> @body D V V.
Variable base : list event.

Definition Timed (p : @npipe D) : Prop := exists l, nlog p = base ++ l /\ forall t, find t (nmilli p) = latest l t.

Lemma timed_data d p : Timed p -> Timed (mkNpipe d (nmilli p) (nlog p)).
Proof. intros H. exact H. Qed.

Lemma timed_event p d e m : Timed p -> (forall t, find t m = news t (find t (nmilli p)) e) -> Timed (mkNpipe d m (nlog p ++ [e])).
Proof.
  intros (l & E & F) H. exists (l ++ [e]). cbn [nlog nmilli]. split; [rewrite E, app_assoc; reflexivity|].
  intros t. rewrite H, F, latest_snoc. reflexivity.
Qed.

Lemma timed_body {R} g : (forall t p p' v, g t p = Some (p', v) -> Timed p -> Timed p') ->
  forall (b : @body D V R) p p' o, runBody g b p = Some (p', o) -> Timed p -> Timed p'.
Proof.
  intros G b. induction b as [d o1|d t k IH|d k IH]; intros p p' o E T; cbn [runBody] in E.
  - injection E as <- <-. exact T.
  - destruct (g t _) as [[p1 v]|] eqn:Eg; [|discriminate]. eapply IH; [exact E|]. eapply G; [exact Eg|]. exact T.
  - eapply IH; [exact E|]. apply timed_event; [exact T|]. intros t. reflexivity.
Qed.

Lemma timed_evaluate g s : (forall t p p' v, g t p = Some (p', v) -> Timed p -> Timed p') ->
  forall p p' v, nevaluateGet doEvaluate doGet g s p = Some (p', v) -> Timed p -> Timed p'.
Proof.
  intros G p p' v E T. unfold nevaluateGet in E. destruct (nevaluated p s).
  - exact (timed_body g G _ _ _ _ E T).
  - destruct (runBody g (doEvaluate s (ndata p)) _) as [[p1 [q|]]|] eqn:Eb; [| |discriminate].
    + assert (T1 : Timed p1). { refine (timed_body g G _ _ _ _ Eb _). apply timed_event; [exact T|]. reflexivity. }
      refine (timed_body g G _ _ _ _ E _). apply timed_event; [exact T1|]. intros t. apply find_record.
    + injection E as <- <-. apply timed_event.
      * refine (timed_body g G _ _ _ _ Eb _). apply timed_event; [exact T|]. reflexivity.
      * reflexivity.
Qed.

Lemma timed_multiple (g : nat -> @npipe D -> option (@npipe D * option V)) : (forall t p p' v, g t p = Some (p', v) -> Timed p -> Timed p') ->
  forall ss p p' o, ngetMultiple g ss p = Some (p', o) -> Timed p -> Timed p'.
Proof.
  intros G ss. induction ss as [|s ss IH]; intros p p' o E T; cbn [ngetMultiple] in E.
  - injection E as <- <-. exact T.
  - destruct (g s p) as [[p1 [v|]]|] eqn:Eg; [| |discriminate].
    + exact (IH _ _ _ E (G _ _ _ _ Eg T)).
    + injection E as <- <-. exact (G _ _ _ _ Eg T).
Qed.

Lemma timed_get fuel : forall s p p' v, nget pre doEvaluate doGet fuel s p = Some (p', v) -> Timed p -> Timed p'.
Proof.
  induction fuel as [|fuel IH]; intros s p p' v E T; [discriminate|]. cbn [nget] in E.
  destruct (ngetMultiple _ _ p) as [[p1 [|]]|] eqn:Em; [| |discriminate].
  - exact (timed_evaluate _ s IH _ _ _ E (timed_multiple _ IH _ _ _ _ Em T)).
  - injection E as <- <-. exact (timed_multiple _ IH _ _ _ _ Em T).
Qed.

Lemma timed_gets fuel ss : forall p p' vs, ngets pre doEvaluate doGet fuel ss p = Some (p', vs) -> Timed p -> Timed p'.
Proof.
  induction ss as [|s ss IH]; intros p p' vs E T; cbn [ngets] in E.
  - injection E as <- <-. exact T.
  - destruct (nget _ _ _ fuel s p) as [[p1 v]|] eqn:Eg; [|discriminate].
    destruct (ngets _ _ _ fuel ss p1) as [[p2 vs2]|] eqn:Es; [|discriminate]. injection E as <- <-.
    exact (IH _ _ _ Es (timed_get _ _ _ _ _ Eg T)).
Qed.
End Durations.

Lemma nested_durations {D V} pre (doEvaluate : nat -> D -> @body D V Q) doGet fuel ss p p' vs : nmilli p = [] ->
  ngets pre doEvaluate doGet fuel ss p = Some (p', vs) -> exists l, nlog p' = nlog p ++ l /\
  forall t, (nevaluated p' t = true <-> exists q, Latest l t q) /\ forall q, Latest l t q -> nmilliseconds p' t = q.
Proof.
  intros E0 E. assert (T : Timed (nlog p) p). { exists []. split; [rewrite app_nil_r; reflexivity|]. intros t. rewrite E0. reflexivity. }
  destruct (timed_gets pre doEvaluate doGet (nlog p) fuel ss p p' vs E T) as (l & El & F). exists l. split; [exact El|]. intros t.
  unfold nevaluated, nmilliseconds. rewrite F. destruct (latest l t) as [q|] eqn:Eq.
  - apply latest_spec in Eq as Lq. split.
    + split; [intros _; exists q; exact Lq|reflexivity].
    + intros q' Lq'. apply latest_spec in Lq'. congruence.
  - split.
    + split; [discriminate|]. intros [q Lq]. apply latest_spec in Lq. congruence.
    + intros q Lq. apply latest_spec in Lq. congruence.
Qed.
