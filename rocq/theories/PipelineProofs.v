(** Lazy pipelines. *)
From Coq Require Import QArith Lqa.
From Verif Require Import Res PipelineModel PipelineSpec.
Open Scope Z_scope.

Definition okOf (e : nat * option Q) : list (nat * Q) := match snd e with Some q => [(fst e, q)] | None => [] end.
Definition oks (l : list (nat * option Q)) : list (nat * Q) := flat_map okOf l.

Lemma oks_app l m : oks (l ++ m) = oks l ++ oks m.
Proof. unfold oks. apply flat_map_app. Qed.

Lemma oks_in l s q : In (s, q) (oks l) <-> In (s, Some q) l.
Proof.
  unfold oks. rewrite in_flat_map. split.
  - intros ((t & o) & Hi & H). unfold okOf in H. cbn [snd fst] in H. destruct o; [|destruct H]. destruct H as [H|[]]. congruence.
  - intros H. exists (s, Some q). split; [exact H|]. left. reflexivity.
Qed.

Lemma find_in s m q : find s m = Some q -> In (s, q) m.
Proof.
  induction m as [|[t r] m IH]; cbn [find]; [discriminate|]. destruct (Nat.eqb_spec s t); [intros [= ->]; left; congruence|]. intros H. right. apply IH, H.
Qed.

Lemma find_none s m : find s m = None -> forall q, ~ In (s, q) m.
Proof.
  induction m as [|[t r] m IH]; cbn [find]; [intros _ q []|]. destruct (Nat.eqb_spec s t); [discriminate|]. intros H q [E|E]; [congruence|]. exact (IH H q E).
Qed.

Lemma snoc_split {A} (l : list A) x before y after : l ++ [x] = before ++ y :: after ->
  (after = [] /\ x = y /\ l = before) \/ exists after', after = after' ++ [x] /\ l = before ++ y :: after'.
Proof.
  destruct after as [|z after] using rev_ind; intros H.
  - left. apply app_inj_tail in H. destruct H; auto.
  - right. exists after. rewrite app_comm_cons, app_assoc in H. apply app_inj_tail in H. destruct H as [-> ->]. auto.
Qed.

Section Pipeline.
Context {D V : Type}.
Variable pre : nat -> list nat.
Variable doEvaluate : nat -> D -> D * option Q.
Variable doGet : nat -> D -> D * option V.
Notation pipe := (@pipe D).
Notation get := (get pre doEvaluate doGet).
Notation gets := (gets pre doEvaluate doGet).
Notation evaluateGet := (evaluateGet doEvaluate doGet).
Notation Needs := (Needs pre).

Definition Good (l : list (nat * option Q)) : Prop := Once l /\ Ordered pre l.
Definition Inv (base l : list (nat * option Q)) (p : pipe) : Prop := calls p = base ++ l /\ milli p = oks l /\ Good l.
Definition Has (l : list (nat * option Q)) (s : nat) : Prop := exists q, In (s, Some q) l.

Lemma inv_evaluated base l p s : Inv base l p -> (evaluated p s = true <-> Has l s).
Proof.
  intros (_ & M & _). unfold evaluated. rewrite M. destruct (find s (oks l)) as [q|] eqn:E.
  - split; [intros _|reflexivity]. exists q. apply oks_in, find_in, E.
  - split; [discriminate|]. intros (q & H). exfalso. apply oks_in in H. exact (find_none _ _ E q H).
Qed.

Lemma has_app l m s : Has l s -> Has (l ++ m) s.
Proof. intros (q & H). exists q. apply in_or_app. left. exact H. Qed.

Lemma good_snoc l s o : Good l -> ~ Has l s -> (forall t, Needs s t -> Has l t) -> Good (l ++ [(s, o)]).
Proof.
  intros [O R] N H. split.
  - intros before t q after E o' Hi. apply snoc_split in E. destruct E as [(-> & _ & _)|(after' & -> & ->)]; [destruct Hi|].
    apply in_app_or in Hi. destruct Hi as [Hi|[E|[]]].
    + exact (O before t q after' eq_refl o' Hi).
    + apply N. exists q. assert (t = s) by congruence. subst t. apply in_or_app. right. left. reflexivity.
  - intros before t o' after E u Hu. apply snoc_split in E. destruct E as [(_ & E & ->)|(after' & _ & ->)].
    + assert (t = s) by congruence. subst t. apply H, Hu.
    + exact (R before t o' after' eq_refl u Hu).
Qed.

Definition AllOk (m : list (nat * option Q)) : Prop := forall t o, In (t, o) m -> o <> None.

Lemma allok_app l m : AllOk l -> AllOk m -> AllOk (l ++ m).
Proof. intros A B t o H. apply in_app_or in H. destruct H; eauto. Qed.

Lemma allok_nil : AllOk [].
Proof. intros t o []. Qed.

(** What one call does *)
Definition Does (base l : list (nat * option Q)) (Ts : nat -> Prop) (p' : pipe) (success : bool) : Prop :=
  exists m, Inv base (l ++ m) p' /\ (forall t o, In (t, o) m -> Ts t) /\
    (if success then AllOk m /\ (forall t, Ts t -> Has (l ++ m) t)
     else AllOk m \/ exists m' t, m = m' ++ [(t, None)] /\ AllOk m').

Definition isSome (v : option V) : bool := match v with Some _ => true | None => false end.

Definition Wants (s t : nat) : Prop := t = s \/ Needs s t.

Lemma needs_wants s t : Needs s t <-> exists u, In u (pre s) /\ Wants u t.
Proof.
  split.
  - intros H. destruct H as [s t H|s t u H1 H2].
    + exists t. split; [exact H|left; reflexivity].
    + exists t. split; [exact H1|right; exact H2].
  - intros (u & H1 & [->|H2]); [apply Needs_direct; exact H1|eapply Needs_trans; eauto].
Qed.

Lemma evaluate_get base l p s : Inv base l p -> (forall t, Needs s t -> Has l t) ->
  forall p' v, evaluateGet s p = (p', v) -> Does base l (fun t => t = s) p' (isSome v) /\ (forall x, v = Some x -> exists d, doGet s d = (data p', Some x)).
Proof.
  intros I H p' v E. unfold PipelineModel.evaluateGet in E. destruct (evaluated p s) eqn:Ev.
  - destruct (doGet s (data p)) as [d w] eqn:G. assert (w = v) by congruence. subst w. assert (Ep : p' = mkPipe d (milli p) (calls p)) by congruence. split.
    + exists []. rewrite app_nil_r. split; [|split].
      * rewrite Ep. exact I.
      * intros t o [].
      * destruct v; cbn [isSome].
        -- split; [apply allok_nil|]. intros t ->. apply (inv_evaluated base l p s I). exact Ev.
        -- left. apply allok_nil.
    + intros x ->. exists (data p). rewrite Ep. exact G.
  - assert (N : ~ Has l s) by (intros Hs; apply (inv_evaluated base l p s I) in Hs; congruence).
    destruct I as (C & M & G0). destruct (doEvaluate s (data p)) as [d [q|]] eqn:EE.
    + cbn [data milli calls] in E. destruct (doGet s d) as [d' w] eqn:G. assert (w = v) by congruence. subst w.
      assert (Ep : p' = mkPipe d' (milli p ++ [(s, q)]) (calls p ++ [(s, Some q)])) by congruence. split.
      * exists [(s, Some q)]. split; [|split].
        -- rewrite Ep. split; [cbn [calls]; rewrite C, app_assoc; reflexivity|]. split; [cbn [milli]; rewrite M, oks_app; reflexivity|].
           apply good_snoc; assumption.
        -- intros t o [E'|[]]. congruence.
        -- assert (A : AllOk [(s, Some q)]) by (intros t o [E'|[]]; congruence). destruct v; cbn [isSome].
           ++ split; [exact A|]. intros t ->. exists q. apply in_or_app. right. left. reflexivity.
           ++ left. exact A.
      * intros x ->. exists d. rewrite Ep. exact G.
    + assert (Ep : p' = mkPipe d (milli p) (calls p ++ [(s, None)])) by congruence. assert (v = None) by congruence. subst v. split; [|discriminate].
      exists [(s, None)]. split; [|split].
      * rewrite Ep. split; [cbn [calls]; rewrite C, app_assoc; reflexivity|]. split; [cbn [milli]; rewrite M, oks_app; cbn; rewrite app_nil_r; reflexivity|].
        apply good_snoc; assumption.
      * intros t o [E'|[]]. congruence.
      * cbn [isSome]. right. exists [], s. split; [reflexivity|apply allok_nil].
Qed.

Lemma get_multiple base (g : nat -> pipe -> option (pipe * option V)) ss :
  (forall s l p p' v, In s ss -> Inv base l p -> g s p = Some (p', v) -> Does base l (Wants s) p' (isSome v)) ->
  forall l p p' b, Inv base l p -> getMultiple g ss p = Some (p', b) -> Does base l (fun t => exists s, In s ss /\ Wants s t) p' b.
Proof.
  induction ss as [|s ss IH]; intros G l p p' b I E; cbn [getMultiple] in E.
  - assert (p' = p) by congruence. assert (b = true) by congruence. subst. exists []. rewrite app_nil_r. split; [exact I|]. split; [intros t o []|].
    split; [apply allok_nil|]. intros t (s & [] & _).
  - destruct (g s p) as [[p1 [v|]]|] eqn:Eg; [| |discriminate].
    + destruct (G s l p p1 (Some v) (or_introl eq_refl) I Eg) as (m1 & I1 & T1 & A1 & H1).
      destruct (IH (fun s l p p' v Hs => G s l p p' v (or_intror Hs)) (l ++ m1) p1 p' b I1 E) as (m2 & I2 & T2 & A2).
      exists (m1 ++ m2). rewrite app_assoc. split; [exact I2|]. split.
      * intros t o Hi. apply in_app_or in Hi. destruct Hi as [Hi|Hi].
        -- exists s. split; [left; reflexivity|]. exact (T1 t o Hi).
        -- destruct (T2 t o Hi) as (u & Hu & W). exists u. split; [right; exact Hu|exact W].
      * destruct b.
        -- destruct A2 as [A2 H2]. split; [apply allok_app; assumption|]. intros t (u & [->|Hu] & W).
           ++ apply has_app. apply H1, W.
           ++ apply H2. exists u. split; assumption.
        -- destruct A2 as [A2|(m' & t & -> & A2)]; [left; apply allok_app; assumption|]. right. exists (m1 ++ m'), t. split; [rewrite app_assoc; reflexivity|apply allok_app; assumption].
    + assert (p' = p1) by congruence. assert (b = false) by congruence. subst. destruct (G s l p p1 None (or_introl eq_refl) I Eg) as (m1 & I1 & T1 & A1).
      exists m1. split; [exact I1|]. split; [|exact A1]. intros t o Hi. exists s. split; [left; reflexivity|exact (T1 t o Hi)].
Qed.

Lemma get_does base fuel : forall s l p p' v, Inv base l p -> get fuel s p = Some (p', v) -> Does base l (Wants s) p' (isSome v) /\ (forall x, v = Some x -> exists d, doGet s d = (data p', Some x)).
Proof.
  induction fuel as [|fuel IH]; intros s l p p' v I E; [discriminate|]. cbn [PipelineModel.get] in E.
  destruct (getMultiple (get fuel) (pre s) p) as [[p1 [|]]|] eqn:Em; [| |discriminate].
  - destruct (get_multiple base (get fuel) (pre s) (fun u l p p' v _ I E => proj1 (IH u l p p' v I E)) l p p1 true I Em) as (m1 & I1 & T1 & A1 & H1).
    assert (EE : evaluateGet s p1 = (p', v)) by congruence.
    destruct (evaluate_get base (l ++ m1) p1 s I1) with (p' := p') (v := v) as [(m2 & I2 & T2 & A2) R]; [|exact EE|].
    { intros t Ht. apply H1. apply needs_wants, Ht. }
    split; [|exact R]. exists (m1 ++ m2). rewrite app_assoc. split; [exact I2|]. split.
    + intros t o Hi. apply in_app_or in Hi. destruct Hi as [Hi|Hi]; [right; apply needs_wants; exact (T1 t o Hi)|left; exact (T2 t o Hi)].
    + destruct (isSome v).
      * destruct A2 as [A2 H2]. split; [apply allok_app; assumption|]. intros t [->|Ht]; [apply H2; reflexivity|]. apply has_app, H1, needs_wants, Ht.
      * destruct A2 as [A2|(m' & t & -> & A2)]; [left; apply allok_app; assumption|]. right. exists (m1 ++ m'), t. split; [rewrite app_assoc; reflexivity|apply allok_app; assumption].
  - assert (p' = p1) by congruence. assert (v = None) by congruence. subst. split; [|discriminate].
    destruct (get_multiple base (get fuel) (pre s) (fun u l p p' v _ I E => proj1 (IH u l p p' v I E)) l p p1 false I Em) as (m1 & I1 & T1 & A1).
    exists m1. split; [exact I1|]. split; [|exact A1]. intros t o Hi. right. apply needs_wants. exact (T1 t o Hi).
Qed.

Lemma get_ends rank : Acyclic pre rank -> forall fuel s p, (rank s < fuel)%nat -> exists p' v, get fuel s p = Some (p', v).
Proof.
  intros A. induction fuel as [|fuel IH]; intros s p H; [lia|]. cbn [PipelineModel.get].
  assert (M : forall ss p, (forall t, In t ss -> (rank t < fuel)%nat) -> exists p' b, getMultiple (get fuel) ss p = Some (p', b)).
  { induction ss as [|t ss IHs]; intros p0 Hs; cbn [getMultiple]; [eauto|].
    destruct (IH t p0) as (p1 & v & E); [apply Hs; left; reflexivity|]. rewrite E. destruct v; [|eauto]. apply IHs. intros u Hu. apply Hs. right. exact Hu. }
  destruct (M (pre s) p) as (p1 & b & E); [intros t Ht; specialize (A s t Ht); lia|]. rewrite E. destruct b; [|eauto].
  destruct (evaluateGet s p1) as [p2 v]. eauto.
Qed.

Lemma gets_does base fuel ss : forall l p p' vs, Inv base l p -> gets fuel ss p = Some (p', vs) ->
  exists m, Inv base (l ++ m) p' /\ (forall t o, In (t, o) m -> exists s, In s ss /\ Wants s t) /\ length vs = length ss.
Proof.
  induction ss as [|s ss IH]; intros l p p' vs I E; cbn [PipelineModel.gets] in E.
  - assert (p' = p) by congruence. assert (vs = []) by congruence. subst. exists []. rewrite app_nil_r. split; [exact I|]. split; [intros t o []|reflexivity].
  - destruct (get fuel s p) as [[p1 v]|] eqn:Eg; [|discriminate]. destruct (gets fuel ss p1) as [[p2 ws]|] eqn:Es; [|discriminate].
    assert (p' = p2) by congruence. assert (vs = v :: ws) by congruence. subst.
    destruct (get_does base fuel s l p p1 v I Eg) as [(m1 & I1 & T1 & _) _]. destruct (IH (l ++ m1) p1 p2 ws I1 Es) as (m2 & I2 & T2 & L).
    exists (m1 ++ m2). rewrite app_assoc. split; [exact I2|]. split; [|cbn [length]; congruence].
    intros t o Hi. apply in_app_or in Hi. destruct Hi as [Hi|Hi].
    + exists s. split; [left; reflexivity|exact (T1 t o Hi)].
    + destruct (T2 t o Hi) as (u & Hu & W). exists u. split; [right; exact Hu|exact W].
Qed.

Lemma gets_ends rank : Acyclic pre rank -> forall ss p, exists enough, forall fuel, (enough <= fuel)%nat -> exists p' vs, gets fuel ss p = Some (p', vs).
Proof.
  intros A ss p. exists (S (list_max (map rank ss))). intros fuel H. assert (B : Forall (fun s => (rank s < fuel)%nat) ss).
  { apply Forall_forall. intros s Hs. assert (rank s <= list_max (map rank ss))%nat; [|lia].
    pose proof (proj1 (list_max_le (map rank ss) _) (le_n _)) as F. rewrite Forall_forall in F. apply F, in_map, Hs. }
  clear H. revert p. induction B as [|s ss Hs B IH]; intros p; cbn [PipelineModel.gets]; [eauto|].
  destruct (get_ends rank A fuel s p Hs) as (p1 & v & E). rewrite E. destruct (IH p1) as (p2 & vs & E2). rewrite E2. eauto.
Qed.

Lemma good_nil : Good [].
Proof. split; intros before; intros; destruct before; discriminate. Qed.

Lemma inv_fresh p : milli p = [] -> Inv (calls p) [] p.
Proof. intros M. split; [rewrite app_nil_r; reflexivity|]. split; [exact M|apply good_nil]. Qed.

Lemma once_value l s q q' : Once l -> In (s, Some q) l -> In (s, Some q') l -> q = q'.
Proof.
  intros O H H'. apply in_split in H. destruct H as (a & b & ->). apply in_app_or in H'. destruct H' as [H'|[H'|H']].
  - apply in_split in H'. destruct H' as (a1 & a2 & ->). exfalso. apply (O a1 s q' (a2 ++ (s, Some q) :: b)) with (o := Some q).
    + rewrite <- app_assoc. reflexivity.
    + apply in_or_app. right. left. reflexivity.
  - congruence.
  - exfalso. exact (O a s q b eq_refl _ H').
Qed.

Lemma inv_milliseconds base l p s : Inv base l p ->
  (forall q, In (s, Some q) l -> milliseconds p s = q) /\ ((forall q, ~ In (s, Some q) l) -> milliseconds p s = (-1)%Q).
Proof.
  intros (_ & M & (O & _)). unfold milliseconds. rewrite M. destruct (find s (oks l)) as [q|] eqn:E.
  - pose proof (find_in _ _ _ E) as H. apply oks_in in H. split.
    + intros q' H'. exact (once_value l s q q' O H H').
    + intros N. exfalso. exact (N q H).
  - pose proof (find_none _ _ E) as H. split; [|reflexivity]. intros q Hq. exfalso. apply (H q). apply oks_in, Hq.
Qed.

Lemma total_duration_acc l : forall a, (fold_left (fun sum (e : nat * Q) => (sum + snd e)%Q) (oks l) a == a + duration l)%Q.
Proof.
  induction l as [|[s [q|]] l IH]; intros a; cbn [oks flat_map okOf app fold_left duration fst snd].
  - ring.
  - fold (oks l). rewrite IH. ring.
  - fold (oks l). rewrite IH. reflexivity.
Qed.

Lemma inv_total base l p : Inv base l p -> (totalMilliseconds p == duration l)%Q.
Proof. intros (_ & M & _). unfold totalMilliseconds. rewrite M, total_duration_acc. ring. Qed.

(** Any sequence of calls after a reset *)
Lemma pipeline_history rank : Acyclic pre rank -> forall ss p, milli p = [] ->
  exists enough, forall fuel, (enough <= fuel)%nat -> exists p' vs l, gets fuel ss p = Some (p', vs) /\ length vs = length ss /\
    calls p' = calls p ++ l /\ Once l /\ Ordered pre l /\
    (forall t o, In (t, o) l -> exists s, In s ss /\ (t = s \/ Needs s t)) /\
    (forall t, evaluated p' t = true <-> exists q, In (t, Some q) l) /\
    (forall t q, In (t, Some q) l -> milliseconds p' t = q) /\
    (forall t, (forall q, ~ In (t, Some q) l) -> milliseconds p' t = (-1)%Q) /\
    (totalMilliseconds p' == duration l)%Q.
Proof.
  intros A ss p M. destruct (gets_ends rank A ss p) as (enough & H). exists enough. intros fuel Hf. destruct (H fuel Hf) as (p' & vs & E).
  destruct (gets_does (calls p) fuel ss [] p p' vs (inv_fresh p M) E) as (l & I & T & L). cbn [app] in I. exists p', vs, l.
  split; [exact E|]. split; [exact L|]. pose proof I as (C & _ & (O & R)). split; [exact C|]. split; [exact O|]. split; [exact R|]. split; [exact T|].
  split; [intros t; apply (inv_evaluated _ _ _ t I)|]. split; [intros t; apply (inv_milliseconds _ _ _ t I)|]. split; [intros t; apply (inv_milliseconds _ _ _ t I)|].
  apply (inv_total _ _ _ I).
Qed.

(** One more call after any sequence of calls after a reset *)
Lemma pipeline_get ss p0 fuel p vs : milli p0 = [] -> gets fuel ss p0 = Some (p, vs) ->
  forall fuel' s p' v, get fuel' s p = Some (p', v) -> exists l, calls p' = calls p ++ l /\
    (forall t o, In (t, o) l -> (t = s \/ Needs s t) /\ evaluated p t = false) /\
    match v with
    | Some x => (exists d, doGet s d = (data p', Some x)) /\ (forall t o, In (t, o) l -> o <> None) /\
                (forall t, t = s \/ Needs s t -> evaluated p' t = true)
    | None => (forall t o, In (t, o) l -> o <> None) \/
              exists l' t, l = l' ++ [(t, None)] /\ (forall t o, In (t, o) l' -> o <> None) /\ evaluated p' t = false /\ forall u, Needs t u -> evaluated p' u = true
    end.
Proof.
  intros M E fuel' s p' v G. destruct (gets_does (calls p0) fuel ss [] p0 p vs (inv_fresh p0 M) E) as (l0 & I & _ & _). cbn [app] in I.
  destruct (get_does (calls p0) fuel' s l0 p p' v I G) as [(m & I' & T & A) R]. exists m.
  pose proof I as (C & _ & _). pose proof I' as (C' & _ & (O & Ord)).
  split; [rewrite C', C, app_assoc; reflexivity|]. split.
  - intros t o Hi. split; [exact (T t o Hi)|]. destruct (evaluated p t) eqn:Ev; [|reflexivity]. exfalso.
    apply (inv_evaluated _ _ _ t I) in Ev. destruct Ev as [q Hq]. apply in_split in Hq. destruct Hq as (a & b & ->).
    apply (O a t q (b ++ m)) with (o := o); [rewrite <- app_assoc; reflexivity|]. apply in_or_app. right. exact Hi.
  - destruct v as [x|]; cbn [isSome] in A.
    + destruct A as [A H]. split; [apply R; reflexivity|]. split; [exact A|]. intros t Ht. apply (inv_evaluated _ _ _ t I'), H, Ht.
    + destruct A as [A|(m' & t & -> & A)]; [left; exact A|]. right. exists m', t. split; [reflexivity|]. split; [exact A|]. split.
      * destruct (evaluated p' t) eqn:Ev; [|reflexivity]. exfalso. apply (inv_evaluated _ _ _ t I') in Ev. destruct Ev as [q Hq].
        rewrite app_assoc in Hq, O. apply in_app_or in Hq. destruct Hq as [Hq|[Hq|[]]]; [|discriminate].
        apply in_split in Hq. destruct Hq as (a & b & E'). apply (O a t q (b ++ [(t, None)])) with (o := None).
        -- rewrite E', <- app_assoc. reflexivity.
        -- apply in_or_app. right. left. reflexivity.
      * intros u Hu. apply (inv_evaluated _ _ _ u I'). rewrite app_assoc. apply has_app.
        exact (Ord (l0 ++ m') t None [] ltac:(rewrite app_assoc; reflexivity) u Hu).
Qed.

(** A step which was evaluated is not evaluated again, and nor are those it needs. *)
Lemma pipeline_cached ss p0 fuel p vs : milli p0 = [] -> gets fuel ss p0 = Some (p, vs) ->
  forall fuel' s p' v, evaluated p s = true -> get fuel' s p = Some (p', v) -> calls p' = calls p.
Proof.
  intros M E fuel' s p' v Ev G. destruct (pipeline_get ss p0 fuel p vs M E fuel' s p' v G) as (l & C & H & _).
  destruct l as [|[t o] l]; [rewrite C; apply app_nil_r|]. exfalso. destruct (H t o (or_introl eq_refl)) as [[->|N] F]; [congruence|].
  destruct (gets_does (calls p0) fuel ss [] p0 p vs (inv_fresh p0 M) E) as (l0 & I & _ & _). cbn [app] in I.
  apply (inv_evaluated _ _ _ s I) in Ev. destruct Ev as [q Hq]. apply in_split in Hq. destruct Hq as (a & b & El).
  pose proof I as (_ & _ & (_ & R)). destruct (R a s (Some q) b El t N) as [q' Hq'].
  assert (evaluated p t = true); [|congruence]. apply (inv_evaluated _ _ _ t I). exists q'. rewrite El. apply in_or_app. left. exact Hq'.
Qed.

Lemma pipeline_reset (p : pipe) : milli (reset p) = [] /\ calls (reset p) = calls p /\ data (reset p) = data p /\
  (forall s, evaluated (reset p) s = false) /\ (forall s, milliseconds (reset p) s = (-1)%Q) /\ (totalMilliseconds (reset p) == 0)%Q.
Proof. repeat split. Qed.
End Pipeline.
