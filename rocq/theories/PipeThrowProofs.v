(** Lazy pipelines used by several threads, with exceptions. *)
From Coq Require Import QArith.
From Verif Require Import Res Lemmas PipelineModel PipelineSpec PipelineProofs NestedModel NestedProofs PipeThreadSpec PipeThreadProofs SeparableProofs
  PipeThrowModel PipeThrowSpec.
Open Scope nat_scope.

Lemma esum_replace {A} (f : A -> nat) (l : list A) i a b : nth_error l i = Some a -> list_sum (map f (replace l i b)) + f a = list_sum (map f l) + f b.
Proof.
  revert i. induction l as [|x l IH]; intros [|i] H; cbn [nth_error] in H; try discriminate.
  - injection H as ->. unfold list_sum. cbn [replace map fold_right]. lia.
  - specialize (IH i H). unfold list_sum in *. cbn [replace map fold_right]. lia.
Qed.

Section Threads.
Context {D V : Type}.
Variable pre : nat -> list nat.
Variable doEvaluate : nat -> D -> D * option Q.
Variable doGet : nat -> D -> option V.
Notation pipe := (@pipe D).
Notation eshared := (@eshared D V).
Notation ethread := (@ethread V).
Notation estep := (estep pre doEvaluate doGet).
Notation erun := (erun pre doEvaluate doGet).
Notation get := (get pre doEvaluate (readOnly doGet)).
Notation gets := (gets pre doEvaluate (readOnly doGet)).
Notation About := (About pre).

Definition st (p : pipe) (th : list ethread) (i : nat) (l : list eitem) (vs : list (option V)) : eshared := mkEshared p (replace th i (mkEthread l vs)).

Lemma st_eq p th i l vs : nth_error th i = Some (mkEthread l vs) -> mkEshared p th = st p th i l vs.
Proof. intros H. unfold st. rewrite replace_same by exact H. reflexivity. Qed.

Lemma st_nth p th i l vs : i < length th -> nth_error (ethreads (st p th i l vs)) i = Some (mkEthread l vs).
Proof. intros H. apply nth_error_replace_eq, H. Qed.

Lemma erun_app a : forall g b, erun g (a ++ b) = match erun g a with Some g' => erun g' b | None => None end.
Proof. induction a as [|i a IH]; intros g b; cbn [app PipeThrowModel.erun]; [reflexivity|]. destruct (estep g i); [apply IH|reflexivity]. Qed.

Lemma repeat_add {A} (x : A) n m : repeat x (n + m) = repeat x n ++ repeat x m.
Proof. induction n as [|n IH]; [reflexivity|]. cbn [Nat.add repeat app]. congruence. Qed.

(** What each item does *)
Definition result (p : pipe) (th : list ethread) (i : nat) (top : bool) (r : list eitem) (vs : list (option V)) (v : option V) : eshared :=
  match v with
  | Some x => st p th i r (if top then vs ++ [Some x] else vs)
  | None => st p th i (if top then r else unwind r) (vs ++ [None])
  end.

Section One.
Variable th : list ethread.
Variable i : nat.
Hypothesis Hi : i < length th.

Lemma step_get p top s r vs : estep (st p th i (EGet top s :: r) vs) i = Some (st p th i (map (EGet false) (pre s) ++ ECheck top s :: r) vs).
Proof. unfold PipeThrowModel.estep. rewrite st_nth by exact Hi. unfold st. cbn [ethreads epipe]. rewrite replace_replace. reflexivity. Qed.

Lemma step_check p top s r vs : estep (st p th i (ECheck top s :: r) vs) i = Some (st p th i ((if evaluated p s then EValue top s else ERun top s) :: r) vs).
Proof. unfold PipeThrowModel.estep. rewrite st_nth by exact Hi. unfold st. cbn [ethreads epipe]. rewrite replace_replace. reflexivity. Qed.

Lemma step_run p top s r vs : estep (st p th i (ERun top s :: r) vs) i =
  Some match doEvaluate s (data p) with
       | (d, Some q) => st (mkPipe d (milli p) (calls p ++ [(s, Some q)])) th i (EInsert top s q :: r) vs
       | (d, None) => result (mkPipe d (milli p) (calls p ++ [(s, None)])) th i top r vs None
       end.
Proof.
  unfold PipeThrowModel.estep. rewrite st_nth by exact Hi. unfold st, result, st. cbn [ethreads epipe]. destruct (doEvaluate s (data p)) as [d [q|]]; rewrite replace_replace; reflexivity.
Qed.

Lemma step_insert p top s q r vs : estep (st p th i (EInsert top s q :: r) vs) i =
  Some (st (mkPipe (data p) (record s q (milli p)) (calls p)) th i (EValue top s :: r) vs).
Proof. unfold PipeThrowModel.estep. rewrite st_nth by exact Hi. unfold st. cbn [ethreads epipe]. rewrite replace_replace. reflexivity. Qed.

Lemma step_value p top s r vs : estep (st p th i (EValue top s :: r) vs) i = Some (result p th i top r vs (doGet s (data p))).
Proof.
  unfold PipeThrowModel.estep. rewrite st_nth by exact Hi. unfold result, st. cbn [ethreads epipe]. destruct (doGet s (data p)); rewrite replace_replace; reflexivity.
Qed.

(** Runs of thread [i] alone, in which it has more than [k] things to do before the end *)
Inductive Within (k : nat) : eshared -> eshared -> Prop :=
| Within_end g : Within k g g
| Within_step g l vs g1 g2 : nth_error (ethreads g) i = Some (mkEthread l vs) -> k < length l -> estep g i = Some g1 -> Within k g1 g2 -> Within k g g2.

Lemma within_trans k g1 g2 g3 : Within k g1 g2 -> Within k g2 g3 -> Within k g1 g3.
Proof. induction 1 as [g|g l vs h h' E L S W IH]; intros H; [exact H|]. eapply Within_step; eauto. Qed.

Lemma within_one k p l vs g' : k < length l -> estep (st p th i l vs) i = Some g' -> Within k (st p th i l vs) g'.
Proof. intros L S. eapply Within_step; [apply st_nth, Hi|exact L|exact S|apply Within_end]. Qed.

Lemma within_run k g g' : Within k g g' -> exists n, erun g (repeat i n) = Some g'.
Proof.
  induction 1 as [g|g l vs h h' E L Hs W (n & IH)]; [exists 0; reflexivity|]. exists (S n). cbn [repeat PipeThrowModel.erun]. rewrite Hs. exact IH.
Qed.

Lemma evaluate_within s p p' v : evaluateGet doEvaluate (readOnly doGet) s p = (p', v) ->
  forall top r vs k, k <= length r -> Within k (st p th i (ECheck top s :: r) vs) (result p' th i top r vs v).
Proof.
  intros E top r vs k Hk. unfold evaluateGet, readOnly in E.
  eapply within_trans; [apply within_one; [cbn [length]; lia|apply step_check]|].
  destruct (evaluated p s) eqn:Ev.
  - assert (Hv : v = doGet s (data p)) by (cbn zeta in E; congruence).
    assert (Ep : p' = p) by (cbn zeta in E; transitivity (mkPipe (data p) (milli p) (calls p)); [congruence|destruct p; reflexivity]). subst v p'.
    apply within_one; [cbn [length]; lia|apply step_value].
  - assert (H : evaluated p s = false) by exact Ev. unfold evaluated in H. destruct (find s (milli p)) eqn:Ef; [discriminate|]. clear H.
    destruct (doEvaluate s (data p)) as [d [q|]] eqn:Ed.
    + eapply within_trans; [apply within_one; [cbn [length]; lia|]; rewrite step_run, Ed; reflexivity|].
      eapply within_trans; [apply within_one; [cbn [length]; lia|apply step_insert]|].
      cbn [data milli calls]. rewrite (find_record_none s q (milli p) Ef). cbn [data milli calls] in E.
      assert (v = doGet s d) by congruence. assert (p' = mkPipe d (milli p ++ [(s, q)]) (calls p ++ [(s, Some q)])) by congruence. subst v p'.
      apply within_one; [cbn [length]; lia|apply step_value].
    + assert (v = None) by congruence. assert (p' = mkPipe d (milli p) (calls p ++ [(s, None)])) by congruence. subst v p'.
      apply within_one; [cbn [length]; lia|]. rewrite step_run, Ed. reflexivity.
Qed.

Lemma unwind_false us l : unwind (map (EGet false) us ++ l) = unwind l.
Proof. induction us as [|u us IH]; [reflexivity|exact IH]. Qed.

Definition CallWithin (g : nat -> pipe -> option (pipe * option V)) : Prop := forall s p p' v, g s p = Some (p', v) ->
  forall top r vs k, k <= length r -> Within k (st p th i (EGet top s :: r) vs) (result p' th i top r vs v).

Lemma multiple_within g : CallWithin g -> forall us p p' b, getMultiple g us p = Some (p', b) ->
  forall r vs k, k < length r -> Within k (st p th i (map (EGet false) us ++ r) vs) (if b then st p' th i r vs else st p' th i (unwind r) (vs ++ [None])).
Proof.
  intros G. induction us as [|u us IH]; intros p p' b E r vs k Hk; cbn [getMultiple map app] in *.
  - assert (p' = p) by congruence. assert (b = true) by congruence. subst. apply Within_end.
  - destruct (g u p) as [[p1 v]|] eqn:Eg; [|discriminate].
    assert (W : Within k (st p th i (EGet false u :: map (EGet false) us ++ r) vs) (result p1 th i false (map (EGet false) us ++ r) vs v))
      by (apply (G u p p1 v Eg); rewrite app_length; lia).
    destruct v as [x|].
    + eapply within_trans; [exact W|]. apply IH; [exact E|exact Hk].
    + assert (p' = p1) by congruence. assert (b = false) by congruence. subst. cbn [result] in W. rewrite unwind_false in W. exact W.
Qed.

Lemma call_within fuel : CallWithin (get fuel).
Proof.
  induction fuel as [|fuel IH]; intros s p p' v E top r vs k Hk; [discriminate|]. cbn [PipelineModel.get] in E.
  eapply within_trans; [apply within_one; [cbn [length]; lia|apply step_get]|].
  destruct (getMultiple (get fuel) (pre s) p) as [[p1 b]|] eqn:Em; [|discriminate].
  eapply within_trans; [apply (multiple_within (get fuel) IH _ _ _ _ Em); cbn [length]; lia|]. destruct b.
  - apply evaluate_within; [congruence|exact Hk].
  - assert (p' = p1) by congruence. assert (v = None) by congruence. subst. unfold result. cbn [unwind isTop]. apply Within_end.
Qed.

Lemma gets_run fuel ss : forall p p' vs, gets fuel ss p = Some (p', vs) -> forall ws, exists n,
  erun (st p th i (map (EGet true) ss) ws) (repeat i n) = Some (st p' th i [] (ws ++ vs)).
Proof.
  induction ss as [|s ss IH]; intros p p' vs E ws; cbn [PipelineModel.gets map] in *.
  - assert (p' = p) by congruence. assert (vs = []) by congruence. subst. exists 0. rewrite app_nil_r. reflexivity.
  - destruct (get fuel s p) as [[p1 v]|] eqn:Eg; [|discriminate]. destruct (gets fuel ss p1) as [[p2 ws']|] eqn:Es; [|discriminate].
    assert (p' = p2) by congruence. assert (vs = v :: ws') by congruence. subst.
    destruct (within_run 0 _ _ (call_within fuel s p p1 v Eg true (map (EGet true) ss) ws 0 (Nat.le_0_l _))) as (n & R).
    assert (Er : result p1 th i true (map (EGet true) ss) ws v = st p1 th i (map (EGet true) ss) (ws ++ [v])) by (destruct v; reflexivity).
    rewrite Er in R. destruct (IH p1 p2 ws' Es (ws ++ [v])) as (m & R'). exists (n + m). rewrite repeat_add, erun_app, R.
    rewrite <- app_assoc in R'. exact R'.
Qed.
End One.

(** Serial calls *)
Lemma alone_within i rest g h : Within i (length rest) g h -> (exists vs, nth_error (ethreads h) i = Some (mkEthread rest vs)) ->
  forall g', Alone pre doEvaluate doGet i rest g g' -> g' = h.
Proof.
  induction 1 as [g|g l vs h h' E L S W IH]; intros (ws & Eh) g' A.
  - destruct A as [g ws' _|g l ws' g1 g2 E' N _ _]; [reflexivity|]. congruence.
  - destruct A as [g ws' E'|g l' ws' g1 g2 E' N S' A].
    + exfalso. assert (l = rest) by congruence. subst. lia.
    + assert (g1 = h) by congruence. subst g1. apply IH; [exists ws; exact Eh|exact A].
Qed.

Lemma serial_get i s rest vs g g' fuel p' v : nth_error (ethreads g) i = Some (mkEthread (EGet true s :: rest) vs) ->
  Alone pre doEvaluate doGet i rest g g' -> get fuel s (epipe g) = Some (p', v) -> g' = mkEshared p' (replace (ethreads g) i (mkEthread rest (vs ++ [v]))).
Proof.
  intros E A G. assert (Hi : i < length (ethreads g)) by (apply nth_error_Some; congruence).
  assert (W := call_within (ethreads g) i Hi fuel s (epipe g) p' v G true rest vs (length rest) (le_n _)).
  assert (Er : result p' (ethreads g) i true rest vs v = st p' (ethreads g) i rest (vs ++ [v])) by (destruct v; reflexivity). rewrite Er in W.
  rewrite <- st_eq in W by exact E. destruct g as [p th]. cbn [epipe ethreads] in *.
  apply (alone_within i rest _ _ W); [|exact A]. exists (vs ++ [v]). apply st_nth, Hi.
Qed.

Lemma serial_gets rank : Acyclic pre rank -> forall g l g', ESerial pre doEvaluate doGet g l g' -> exists fuel vs,
  gets fuel (map snd l) (epipe g) = Some (epipe g', vs) /\ length vs = length l /\
  forall i t, nth_error (ethreads g) i = Some t -> exists t', nth_error (ethreads g') i = Some t' /\ egot t' = egot t ++ returnedTo i l vs.
Proof.
  intros Ac g l g' H.
  assert (B : exists fuel, Forall (fun s => rank s < fuel) (map snd l)).
  { exists (S (list_max (map rank (map snd l)))). apply Forall_forall. intros s Hs. assert (rank s <= list_max (map rank (map snd l))); [|lia].
    pose proof (proj1 (list_max_le (map rank (map snd l)) _) (le_n _)) as F. rewrite Forall_forall in F. apply F, in_map, Hs. }
  destruct B as (fuel & B). exists fuel. induction H as [g|g i s rest vs g1 l g2 E A S IH].
  - exists []. split; [reflexivity|]. split; [reflexivity|]. intros i t E. exists t. split; [exact E|]. unfold returnedTo. cbn. rewrite app_nil_r. reflexivity.
  - cbn [map snd] in B. apply Forall_cons_iff in B. destruct B as [Bs B]. destruct (get_ends pre doEvaluate (readOnly doGet) rank Ac fuel s (epipe g) Bs) as (p' & v & G).
    pose proof (serial_get i s rest vs g g1 fuel p' v E A G) as ->. cbn [epipe ethreads] in *. destruct (IH B) as (ws & Gs & L & R). exists (v :: ws).
    cbn [map snd PipelineModel.gets]. rewrite G, Gs. split; [reflexivity|]. split; [cbn [length]; congruence|]. intros j t Ej.
    assert (Hi : i < length (ethreads g)) by (apply nth_error_Some; congruence).
    unfold returnedTo in *. cbn [combine filter fst]. destruct (Nat.eqb_spec i j) as [<-|n].
    + assert (t = mkEthread (EGet true s :: rest) vs) by congruence. subst t. destruct (R i (mkEthread rest (vs ++ [v])) (nth_error_replace_eq _ _ _ Hi)) as (t' & Et & Eg).
      exists t'. split; [exact Et|]. rewrite Eg. cbn [egot map snd]. rewrite <- app_assoc. reflexivity.
    + apply R. rewrite nth_error_replace_neq by congruence. exact Ej.
Qed.

(** Races *)
Definition Reaches (s : nat) (p : pipe) (ok : nat -> pipe -> eitem -> Prop) : Prop := exists t,
  forall th i top r vs, i < length th -> exists n p1 x r', ok t p1 x /\ erun (st p th i (EGet top s :: r) vs) (repeat i n) = Some (st p1 th i (x :: r') vs).

Lemma reach_within i k g g1 : Within i k g g1 -> forall n h, erun g1 (repeat i n) = Some h -> exists m, erun g (repeat i m) = Some h.
Proof. intros W n h R. destruct (within_run i k g g1 W) as (m & Rm). exists (m + n). rewrite repeat_add, erun_app, Rm. exact R. Qed.

Lemma reach_step g g1 i n h : estep g i = Some g1 -> erun g1 (repeat i n) = Some h -> exists m, erun g (repeat i m) = Some h.
Proof. intros Hs R. exists (S n). cbn [repeat PipeThrowModel.erun]. rewrite Hs. exact R. Qed.

Section Reach.
Variable same : pipe -> pipe -> Prop.
Variable ok : pipe -> nat -> pipe -> eitem -> Prop.
Hypothesis same_refl : forall p, same p p.
Hypothesis same_trans : forall p q r, same p q -> same q r -> same p r.
Hypothesis ok_same : forall p q r t x, same p q -> ok q t r x -> ok p t r x.
Hypothesis evaluate_reaches : forall s p p' v, evaluateGet doEvaluate (readOnly doGet) s p = (p', v) -> same p p' \/ exists t,
  forall th i top r vs, i < length th -> exists n p1 x r', ok p t p1 x /\ erun (st p th i (ECheck top s :: r) vs) (repeat i n) = Some (st p1 th i (x :: r') vs).

Lemma multiple_reaches (g : nat -> pipe -> option (pipe * option V)) : (forall th i, i < length th -> CallWithin th i g) ->
  (forall s p p' v, g s p = Some (p', v) -> same p p' \/ Reaches s p (ok p)) ->
  forall us p p' b, getMultiple g us p = Some (p', b) -> same p p' \/ exists t,
  forall th i l vs, i < length th -> exists n p1 x r', ok p t p1 x /\ erun (st p th i (map (EGet false) us ++ l) vs) (repeat i n) = Some (st p1 th i (x :: r') vs).
Proof.
  intros C G. induction us as [|u us IH]; intros p p' b E; cbn [getMultiple map app] in *; [left; assert (p' = p) by congruence; subst; apply same_refl|].
  destruct (g u p) as [[p1 v]|] eqn:Eg; [|discriminate]. destruct (G u p p1 v Eg) as [S|R].
  - destruct v as [x|].
    + destruct (IH p1 p' b E) as [S'|R]; [left; eapply same_trans; eauto|]. destruct R as (t & R). right. exists t. intros th i l vs Hi. destruct (R th i l vs Hi) as (n & p2 & y & r' & O & Rn).
      destruct (reach_within i 0 _ _ (C th i Hi u p p1 _ Eg false (map (EGet false) us ++ l) vs 0 (Nat.le_0_l _)) n _ Rn) as (m & Rm).
      exists m, p2, y, r'. split; [apply (ok_same p p1 p2 t y S O)|exact Rm].
    + left. assert (p' = p1) by congruence. subst. exact S.
  - destruct R as (t & R). right. exists t. intros th i l vs Hi. apply (R th i false (map (EGet false) us ++ l) vs Hi).
Qed.

Lemma call_reaches fuel : forall s p p' v, get fuel s p = Some (p', v) -> same p p' \/ Reaches s p (ok p).
Proof.
  induction fuel as [|fuel IH]; intros s p p' v E; [discriminate|]. cbn [PipelineModel.get] in E.
  destruct (getMultiple (get fuel) (pre s) p) as [[p1 b]|] eqn:Em; [|discriminate].
  destruct (multiple_reaches (get fuel) (fun th i Hi => call_within th i Hi fuel) IH (pre s) p p1 b Em) as [S|R].
  - destruct b.
    + destruct (evaluate_reaches s p1 p' v) as [S'|R]; [congruence|left; eapply same_trans; eauto|]. destruct R as (t & R). right. exists t. intros th i top r vs Hi.
      destruct (R th i top r vs Hi) as (n & p2 & x & r' & O & Rn).
      destruct (reach_within i 0 _ _ (multiple_within th i Hi (get fuel) (call_within th i Hi fuel) _ _ _ _ Em (ECheck top s :: r) vs 0 (Nat.lt_0_succ _)) n _ Rn) as (m & Rm).
      destruct (reach_step _ _ i m _ (step_get th i Hi p top s r vs) Rm) as (m' & Rm').
      exists m', p2, x, r'. split; [apply (ok_same p p1 p2 t x S O)|exact Rm'].
    + left. assert (p' = p1) by congruence. subst. exact S.
  - destruct R as (t & R). right. exists t. intros th i top r vs Hi. destruct (R th i (ECheck top s :: r) vs Hi) as (n & p2 & x & r' & O & Rn).
    destruct (reach_step _ _ i n _ (step_get th i Hi p top s r vs) Rn) as (m & Rm). exists m, p2, x, r'. split; assumption.
Qed.
End Reach.

Lemma evaluate_run s p p' v : evaluateGet doEvaluate (readOnly doGet) s p = (p', v) -> p = p' \/ exists t,
  forall th i top r vs, i < length th -> exists n p1 x r', (p1 = p /\ exists top', x = ERun top' t) /\ erun (st p th i (ECheck top s :: r) vs) (repeat i n) = Some (st p1 th i (x :: r') vs).
Proof.
  intros E. unfold evaluateGet, readOnly in E. destruct (evaluated p s) eqn:Ev.
  - left. cbn zeta in E. transitivity (mkPipe (data p) (milli p) (calls p)); [destruct p; reflexivity|congruence].
  - right. exists s. intros th i top r vs Hi. exists 1, p, (ERun top s), r. split; [split; [reflexivity|exists top; reflexivity]|].
    cbn [repeat PipeThrowModel.erun]. rewrite step_check by exact Hi. rewrite Ev. reflexivity.
Qed.

Lemma evaluate_insert s p p' v : evaluateGet doEvaluate (readOnly doGet) s p = (p', v) -> milli p = milli p' \/ exists t,
  forall th i top r vs, i < length th -> exists n p1 x r', (exists top' q, x = EInsert top' t q) /\ erun (st p th i (ECheck top s :: r) vs) (repeat i n) = Some (st p1 th i (x :: r') vs).
Proof.
  intros E. unfold evaluateGet, readOnly in E. destruct (evaluated p s) eqn:Ev.
  - left. cbn zeta in E. assert (p' = mkPipe (data p) (milli p) (calls p)) by congruence. subst p'. reflexivity.
  - destruct (doEvaluate s (data p)) as [d [q|]] eqn:Ed.
    + right. exists s. intros th i top r vs Hi. exists 2, (mkPipe d (milli p) (calls p ++ [(s, Some q)])), (EInsert top s q), r.
      split; [exists top, q; reflexivity|]. cbn [repeat PipeThrowModel.erun]. rewrite step_check by exact Hi. rewrite Ev.
      rewrite step_run by exact Hi. rewrite Ed. reflexivity.
    + left. assert (p' = mkPipe d (milli p) (calls p ++ [(s, None)])) by congruence. subst p'. reflexivity.
Qed.

Lemma first_run fuel s p p' v : get fuel s p = Some (p', v) -> p = p' \/ Reaches s p (fun t p1 x => p1 = p /\ exists top', x = ERun top' t).
Proof.
  intros G. refine (call_reaches eq (fun p t p1 x => p1 = p /\ exists top', x = ERun top' t) _ _ _ _ fuel s p p' v G).
  - reflexivity.
  - intros q1 q2 q3 -> ->. reflexivity.
  - intros q1 q2 q3 t x -> H. exact H.
  - exact evaluate_run.
Qed.

Lemma first_insert fuel s p p' v : get fuel s p = Some (p', v) -> milli p = milli p' \/ Reaches s p (fun t p1 x => exists top' q, x = EInsert top' t q).
Proof.
  intros G. refine (call_reaches (fun p p' => milli p = milli p') (fun p t p1 x => exists top' q, x = EInsert top' t q) _ _ _ _ fuel s p p' v G).
  - reflexivity.
  - intros q1 q2 q3 H1 H2. congruence.
  - intros q1 q2 q3 t x _ H. exact H.
  - exact evaluate_insert.
Qed.

Lemma to_check rank : Acyclic pre rank -> forall m u, rank u < m -> forall p th j top r vs, j < length th ->
  exists n top' t r', erun (st p th j (EGet top u :: r) vs) (repeat j n) = Some (st p th j (ECheck top' t :: r') vs).
Proof.
  intros Ac. induction m as [|m IH]; intros u Hu p th j top r vs Hj; [lia|]. pose proof (step_get th j Hj p top u r vs) as E.
  destruct (pre u) as [|w ws] eqn:Ep; cbn [map app] in E.
  - exists 1, top, u, r. cbn [repeat PipeThrowModel.erun]. rewrite E. reflexivity.
  - assert (Hw : rank w < rank u) by (apply Ac; rewrite Ep; left; reflexivity).
    destruct (IH w ltac:(lia) p th j false (map (EGet false) ws ++ ECheck top u :: r) vs Hj) as (n & top' & t & r' & R).
    exists (S n), top', t, r'. cbn [repeat PipeThrowModel.erun]. rewrite E. exact R.
Qed.

Lemma throw_same_race fuel p p' v s i j rest rest' vs vs' th : get fuel s p = Some (p', v) -> calls p' <> calls p -> i <> j ->
  nth_error th i = Some (mkEthread (EGet true s :: rest) vs) -> nth_error th j = Some (mkEthread (EGet true s :: rest') vs') ->
  exists sched g', erun (mkEshared p th) sched = Some g' /\ eracy g'.
Proof.
  intros G C N Ei Ej. destruct (first_run fuel s p p' v G) as [->|(t & R)]; [contradiction|].
  assert (Hi : i < length th) by (apply nth_error_Some; congruence). assert (Hj : j < length th) by (apply nth_error_Some; congruence).
  destruct (R th i true rest vs Hi) as (n & p1 & x & r' & (-> & top1 & ->) & Rn). rewrite <- st_eq in Rn by exact Ei.
  set (ti := mkEthread (ERun top1 t :: r') vs) in *. assert (Hj' : j < length (replace th i ti)) by (rewrite replace_length; exact Hj).
  destruct (R (replace th i ti) j true rest' vs' Hj') as (m & p2 & y & r2 & (-> & top2 & ->) & Rm).
  rewrite <- st_eq in Rm by (rewrite nth_error_replace_neq by congruence; exact Ej).
  exists (repeat i n ++ repeat j m), (st p (replace th i ti) j (ERun top2 t :: r2) vs'). split; [rewrite erun_app, Rn; exact Rm|].
  exists i, j, (ERun top1 t), (ERun top2 t), r', r2, vs, vs'. split; [exact N|]. split; [|split; [apply st_nth, Hj'|apply Nat.eqb_refl]].
  unfold st. cbn [ethreads]. rewrite nth_error_replace_neq by congruence. apply nth_error_replace_eq, Hi.
Qed.

Lemma throw_any_race rank fuel p p' v s u i j rest rest' vs vs' th : Acyclic pre rank -> get fuel s p = Some (p', v) -> milli p' <> milli p -> i <> j ->
  nth_error th i = Some (mkEthread (EGet true s :: rest) vs) -> nth_error th j = Some (mkEthread (EGet true u :: rest') vs') ->
  exists sched g', erun (mkEshared p th) sched = Some g' /\ eracy g'.
Proof.
  intros Ac G C N Ei Ej. destruct (first_insert fuel s p p' v G) as [E|(t & R)]; [congruence|].
  assert (Hi : i < length th) by (apply nth_error_Some; congruence). assert (Hj : j < length th) by (apply nth_error_Some; congruence).
  destruct (to_check rank Ac (S (rank u)) u (le_n _) p th j true rest' vs' Hj) as (m & top2 & t2 & r2 & Rm). rewrite <- st_eq in Rm by exact Ej.
  set (tj := mkEthread (ECheck top2 t2 :: r2) vs') in *. assert (Hi' : i < length (replace th j tj)) by (rewrite replace_length; exact Hi).
  destruct (R (replace th j tj) i true rest vs Hi') as (n & p1 & x & r' & (top1 & q & ->) & Rn).
  rewrite <- st_eq in Rn by (rewrite nth_error_replace_neq by congruence; exact Ei).
  exists (repeat j m ++ repeat i n), (st p1 (replace th j tj) i (EInsert top1 t q :: r') vs). split; [rewrite erun_app, Rm; exact Rn|].
  exists i, j, (EInsert top1 t q), (ECheck top2 t2), r', r2, vs, vs'. split; [exact N|]. split; [apply st_nth, Hi'|]. split; [|reflexivity].
  unfold st. cbn [ethreads]. rewrite nth_error_replace_neq by congruence. apply nth_error_replace_eq, Hj.
Qed.

(** Read only *)
Definition Clean (p : pipe) (x : eitem) : Prop :=
  match x with EGet _ s | ECheck _ s | EValue _ s => forall t, About s t -> evaluated p t = true | _ => False end.

Lemma unwind_forall (P : eitem -> Prop) l : Forall P l -> Forall P (unwind l).
Proof. induction 1 as [|x l Hx Hl IH]; cbn [unwind]; [constructor|]. destruct (isTop x); assumption. Qed.

Lemma clean_step p th i t g' : nth_error th i = Some t -> Forall (Clean p) (etodo t) -> estep (mkEshared p th) i = Some g' ->
  exists t', g' = mkEshared p (replace th i t') /\ Forall (Clean p) (etodo t') /\ estep (mkEshared p [t]) 0 = Some (mkEshared p [t']).
Proof.
  intros E F H. unfold PipeThrowModel.estep in H |- *. cbn [ethreads epipe nth_error] in *. rewrite E in H. destruct t as [[|x r] vs]; [discriminate|]. cbn [etodo] in F.
  apply Forall_cons_iff in F. destruct F as [Fx Fr]. destruct x as [top s|top s|top s|top s q|top s]; cbn [Clean] in Fx.
  - injection H as <-. eexists. split; [reflexivity|]. split; [|reflexivity]. cbn [etodo]. apply Forall_app. split; [|constructor; [exact Fx|exact Fr]].
    apply Forall_map, Forall_forall. intros u Hu t Ht. apply Fx. right. apply about_needs. exists u. split; assumption.
  - injection H as <-. eexists. split; [reflexivity|]. split; [|reflexivity]. cbn [etodo]. rewrite (Fx s (or_introl eq_refl)). constructor; assumption.
  - destruct Fx.
  - destruct Fx.
  - destruct (doGet s (data p)); injection H as <-; eexists; (split; [reflexivity|]); (split; [|reflexivity]); cbn [etodo]; [exact Fr|].
    change (Forall (Clean p) (unwind (EValue top s :: r))). apply unwind_forall. constructor; assumption.
Qed.

Lemma clean_run p starts sched : forall th g', length th = length starts ->
  (forall i t, nth_error th i = Some t -> Forall (Clean p) (etodo t) /\ exists t0 n, nth_error starts i = Some t0 /\ erun (mkEshared p [t0]) (repeat 0 n) = Some (mkEshared p [t])) ->
  erun (mkEshared p th) sched = Some g' ->
  epipe g' = p /\ length (ethreads g') = length starts /\
  forall i t, nth_error (ethreads g') i = Some t -> Forall (Clean p) (etodo t) /\ exists t0 n, nth_error starts i = Some t0 /\ erun (mkEshared p [t0]) (repeat 0 n) = Some (mkEshared p [t]).
Proof.
  induction sched as [|j sched IH]; intros th g' L I R; cbn [PipeThrowModel.erun] in R; [injection R as <-; auto|].
  destruct (estep (mkEshared p th) j) as [g1|] eqn:E; [|discriminate].
  destruct (nth_error th j) as [t|] eqn:Ej; [|unfold PipeThrowModel.estep in E; cbn [ethreads] in E; rewrite Ej in E; discriminate].
  destruct (I j t Ej) as (F & t0 & n & E0 & R0). destruct (clean_step p th j t g1 Ej F E) as (t' & -> & F' & S'). apply (IH (replace th j t') g').
  - rewrite replace_length. exact L.
  - intros i u Ei. destruct (Nat.eq_dec j i) as [->|n'].
    + rewrite (threads_eq _ _ _ _ Ej) in Ei. injection Ei as <-. split; [exact F'|]. exists t0, (n + 1). split; [exact E0|].
      rewrite repeat_add, erun_app, R0. cbn [repeat PipeThrowModel.erun]. rewrite S'. reflexivity.
    + rewrite nth_error_replace_neq in Ei by congruence. exact (I i u Ei).
  - exact R.
Qed.

Lemma stuck_end t (p : pipe) n : etodo t = [] -> forall g', erun (mkEshared p [t]) (repeat 0 n) = Some g' -> g' = mkEshared p [t].
Proof.
  intros E g' R. destruct n as [|n]; cbn [repeat PipeThrowModel.erun] in R; [congruence|]. unfold PipeThrowModel.estep in R. cbn [ethreads nth_error] in R.
  destruct t as [l vs]. cbn [etodo] in E. subst l. discriminate.
Qed.

Lemma same_end g n m (t u : ethread) (p q : pipe) : erun g (repeat 0 n) = Some (mkEshared p [t]) -> erun g (repeat 0 m) = Some (mkEshared q [u]) ->
  etodo t = [] -> etodo u = [] -> mkEshared p [t] = mkEshared q [u].
Proof.
  intros Rn Rm Et Eu. destruct (Nat.le_ge_cases n m) as [H|H].
  - replace m with (n + (m - n)) in Rm by lia. rewrite repeat_add, erun_app, Rn in Rm. symmetry. apply (stuck_end t p _ Et _ Rm).
  - replace n with (m + (n - m)) in Rn by lia. rewrite repeat_add, erun_app, Rm in Rn. apply (stuck_end u q _ Eu _ Rn).
Qed.

Lemma throw_read_only rank : Acyclic pre rank -> forall p requests,
  (forall i s t, Requests requests i s -> About s t -> evaluated p t = true) ->
  forall sched g', erun (mkEshared p (easking requests)) sched = Some g' ->
  ~ eracy g' /\ epipe g' = p /\
  (EFinished g' -> forall i ss, nth_error requests i = Some ss -> exists fuel t, gets fuel ss p = Some (p, egot t) /\ nth_error (ethreads g') i = Some t).
Proof.
  intros Ac p requests Ev sched g' R.
  assert (Ask : forall i ss, nth_error requests i = Some ss -> nth_error (easking requests) i = Some (mkEthread (map (EGet true) ss) (@nil (option V)))).
  { intros i ss E. unfold easking. rewrite nth_error_map, E. reflexivity. }
  destruct (clean_run p (easking requests) sched (easking requests) g' eq_refl) as (Ep & L & I); [|exact R|].
  { intros i t E. split; [|exists t, 0; split; [exact E|reflexivity]]. unfold easking in E. rewrite nth_error_map in E.
    destruct (nth_error requests i) as [ss|] eqn:Er; [|discriminate]. injection E as <-. cbn [etodo]. apply Forall_map, Forall_forall. intros s Hs t Ht.
    apply (Ev i s t); [exists ss; split; assumption|exact Ht]. }
  split; [|split; [exact Ep|]].
  - intros (i & j & x & y & r & r' & vs & vs' & _ & Ei & Ej & C). destruct (I i _ Ei) as [Fi _]. destruct (I j _ Ej) as [Fj _]. cbn [etodo] in Fi, Fj.
    apply Forall_cons_iff in Fi. apply Forall_cons_iff in Fj. destruct Fi as [Fi _]. destruct Fj as [Fj _].
    destruct x, y; cbn [Clean eclash] in *; try discriminate; contradiction.
  - intros Fin i ss Es. pose proof (Ask i ss Es) as Ea. assert (Hi : i < length (ethreads g')) by (rewrite L; apply nth_error_Some; congruence).
    destruct (nth_error (ethreads g') i) as [t|] eqn:Et; [|apply nth_error_Some in Et; [contradiction|exact Hi]].
    destruct (I i t Et) as (F & t0 & n & E0 & R0). assert (t0 = mkEthread (map (EGet true) ss) []) by congruence. subst t0.
    destruct (gets_ends pre doEvaluate (readOnly doGet) rank Ac ss p) as (enough & Ends). destruct (Ends enough (le_n _)) as (q & vs & G).
    destruct (gets_run [mkEthread [] []] 0 (Nat.lt_0_succ _) enough ss p q vs G []) as (m & Rm). unfold st in Rm. cbn [replace app] in Rm.
    pose proof (same_end _ n m t (mkEthread [] vs) p q R0 Rm (Fin i t Et) eq_refl) as E. exists enough, t. split; [|reflexivity].
    assert (q = p) by congruence. assert (t = mkEthread [] vs) by congruence. subst q t. exact G.
Qed.

(** All the interleavings are finite *)
Section Finite.
Variable rank : nat -> nat.
Hypothesis Acyc : Acyclic pre rank.
Notation weight := (weight pre rank).

Definition eweight (x : eitem) : nat := match x with EGet _ s => weight s | ECheck _ _ => 4 | ERun _ _ => 3 | EInsert _ _ _ => 2 | EValue _ _ => 1 end.
Definition lweight (l : list eitem) : nat := list_sum (map eweight l).

Lemma lweight_app l m : lweight (l ++ m) = lweight l + lweight m.
Proof. unfold lweight. rewrite map_app. apply list_sum_app. Qed.

Lemma lweight_cons x l : lweight (x :: l) = eweight x + lweight l.
Proof. reflexivity. Qed.

Lemma egets_weight b ss : lweight (map (EGet b) ss) = list_sum (map weight ss).
Proof. unfold lweight. rewrite map_map. reflexivity. Qed.

Lemma eweight_pos x : 1 <= eweight x.
Proof. destruct x; cbn [eweight]; try lia. rewrite (weight_eq (D := D) (V := unit) pre (fun _ d => d) (fun _ _ => tt) rank Acyc). lia. Qed.

Lemma unwind_weight l : lweight (unwind l) <= lweight l.
Proof. induction l as [|x l IH]; [reflexivity|]. cbn [unwind]. rewrite lweight_cons. pose proof (eweight_pos x). destruct (isTop x); lia. Qed.

Lemma unwind_less x l : lweight (unwind (x :: l)) < lweight (x :: l).
Proof. cbn [unwind]. rewrite lweight_cons. pose proof (eweight_pos x). pose proof (unwind_weight l). destruct (isTop x); lia. Qed.

Lemma estep_inv g i g' : estep g i = Some g' -> exists t t', nth_error (ethreads g) i = Some t /\ ethreads g' = replace (ethreads g) i t' /\ lweight (etodo t') < lweight (etodo t).
Proof.
  unfold PipeThrowModel.estep. destruct (nth_error (ethreads g) i) as [[[|x r] vs]|] eqn:E; [discriminate| |discriminate]. intros H.
  exists (mkEthread (x :: r) vs).
  pose proof (unwind_less x r) as U. destruct x as [top s|top s|top s|top s q|top s].
  - injection H as <-. eexists. split; [reflexivity|]. split; [reflexivity|]. cbn [etodo]. rewrite lweight_app, egets_weight, !lweight_cons. cbn [eweight]. rewrite (weight_eq (D := D) (V := unit) pre (fun _ d => d) (fun _ _ => tt) rank Acyc s). lia.
  - injection H as <-. eexists. split; [reflexivity|]. split; [reflexivity|]. cbn [etodo]. rewrite !lweight_cons. destruct (evaluated (epipe g) s); cbn [eweight]; lia.
  - destruct (doEvaluate s (data (epipe g))) as [d [q|]]; injection H as <-; eexists; (split; [reflexivity|]); (split; [reflexivity|]); cbn [etodo]; [|exact U].
    rewrite !lweight_cons. cbn [eweight]. lia.
  - injection H as <-. eexists. split; [reflexivity|]. split; [reflexivity|]. cbn [etodo]. rewrite !lweight_cons. cbn [eweight]. lia.
  - destruct (doGet s (data (epipe g))); injection H as <-; eexists; (split; [reflexivity|]); (split; [reflexivity|]); cbn [etodo]; [|exact U].
    rewrite lweight_cons. cbn [eweight]. lia.
Qed.

Definition tweight (g : eshared) : nat := list_sum (map (fun t => lweight (etodo t)) (ethreads g)).

Lemma eschedules_finite sched : forall g g', erun g sched = Some g' -> tweight g' + length sched <= tweight g.
Proof.
  induction sched as [|i sched IH]; intros g g' H; cbn [PipeThrowModel.erun length] in *; [injection H as <-; lia|].
  destruct (estep g i) as [g1|] eqn:E; [|discriminate]. specialize (IH g1 g' H). destruct (estep_inv g i g1 E) as (t & t' & Ei & E' & L).
  unfold tweight in *. rewrite E' in IH. pose proof (esum_replace (fun t => lweight (etodo t)) _ _ _ t' Ei) as Hs. cbn beta in Hs. lia.
Qed.

Lemma enot_finished (g : eshared) : EFinished g \/ exists i x r vs, nth_error (ethreads g) i = Some (mkEthread (x :: r) vs).
Proof.
  unfold EFinished. destruct g as [d ts]. cbn [ethreads]. induction ts as [|[l vs] ts IH].
  - left. intros [|i] t H; discriminate.
  - destruct l as [|x r].
    + destruct IH as [IH|(i & x & r & vs' & H)].
      * left. intros [|i] t H; [injection H as <-; reflexivity|exact (IH i t H)].
      * right. exists (S i), x, r, vs'. exact H.
    + right. exists 0, x, r, vs. reflexivity.
Qed.

Lemma ecan_finish g : exists sched g', erun g sched = Some g' /\ EFinished g'.
Proof.
  remember (tweight g) as w eqn:Ew. revert g Ew. induction w as [w IH] using lt_wf_ind. intros g Ew.
  destruct (enot_finished g) as [F|(i & x & r & vs & H)]; [exists [], g; split; [reflexivity|exact F]|].
  destruct (estep g i) as [g1|] eqn:E.
  - pose proof (eschedules_finite [i] g g1) as L. cbn [PipeThrowModel.erun] in L. rewrite E in L. specialize (L eq_refl). cbn [length] in L.
    destruct (IH (tweight g1)) with (g := g1) as (sched & g' & R & F); [lia|reflexivity|]. exists (i :: sched), g'. split; [|exact F]. cbn [PipeThrowModel.erun]. rewrite E. exact R.
  - exfalso. unfold PipeThrowModel.estep in E. rewrite H in E. destruct x as [top s|top s|top s|top s q|top s]; try discriminate.
Qed.

Lemma throw_finite g : (exists most, forall sched g', erun g sched = Some g' -> length sched <= most) /\ exists sched g', erun g sched = Some g' /\ EFinished g'.
Proof. split; [|apply ecan_finish]. exists (tweight g). intros sched g' H. pose proof (eschedules_finite sched g g' H). lia. Qed.
End Finite.
End Threads.
