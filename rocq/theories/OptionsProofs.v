From Coq Require Import String.
From Verif Require Import Res OptionsModel OptionsSpec Lemmas.

Section Options.
Context {V : Type}.
Implicit Types (d : option_desc V) (ds : list (option_desc V)) (o : options V).

Lemma findDesc_in ds d : NoDup (map oname ds) -> In d ds -> findDesc (oname d) ds = Some d.
Proof.
  unfold findDesc. induction ds as [|e ds IH]; intros ND H; [destruct H|]. cbn [map] in ND. inversion ND as [|? ? N ND']; subst. cbn [find].
  destruct H as [->|H]; [now rewrite String.eqb_refl|]. destruct (String.eqb_spec (oname e) (oname d)) as [E|_]; [|now apply IH].
  destruct N. rewrite E. now apply in_map.
Qed.

Lemma findDesc_some n ds d : findDesc n ds = Some d -> In d ds /\ oname d = n.
Proof. unfold findDesc. intros H. apply find_some in H. destruct H as [H E]. apply String.eqb_eq in E. auto. Qed.

(** Names and values after assignment *)
Definition occP (l : list (string * list string)) (n : string) : list (list string) := map snd (filter (fun x => String.eqb (fst x) n) l).

Lemma assign_occ ds : forall l names r n, assign ds names l = Some r -> occP r n = occurrences names l n.
Proof.
  induction l as [|[m vs|v] l IH]; intros names r n E; cbn [assign occurrences] in *.
  - injection E as <-. reflexivity.
  - destruct (findDesc m ds); [|discriminate]. destruct (assign ds names l) as [r'|] eqn:E'; [|discriminate]. injection E as <-.
    unfold occP in *. cbn [filter fst]. destruct (String.eqb m n); cbn [map snd]; rewrite (IH names r' n E'); reflexivity.
  - destruct names as [|m names]; [discriminate|]. destruct (assign ds names l) as [r'|] eqn:E'; [|discriminate]. injection E as <-.
    unfold occP in *. cbn [filter fst]. destruct (String.eqb m n); cbn [map snd]; rewrite (IH names r' n E'); reflexivity.
Qed.

Lemma isFinal_in n l : isFinal n l = true <-> In n l.
Proof.
  unfold isFinal. rewrite existsb_exists. split; [intros (x & H & E); apply String.eqb_eq in E; now subst|intros H; exists n; split; [exact H|apply String.eqb_refl]].
Qed.

Lemma readValue_meaning d p vs v : readValue d p vs = Some v -> meaning d vs = Some v.
Proof. unfold readValue, meaning. destruct vs as [|t [|t' vs]]; destruct (oimplicit d); intros H; auto; try discriminate; destruct p; congruence. Qed.

Lemma storeLoop_spec ds final d : NoDup (map oname ds) -> In d ds -> forall l vars new vars' new',
  storeLoop ds final l vars new = (vars', Some new') ->
  (isFinal (oname d) final = true -> lookup (oname d) vars' = lookup (oname d) vars) /\
  (isFinal (oname d) final = false ->
     (occP l (oname d) = [] -> lookup (oname d) vars' = lookup (oname d) vars) /\
     (occP l (oname d) <> [] -> exists v, lookup (oname d) vars' = Some (Some v, false) /\ meaning d (last (occP l (oname d)) []) = Some v)) /\
  (In (oname d) new' <-> In (oname d) new \/ (isFinal (oname d) final = false /\ occP l (oname d) <> [])).
Proof.
  intros ND I. induction l as [|[n vs] l IH]; intros vars new vars' new' E; cbn [storeLoop] in E.
  - injection E as <- <-. split; [auto|]. split; [intros _; split; [auto|intros H; destruct H; reflexivity]|]. split; [auto|]. intros [H|[_ H]]; [exact H|destruct H; reflexivity].
  - unfold occP. cbn [filter fst]. destruct (String.eqb_spec n (oname d)) as [->|N].
    + cbn [map snd]. fold (occP l (oname d)). destruct (isFinal (oname d) final) eqn:F.
      * destruct (IH _ _ _ _ E) as (A & _ & C). split; [exact A|]. split; [discriminate|]. rewrite C. split; intros [H|[H _]]; auto; discriminate.
      * rewrite (findDesc_in ds d ND I) in E. set (p := match lookup (oname d) vars with Some (v, false) => v | _ => None end) in E.
        destruct (readValue d p vs) as [v|] eqn:R; [|discriminate]. destruct (IH _ _ _ _ E) as (_ & B & C). split; [discriminate|]. split.
        -- intros _. split; [discriminate|]. intros _. destruct (B eq_refl) as [B1 B2]. destruct (occP l (oname d)) as [|w ws] eqn:O.
           ++ exists v. split; [rewrite (B1 eq_refl); cbn [lookup]; now rewrite String.eqb_refl|]. cbn [last]. exact (readValue_meaning d p vs v R).
           ++ destruct B2 as (v' & B2 & B3); [discriminate|]. exists v'. split; [exact B2|exact B3].
        -- rewrite C. split; intros _; [right; split; [reflexivity|discriminate]|left; left; reflexivity].
    + fold (occP l (oname d)). destruct (isFinal n final) eqn:F; [exact (IH _ _ _ _ E)|]. destruct (findDesc n ds) as [d'|]; [|discriminate].
      destruct (readValue d' _ vs) as [v|]; [|discriminate]. destruct (IH _ _ _ _ E) as (A & B & C).
      assert (L : lookup (oname d) ((n, (Some v, false)) :: vars) = lookup (oname d) vars) by (cbn [lookup]; now rewrite (proj2 (String.eqb_neq n (oname d)) N)).
      rewrite L in A, B. split; [exact A|]. split; [exact B|]. rewrite C. cbn [In]. split; [intros [[H|H]|H]; auto; destruct N; exact H|intros [H|H]; auto].
Qed.

Lemma storeDefaults_spec n ds : NoDup (map oname ds) -> forall vars : list (string * (option V * bool)), lookup n (storeDefaults ds vars) =
  match lookup n vars with Some x => Some x | None => match findDesc n ds with Some d => option_map (fun v => (Some v, true)) (odefault d) | None => None end end.
Proof.
  induction ds as [|e ds IH]; intros ND vars; [cbn; destruct (lookup n vars); reflexivity|]. cbn [map] in ND. inversion ND as [|? ? N ND']; subst.
  cbn [storeDefaults]. rewrite IH by assumption. unfold findDesc. cbn [find]. fold (findDesc n ds). destruct (String.eqb_spec (oname e) n) as [E|E].
  - assert (F : findDesc n ds = None).
    { destruct (findDesc n ds) as [d|] eqn:F; [|reflexivity]. apply findDesc_some in F. destruct F as [F1 F2]. destruct N. rewrite E, <- F2. now apply in_map. }
    rewrite F. rewrite <- E in *. destruct (lookup (oname e) vars) as [x|] eqn:L; [destruct (odefault e); now rewrite L|].
    destruct (odefault e); cbn [lookup option_map]; [now rewrite String.eqb_refl|now rewrite L].
  - assert (L : lookup n match lookup (oname e) vars with Some _ => vars | None => match odefault e with Some v => (oname e, (Some v, true)) :: vars | None => vars end end = lookup n vars).
    { destruct (lookup (oname e) vars); [reflexivity|]. destruct (odefault e); [|reflexivity]. cbn [lookup]. now rewrite (proj2 (String.eqb_neq (oname e) n) E). }
    match goal with |- match lookup n ?x with _ => _ end = _ => replace x with (match lookup (oname e) vars with Some _ => vars | None => match odefault e with Some v => (oname e, (Some v, true)) :: vars | None => vars end end) by (destruct (lookup (oname e) vars), (odefault e); reflexivity) end.
    rewrite L. reflexivity.
Qed.

(** State of one option after some command lines *)
Definition Inv (o : options V) d (given : option (list string)) (parsed : bool) : Prop :=
  match given with
  | Some vs => isFinal (oname d) (ofinal o) = true /\ exists v, lookup (oname d) (ovars o) = Some (Some v, false) /\ meaning d vs = Some v
  | None => isFinal (oname d) (ofinal o) = false /\
      lookup (oname d) (ovars o) = if parsed then option_map (fun v => (Some v, true)) (odefault d) else None
  end.

Lemma parse_inv o o' l d given parsed : NoDup (map oname (onamed o)) -> In d (onamed o) -> parse o l = (o', false) -> Inv o d given parsed ->
  onamed o' = onamed o /\ opositional o' = opositional o /\
  Inv o' d match given with Some vs => Some vs | None => match occurrences (opositional o) l (oname d) with [] => None | x :: xs => Some (last (x :: xs) []) end end true.
Proof.
  intros ND I E H. unfold parse in E. destruct (assign (onamed o) (opositional o) l) as [g|] eqn:A; [|discriminate].
  destruct (storeLoop (onamed o) (ofinal o) g (ovars o) []) as [vars [new|]] eqn:S; [|discriminate]. injection E as <-. cbn [onamed opositional]. split; [reflexivity|]. split; [reflexivity|].
  destruct (storeLoop_spec _ _ d ND I _ _ _ _ _ S) as (P & Q & R). rewrite (assign_occ _ _ _ _ (oname d) A) in Q, R.
  assert (D := storeDefaults_spec (oname d) (onamed o) ND vars). rewrite (findDesc_in _ _ ND I) in D.
  unfold Inv in *. cbn [ofinal ovars].
  assert (F : isFinal (oname d) (new ++ ofinal o) = (isFinal (oname d) new || isFinal (oname d) (ofinal o))%bool) by apply existsb_app.
  destruct given as [vs|].
  - destruct H as (F1 & v & L & M). rewrite F, F1, Bool.orb_true_r. split; [reflexivity|]. exists v. rewrite D, (P F1), L. auto.
  - destruct H as (F1 & L). destruct (Q F1) as [Q1 Q2]. destruct (occurrences (opositional o) l (oname d)) as [|x xs].
    + split.
      * rewrite F, F1, Bool.orb_false_r. destruct (isFinal (oname d) new) eqn:G; [|reflexivity]. apply isFinal_in, R in G. destruct G as [[]|[_ G]]. destruct G. reflexivity.
      * rewrite D, (Q1 eq_refl), L. destruct parsed; [destruct (odefault d)|]; reflexivity.
    + destruct Q2 as (v & Q2 & Q3); [discriminate|]. split.
      * rewrite F. replace (isFinal (oname d) new) with true; [reflexivity|]. symmetry. apply isFinal_in, R. right. split; [exact F1|discriminate].
      * exists v. rewrite D, Q2. auto.
Qed.

Lemma parses_inv ls : forall o o' d given parsed, NoDup (map oname (onamed o)) -> In d (onamed o) -> Parses o ls o' -> Inv o d given parsed ->
  Inv o' d match given with Some vs => Some vs | None => firstGiven (opositional o) ls (oname d) end (parsed || negb (match ls with [] => true | _ => false end)).
Proof.
  induction ls as [|l ls IH]; intros o o' d given parsed ND I H S; inversion H; subst.
  - cbn [firstGiven negb]. rewrite Bool.orb_false_r. destruct given; exact S.
  - match goal with X : parse o l = (?o1, false), Y : Parses ?o1 ls o' |- _ => destruct (parse_inv o o1 l d given parsed ND I X S) as (A & B & C); rewrite <- A in ND, I; assert (G := IH o1 o' d _ true ND I Y C) end.
    rewrite B in G. cbn [negb firstGiven]. rewrite Bool.orb_true_r. cbn [orb] in G. destruct given as [vs|]; [exact G|].
    destruct (occurrences (opositional o) l (oname d)); exact G.
Qed.

Theorem value_ok ds names ls o d : NoDup (map oname ds) -> In d ds -> Parses (declared ds names) ls o ->
  match firstGiven names ls (oname d) with
  | Some vs => exists v, meaning d vs = Some v /\ as_ o (oname d) = Some v /\ has o (oname d) = true
  | None => as_ o (oname d) = match ls with [] => None | _ => odefault d end /\
            has o (oname d) = match ls, odefault d with _ :: _, Some _ => true | _, _ => false end
  end.
Proof.
  intros ND I H. assert (G := parses_inv ls (declared ds names) o d None false ND I H). cbn [opositional declared orb] in G.
  assert (S : Inv (declared ds names) d None false) by (split; reflexivity). specialize (G S). unfold Inv in G. unfold as_, has.
  destruct (firstGiven names ls (oname d)) as [vs|].
  - destruct G as (_ & v & L & M). exists v. rewrite L. auto.
  - destruct G as (_ & L). rewrite L. destruct ls; cbn [negb]; [auto|]. destruct (odefault d); auto.
Qed.

(** A correct command line is accepted *)
Lemma assign_ok ds : forall l names, (forall n vs, In (Given n vs) l -> exists d, In d ds /\ oname d = n) ->
  (List.length (filter (fun x => match x with Positional _ => true | _ => false end) l) <= List.length names)%nat -> exists r, assign ds names l = Some r.
Proof.
  induction l as [|[n vs|v] l IH]; intros names H P; cbn [assign filter] in *.
  - eauto.
  - destruct (H n vs (or_introl eq_refl)) as (d & I & E). destruct (IH names) as (r & ->); [intros m ws Hm; apply (H m ws); now right|exact P|].
    destruct (findDesc n ds) as [d'|] eqn:F; [eauto|]. unfold findDesc in F. assert (X := find_none _ _ F d I). cbn in X. rewrite E, String.eqb_refl in X. discriminate.
  - destruct names as [|m names]; cbn [List.length] in P; [lia|]. destruct (IH names) as (r & ->); [intros k ws Hk; apply (H k ws); now right|lia|]. eauto.
Qed.

Lemma assign_names ds : forall l names r n vs, assign ds names l = Some r -> In (n, vs) r -> In n names \/ exists d, In d ds /\ oname d = n.
Proof.
  induction l as [|[m ws|v] l IH]; intros names r n vs E H; cbn [assign] in E.
  - injection E as <-. destruct H.
  - destruct (findDesc m ds) as [d|] eqn:F; [|discriminate]. destruct (assign ds names l) as [r'|] eqn:E'; [|discriminate]. injection E as <-.
    destruct H as [H|H]; [injection H as -> ->; right; exists d; exact (findDesc_some _ _ _ F)|exact (IH names r' n vs E' H)].
  - destruct names as [|m names]; [discriminate|]. destruct (assign ds names l) as [r'|] eqn:E'; [|discriminate]. injection E as <-.
    destruct H as [H|H]; [injection H as -> _; left; now left|]. destruct (IH names r' n vs E' H) as [X|X]; [left; now right|now right].
Qed.

Lemma storeLoop_ok ds : NoDup (map oname ds) -> forall l vars new,
  (forall n vs, In (n, vs) l -> exists d, In d ds /\ oname d = n /\ meaning d vs <> None) ->
  (forall n, (List.length (occP l n) <= 1)%nat) -> (forall n, occP l n <> [] -> lookup n vars = None) ->
  exists vars' new', storeLoop ds [] l vars new = (vars', Some new').
Proof.
  intros ND. induction l as [|[n vs] l IH]; intros vars new H O L; cbn [storeLoop isFinal existsb]; [eauto|].
  destruct (H n vs (or_introl eq_refl)) as (d & I & E & M). assert (F := findDesc_in ds d ND I). rewrite E in F. rewrite F.
  assert (On := O n). assert (Ln := L n). unfold occP in On, Ln. cbn [filter fst] in On, Ln. rewrite String.eqb_refl in On, Ln. cbn [map List.length] in On, Ln. rewrite Ln by discriminate.
  assert (R : readValue d None vs = meaning d vs) by (unfold readValue, meaning; destruct vs as [|t [|]]; destruct (oimplicit d); reflexivity).
  rewrite R. destruct (meaning d vs) as [v|]; [|destruct M; reflexivity]. apply IH.
  - intros m ws Hm. apply H. now right.
  - intros m. assert (Om := O m). unfold occP in Om. cbn [filter fst] in Om. destruct (String.eqb n m); cbn [map List.length] in Om; unfold occP; lia.
  - intros m Hm. cbn [lookup]. destruct (String.eqb_spec n m) as [<-|N].
    + destruct Hm. unfold occP. destruct (map snd (filter (fun x => String.eqb (fst x) n) l)); [reflexivity|cbn [List.length] in On; lia].
    + apply L. unfold occP. cbn [filter fst]. rewrite (proj2 (String.eqb_neq n m) N). exact Hm.
Qed.

Theorem parse_ok ds names l : NoDup (map oname ds) -> incl names (map oname ds) ->
  (forall n vs, In (Given n vs) l -> In n (map oname ds)) ->
  (List.length (filter (fun x => match x with Positional _ => true | _ => false end) l) <= List.length names)%nat ->
  (forall n, (List.length (occurrences names l n) <= 1)%nat) ->
  (forall d vs, In d ds -> In vs (occurrences names l (oname d)) -> meaning d vs <> None) ->
  exists o, parse (declared ds names) l = (o, false).
Proof.
  intros ND IN HN HP HO HM. unfold parse. cbn [declared onamed opositional ofinal ovars].
  destruct (assign_ok ds l names) as (r & A); [intros n vs H; apply HN in H; apply in_map_iff in H; destruct H as (d & E & I); eauto|exact HP|].
  rewrite A. destruct (storeLoop_ok ds ND r [] []) as (vars & new & ->); [| | |eauto].
  - intros n vs H. assert (X : exists d, In d ds /\ oname d = n).
    { destruct (assign_names ds l names r n vs A H) as [X|X]; [|exact X]. apply IN, in_map_iff in X. destruct X as (d & E & I). eauto. }
    destruct X as (d & I & E). exists d. split; [exact I|]. split; [exact E|]. apply HM; [exact I|]. rewrite <- (assign_occ ds l names r (oname d) A). unfold occP.
    apply in_map_iff. exists (n, vs). split; [reflexivity|]. apply filter_In. split; [exact H|]. cbn [fst]. apply String.eqb_eq. now symmetry.
  - intros n. rewrite (assign_occ ds l names r n A). apply HO.
  - reflexivity.
Qed.
End Options.

Open Scope string_scope.
Lemma has_default : exists o, Parses someOptions [[Positional "1"]] o /\ has o "flag" = true /\ has o "named" = true.
Proof. eexists. split; [eapply Parses_cons; [reflexivity|apply Parses_nil]|]. split; reflexivity. Qed.

Lemma parse_again : exists o, Parses someOptions [[Given "named" ["1"]]; [Given "named" ["2"]]] o /\ as_ o "named" = Some 1.
Proof. eexists. split; [eapply Parses_cons; [reflexivity|eapply Parses_cons; [reflexivity|apply Parses_nil]]|reflexivity]. Qed.

Lemma error_trace :
  (let bad := parse someOptions [Given "named" ["a"]] in snd bad = true /\ has (fst bad) "named" = true /\
     let next := parse (fst bad) [] in snd next = false /\ as_ (fst next) "named" = None) /\
  (let bad := parse someOptions [Positional "1"; Given "named" ["a"]] in snd bad = true /\
     snd (parse (fst bad) [Positional "1"; Given "named" ["2"]]) = true /\ snd (parse someOptions [Positional "1"; Given "named" ["2"]]) = false).
Proof. repeat split. Qed.

Lemma copy_adds : let s := declareIn 1 namedOption (copyObject 0 (newObject [])) in
  snd (parseIn 1 [Given "named" ["1"]] s) = true /\ snd (parseIn 0 [Given "named" ["1"]] s) = false.
Proof. repeat split. Qed.

Lemma program_name {V} (lex : list string -> list item) (o : options V) name args : parseWords lex o (name :: args) = parse o (lex args).
Proof. reflexivity. Qed.

Lemma declare_all {V} (l : list (bool * option_desc V)) :
  declareAll l = declared (map snd l) (map (fun bd => oname (snd bd)) (filter fst l)).
Proof.
  unfold declareAll, declared. assert (G : forall (o : options V), ovars o = [] -> ofinal o = [] ->
    fold_left (fun o bd => if fst bd : bool then declarePositional (snd bd) o else declare (snd bd) o) l o =
    mkOptions (onamed o ++ map snd l) (opositional o ++ map (fun bd => oname (snd bd)) (filter fst l)) [] []).
  { induction l as [|[p d] l IH]; intros o H1 H2; cbn [fold_left map filter fst snd].
    - rewrite !app_nil_r. destruct o; cbn in *; now subst.
    - destruct p; cbn [map snd]; rewrite IH by assumption; cbn [declare declarePositional onamed opositional]; now rewrite <- !app_assoc. }
  rewrite G by reflexivity. reflexivity.
Qed.

(** Each object adds to itself *)
Definition Owning {V} (s : store_ V) : Prop := forall k o a, nth_error s k = Some (o, a) -> a = k.

Lemma ostep_only {V} (s : store_ V) a : Owning s -> Owning (ostep s a) /\ (length s <= length (ostep s a))%nat /\
  forall k o, nth_error s k = Some (o, k) -> nth_error (ostep s a) k = Some (only k o a, k).
Proof.
  intros H. assert (R : forall j o (Hj : (j < length s)%nat), Owning (replace s j (o, j))).
  { intros j o Hj k o' b E. destruct (Nat.eq_dec j k) as [->|N]; [rewrite nth_error_replace_eq in E by assumption; congruence|].
    rewrite nth_error_replace_neq in E by assumption. eapply H, E. }
  destruct a as [|j d|j l]; cbn [ostep].
  - unfold newObject. split; [|split; [rewrite app_length; lia|]].
    + intros k o b E. destruct (Nat.lt_ge_cases k (length s)) as [L|L].
      * rewrite nth_error_app1 in E by assumption. eapply H, E.
      * rewrite nth_error_app2 in E by assumption. destruct (k - length s)%nat as [|m] eqn:Q; cbn in E; [injection E as <- <-; lia|destruct m; discriminate].
    + intros k o E. cbn [only]. rewrite nth_error_app1; [assumption|]. apply nth_error_Some. congruence.
  - unfold declareIn. destruct (nth_error s j) as [[o b]|] eqn:E.
    + assert (b = j) by (eapply H, E). subst b. rewrite E. assert (Hj : (j < length s)%nat) by (apply nth_error_Some; congruence).
      split; [now apply R|]. split; [now rewrite replace_length|]. intros k o' E'. cbn [only]. destruct (Nat.eqb_spec j k) as [->|N].
      * rewrite nth_error_replace_eq by assumption. congruence.
      * now rewrite nth_error_replace_neq.
    + split; [assumption|]. split; [lia|]. intros k o' E'. cbn [only]. destruct (Nat.eqb_spec j k) as [->|N]; congruence.
  - unfold parseIn. destruct (nth_error s j) as [[o b]|] eqn:E; cbn [fst].
    + assert (b = j) by (eapply H, E). subst b. destruct (parse o l) as [o1 e] eqn:Ep. cbn [fst]. assert (Hj : (j < length s)%nat) by (apply nth_error_Some; congruence).
      split; [now apply R|]. split; [now rewrite replace_length|]. intros k o' E'. cbn [only]. destruct (Nat.eqb_spec j k) as [->|N].
      * rewrite nth_error_replace_eq by assumption. rewrite E' in E. injection E as <-. now rewrite Ep.
      * now rewrite nth_error_replace_neq.
    + split; [assumption|]. split; [lia|]. intros k o' E'. cbn [only]. destruct (Nat.eqb_spec j k) as [->|N]; congruence.
Qed.

Lemma objects_apart {V} (before after : list (oop V)) :
  let s := fold_left ostep before [] in
  nth_error (fold_left ostep (before ++ ONew :: after) []) (length s) = Some (fold_left (only (length s)) after newOptions, length s).
Proof.
  cbv zeta. rewrite fold_left_app. set (s := fold_left ostep before []).
  assert (Hs : Owning s).
  { unfold s. assert (G : forall l (t : store_ V), Owning t -> Owning (fold_left ostep l t)); [|apply G; intros [|?] ? ?; discriminate].
    induction l as [|a l IH]; intros t Ht; cbn [fold_left]; [assumption|]. apply IH. now apply ostep_only. }
  cbn [fold_left]. destruct (ostep_only s ONew Hs) as (H1 & _ & _).
  assert (H2 : nth_error (ostep s ONew) (length s) = Some (newOptions, length s)) by (cbn [ostep]; unfold newObject; rewrite nth_error_app2, Nat.sub_diag by lia; reflexivity).
  revert H1 H2. generalize (ostep s ONew) (@newOptions V). generalize (length s). clear.
  induction after as [|a after IH]; intros k t o H1 H2; cbn [fold_left]; [assumption|].
  destruct (ostep_only t a H1) as (J1 & _ & J2). apply IH; [assumption|]. now apply J2.
Qed.

Lemma copies_parse {V} (s : store_ V) k o a l : nth_error s k = Some (o, a) ->
  (nth_error (copyObject k s) (length s) = Some (o, a) /\ forall j, (j < length s)%nat -> nth_error (copyObject k s) j = nth_error s j) /\
  snd (parseIn k l s) = snd (parse o l) /\ nth_error (fst (parseIn k l s)) k = Some (fst (parse o l), a) /\
  length (fst (parseIn k l s)) = length s /\ forall j, j <> k -> nth_error (fst (parseIn k l s)) j = nth_error s j.
Proof.
  intros E. assert (Hk : (k < length s)%nat) by (apply nth_error_Some; congruence). split.
  - unfold copyObject. rewrite E. split; [rewrite nth_error_app2, Nat.sub_diag by lia; reflexivity|]. intros j Hj. now apply nth_error_app1.
  - unfold parseIn. rewrite E. destruct (parse o l) as [o' e]. cbn [fst snd]. split; [reflexivity|]. split; [now apply nth_error_replace_eq|].
    split; [apply replace_length|]. intros j Hj. apply nth_error_replace_neq. congruence.
Qed.
