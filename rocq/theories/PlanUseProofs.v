From Verif Require Import Res VecModel Spec Lemmas DftModel DftSpec DftProofs AlignedModel AlignedSpec AlignedProofs PlanModel PlanSpec PlanProofs.

(** The functions leak their result. *)
Lemma access_outcome s k b r : alive (mem s) k b -> pstep s (PAccess k) r <->
  (((bsize b = 0 \/ Readable s (bdata b) (8 * bsize b)) /\ r = Ok s) \/ (~ (bsize b = 0 \/ Readable s (bdata b) (8 * bsize b)) /\ r = UB)).
Proof.
  intros Ha. set (e := if (bsize b =? 0) || inside (live (mem s)) (bdata b) (8 * bsize b) then Ok s else UB).
  assert (E : ((bsize b = 0 \/ Readable s (bdata b) (8 * bsize b)) /\ e = Ok s) \/ (~ (bsize b = 0 \/ Readable s (bdata b) (8 * bsize b)) /\ e = UB)).
  { unfold e. rewrite <- inside_spec. destruct (Z.eqb_spec (bsize b) 0) as [Z0|N0]; cbn [orb]; [left; auto|]. destruct (inside _ _ _); [left|right]; split; auto; intros [X|X]; congruence. }
  split.
  - intros H. assert (Er : r = e); [|rewrite Er; exact E]. inversion H as [| | | | | | | | |? c Hc Ek Er]; subst. replace c with b by (unfold alive in *; congruence). reflexivity.
  - intros H. assert (X := pstep_access s k b Ha). fold e in X. destruct H as [[T ->]|[T ->]]; destruct E as [[T' E]|[T' E]]; try tauto; rewrite E in X; exact X.
Qed.

Lemma access_same s k s' : pstep s (PAccess k) (Ok s') -> s' = s.
Proof.
  intros H. remember (Ok s') as r eqn:Er. remember (PAccess k) as o eqn:Eo. destruct H; try discriminate Eo.
  destruct ((bsize b =? 0) || _); [|discriminate]. congruence.
Qed.

Lemma transform_same s i s' : pstep s (PTransform i) (Ok s') -> s' = s /\ exists p, planAt s i p /\ Transformable s p.
Proof.
  intros H. assert (X : exists p, planAt s i p) by (inversion H; subst; eauto). destruct X as [p Hp].
  destruct (proj1 (transform_outcome s i p _ Hp) H) as [[T E]|[_ E]]; [|discriminate]. split; [congruence|eauto].
Qed.

Lemma functions_leak ops s t normalized shape s' : prun pstart ops (Ok s) -> PlanShape shape -> prun s (functionBody t normalized shape s) (Ok s') ->
  exists b q n, alive (mem s') (S (S (length (bufs (mem s))))) b /\ owns b = false /\
    q <= bdata b /\ bdata b + 8 * bsize b <= q + n /\
    (forall x, In x (live (mem s')) <-> x = (q, n) \/ In x (live (mem s))) /\ ~ Allocated (mem s) q /\ Leaked (mem s') q /\
    (forall f, LiveFftw s' f <-> LiveFftw s f).
Proof.
  intros H PS HR. assert (HI := history_inv _ _ H). unfold functionBody in HR. cbn [app] in HR.
  set (i := length (plans s)) in *. set (k := length (bufs (mem s))) in *.
  destruct (prun_cons _ _ _ _ HR) as (s1 & H1 & R1). clear HR. destruct (prun_cons _ _ _ _ R1) as (s1a & H1a & R2). clear R1. apply access_same in H1a. subst s1a.
  destruct (prun_cons _ _ _ _ R2) as (s1b & H1b & R3). clear R2. apply transform_same in H1b as [-> (p & Hp & T)].
  assert (R4 : prun s1 [PBuffer (OMove (S k)); PDestroy i] (Ok s')).
  { destruct normalized; cbn [app] in R3; [|exact R3]. destruct (prun_cons _ _ _ _ R3) as (s1c & H1c & R4). apply access_same in H1c. subst s1c. exact R4. }
  clear R3. destruct (prun_cons _ _ _ _ R4) as (s2 & H2 & R5). clear R4. destruct (prun_cons _ _ _ _ R5) as (s3 & H3 & R6). clear R5. inversion R6; subst s3. clear R6.
  assert (HI1 := pstep_inv _ _ _ HI H1). assert (HI2 := pstep_inv _ _ _ HI1 H2). assert (HI3 := pstep_inv _ _ _ HI2 H3).
  inversion H1 as [? ? ? ? ? HN| | | | | | | | |]; subst. clear H1.
  destruct (newPlan_ok_form _ _ _ _ _ _ HN) as (m1 & bi & bo & inS & outS & dims & h & Hi & Ho & Hd & M1 & M2 & Eb & Eb1 & Ep & EH). fold k in Eb, Ep.
  assert (Hp0 := Hp). unfold planAt in Hp. rewrite Ep in Hp. unfold i in Hp. rewrite nth_error_app2, Nat.sub_diag in Hp by lia. cbn [nth_error] in Hp. injection Hp as <-.
  destruct T as (n & f & En & Ef & _). cbn [dhandle] in En. subst h. destruct EH as [[EH _]|(EH & _ & Efs & I1 & I2)]; [discriminate|]. injection EH as ->.
  assert (IM1 := pi_mem _ HI1).
  assert (D1 : bdata bi <> 0) by (intros E; rewrite E, inside_null in I1 by exact IM1; discriminate).
  assert (D2 : bdata bo <> 0) by (intros E; rewrite E, inside_null in I2 by exact IM1; discriminate).
  destruct (shape_extents t shape inS outS dims PS Hi Ho Hd) as (X1 & X2 & B1 & B2 & U1 & U2). destruct PS as [PS PB].
  assert (W : 1 <= inWidth t <= 2 /\ 1 <= outWidth t <= 2) by (destruct t; cbn; lia).
  assert (Eb2 : bufs (mem s1) = bufs m1 ++ [Some bo]) by (rewrite Eb, Eb1, <- app_assoc; reflexivity).
  rewrite U1 in M1. rewrite U2 in M2.
  destruct (new_owner (mem s) (inWidth t * shapeSize inS) m1 bi ltac:(nia) ltac:(nia) M1 Eb1 D1) as (S1 & A1 & O1 & F1 & L1 & Q1 & Q1' & V1).
  destruct (new_owner m1 (outWidth t * shapeSize outS) (mem s1) bo ltac:(nia) ltac:(nia) M2 Eb2 D2) as (S2 & A2 & O2 & F2 & L2 & Q2 & Q2' & V2).
  set (n1 := 8 * (inWidth t * shapeSize inS) + 63) in *. set (n2 := 8 * (outWidth t * shapeSize outS) + 63) in *.
  assert (ESZ : blockSize 8 (bsize bo) (bas bo) = n2) by (rewrite S2, A2; unfold blockSize; rewrite u64_small by nia; lia). rewrite ESZ in Q2'.
  assert (Hbi : nth_error (bufs (mem s1)) k = Some (Some bi)) by (rewrite Eb; unfold k; rewrite nth_error_app2, Nat.sub_diag by lia; reflexivity).
  assert (Hbo : nth_error (bufs (mem s1)) (S k) = Some (Some bo)).
  { rewrite Eb. unfold k. rewrite nth_error_app2 by lia. replace (S (length (bufs (mem s))) - length (bufs (mem s)))%nat with 1%nat by lia. reflexivity. }
  assert (LB : length (bufs (mem s1)) = S (S k)) by (rewrite Eb, app_length; cbn [length]; unfold k; lia).
  (* the move of the output *)
  remember (Ok s2) as r2 eqn:E2. remember (PBuffer (OMove (S k))) as o2 eqn:Eo2. destruct H2 as [| | | | | | | |o r Hn H2|]; try discriminate Eo2. injection Eo2 as ->.
  destruct r as [m2| |]; cbn [bind] in E2; try discriminate. injection E2 as <-.
  destruct (step_move_form _ _ _ _ H2) as (c & Hc & L3 & V3 & Eb3). assert (c = bo) by (unfold alive in Hc; congruence). subst c.
  (* the destruction of the plan *)
  remember (Ok s') as r3 eqn:E3. remember (PDestroy i) as o3 eqn:Eo3. destruct H3 as [| | | | | | |i' p' r Hp' H3| |]; try discriminate Eo3. injection Eo3 as ->.
  assert (Hp1 : planAt s1 i p') by exact Hp'. rewrite (planAt_fun _ _ _ _ Hp1 Hp0) in *. clear Hp1 Hp' p'. cbn [dhandle din dout fftws mem plans] in *.
  destruct (destroyFftw (Handle (length (fftws s))) (fftws s1)) as [fs| |] eqn:Ed; cbn [bind] in E3; try discriminate. destruct r as [m3| |]; cbn [bind] in E3; try discriminate.
  injection E3 as <-. cbn [mem fftws] in *. destruct (run2_ok _ _ _ _ _ H3) as (m2' & K1 & K2).
  destruct (step_destroy_form _ _ _ _ K1) as (c1 & C1 & V4 & Eb4 & L4). destruct (step_destroy_form _ _ _ _ K2) as (c2 & C2 & V5 & Eb5 & L5).
  assert (c1 = mkBuffer 0 1 0 0).
  { unfold alive in C1. rewrite Eb3, nth_error_app1 in C1 by (rewrite replace_length; lia). rewrite nth_error_replace_eq in C1 by lia. congruence. } subst c1.
  assert (c2 = bi).
  { unfold alive in C2. rewrite Eb4, nth_error_replace_neq in C2 by lia. rewrite Eb3, nth_error_app1 in C2 by (rewrite replace_length; lia).
    rewrite nth_error_replace_neq in C2 by lia. congruence. } subst c2.
  assert (LIVE : forall x, In x (live m3) <-> x = (bcont bo, n2) \/ In x (live (mem s))).
  { intros [q z]. rewrite L5, L4, L3, L2, L1. cbn [owns bcont Z.eqb negb]. split.
    - intros [[[X|[X|X]] _] Y]; auto. exfalso. injection X as <- <-. apply Y; auto.
    - intros [X|X]; [injection X as -> ->|]; split; try split; try discriminate; cbn [In]; auto; intros _ E.
      + apply (Fresh_not_in _ _ _ n1 F2). rewrite L1, E. left. reflexivity.
      + subst q. exact (Fresh_not_in _ _ _ _ F1 X). }
  assert (NA : ~ Allocated (mem s) (bcont bo)).
  { intros [z Z]. apply (Fresh_not_in _ _ _ z F2). rewrite L1. right. exact Z. }
  exists (mkBuffer (bsize bo) (bas bo) 0 (bdata bo)), (bcont bo), n2. cbn [bdata bsize].
  assert (LAST : nth_error (bufs m3) (S (S k)) = Some (Some (mkBuffer (bsize bo) (bas bo) 0 (bdata bo)))).
  { rewrite Eb5, nth_error_replace_neq, Eb4, nth_error_replace_neq, Eb3 by lia. rewrite nth_error_app2 by (rewrite replace_length; lia).
    rewrite replace_length, LB, Nat.sub_diag. reflexivity. }
  split; [exact LAST|]. split; [reflexivity|]. split; [exact Q2|]. split; [rewrite S2; exact Q2'|]. split; [exact LIVE|]. split; [exact NA|]. split.
  - split; [exists n2; apply LIVE; auto|]. split.
    + rewrite V5, V4, V3, V2, V1. intros X. apply NA. apply (inv_released _ _ (pi_mem _ HI)). exact X.
    + intros j (d & Hj & Od & Ed'). apply owns_spec in Od. unfold alive in Hj. rewrite Eb5 in Hj.
      apply nth_error_replace_inv in Hj as [(_ & X & _)|[N1 Hj]]; [discriminate|]. rewrite Eb4 in Hj.
      apply nth_error_replace_inv in Hj as [(_ & X & _)|[N2 Hj]]; [discriminate|]. rewrite Eb3 in Hj.
      apply nth_error_snoc in Hj as [Hj|[_ [= <-]]]; [|apply Od; reflexivity].
      apply nth_error_replace_inv in Hj as [(-> & _ & _)|[_ Hj]]; [congruence|].
      assert (Hj' : alive (mem s) j d).
      { rewrite Eb in Hj. destruct (Nat.lt_ge_cases j (length (bufs (mem s)))) as [Lt|Ge]; [rewrite nth_error_app1 in Hj by exact Lt; exact Hj|].
        exfalso. assert (Hlt : (j < length (bufs (mem s) ++ [Some bi; Some bo]))%nat) by (apply nth_error_Some; congruence). rewrite app_length in Hlt. cbn [length] in Hlt. fold k in Ge, Hlt. lia. }
      apply NA. destruct (inv_block _ _ (pi_mem _ HI) j d Hj') as [X _]; [apply owns_spec; exact Od|]. rewrite <- Ed'. eexists. exact X.
  - assert (EF : fs = fftws s ++ [None]).
    { unfold destroyFftw in Ed. rewrite Efs in Ed. rewrite nth_error_app2, Nat.sub_diag in Ed by lia. cbn [nth_error] in Ed. injection Ed as <-.
      generalize (fftws s). clear. induction l as [|x l IH]; cbn [length app replace]; [reflexivity|]. f_equal. exact IH. }
    intros z. unfold LiveFftw. cbn [fftws]. rewrite EF. split; intros [g G].
    + apply nth_error_snoc in G as [G|[_ G]]; [exists g; exact G|discriminate].
    + exists g. apply nth_error_snoc_l. exact G.
Qed.

Lemma functions_leak_forever ops s t normalized shape s' ops' s'' : prun pstart ops (Ok s) -> PlanShape shape ->
  prun s (functionBody t normalized shape s) (Ok s') -> prun s' ops' (Ok s'') ->
  exists b q, alive (mem s') (S (S (length (bufs (mem s))))) b /\ owns b = false /\ q <= bdata b /\ ~ Allocated (mem s) q /\ Leaked (mem s'') q.
Proof.
  intros H PS H1 H2. destruct (functions_leak _ _ _ _ _ _ H PS H1) as (b & q & n & A & O & L & _ & _ & NA & LK & _).
  exists b, q. repeat (split; [assumption|]). eapply prun_leaked; [|exact H2|exact LK]. eapply prun_inv; [eapply history_inv; exact H|exact H1].
Qed.

(** Assigning to in() or out(). *)
Lemma prun_snoc ops s o s' : prun pstart ops (Ok s) -> pstep s o (Ok s') -> prun pstart (ops ++ [o]) (Ok s').
Proof.
  generalize pstart. induction ops as [|x ops IH]; intros s0 H H1; cbn [app].
  - inversion H; subst. eapply prun_ok; [exact H1|constructor].
  - destruct (prun_cons _ _ _ _ H) as (s1 & X & Y). eapply prun_ok; [exact X|]. apply IH; assumption.
Qed.

Lemma assignment_desynchronizes ops s i p n f k kk b c s' b' : prun pstart ops (Ok s) -> planAt s i p -> dhandle p = Handle n -> nth_error (fftws s) n = Some (Some f) ->
  ((k = din p /\ fwIn f = bdata b) \/ (k = dout p /\ fwOut f = bdata b)) ->
  alive (mem s) k b -> owns b = true -> bas b = 64 -> k <> kk -> alive (mem s) kk c -> owns c = true -> bas c = 64 ->
  bsize c = bsize b -> 0 < bsize b -> 8 * bsize b + 63 < 2 ^ 64 ->
  pstep s (PBuffer (OCopyAssign k kk)) (Ok s') -> alive (mem s') k b' -> owns b' = true ->
  planAt s' i p /\ nth_error (fftws s') n = Some (Some f) /\ bdata b' <> bdata b /\ ~ Synced s' p /\ Leaked (mem s') (bcont b).
Proof.
  intros H Hp En Ef Hk Hb Ob Ab Nk Hc Oc Ac Sz Pos Bd HS Hb' Ob'. assert (HI := history_inv _ _ H). assert (IM := pi_mem _ HI).
  assert (HI' := pstep_inv _ _ _ HI HS). assert (IM' := pi_mem _ HI').
  destruct (inv_block _ _ IM _ _ Hb Ob) as [Lb Eb]. rewrite Ab in *.
  remember (Ok s') as r2 eqn:E2. remember (PBuffer (OCopyAssign k kk)) as o2 eqn:Eo2. destruct HS as [| | | | | | | |o r Hn HS|]; try discriminate Eo2. injection Eo2 as ->.
  destruct r as [m2| |]; cbn [bind] in E2; try discriminate. injection E2 as <-. cbn [mem fftws plans] in *.
  split; [exact Hp|]. split; [exact Ef|].
  assert (LK : Leaked m2 (bcont b)).
  { assert (C : Careless (mem s) (OCopyAssign k kk)) by (split; [exact Nk|]; exists (bcont b), b; auto).
    remember (Ok m2) as r4 eqn:E4. remember (OCopyAssign k kk) as o4 eqn:Eo4. destruct HS as [| | | |i4 j4 b4 c4 p4 l4 N4 Hi4 Hj4 Ho4 HM| | | | | | |]; try discriminate Eo4; injection Eo4 as -> ->; [congruence| |].
    - injection E4 as <-. assert (b4 = b) by (eapply alive_fun; eassumption). subst b4. assert (c4 = c) by (eapply alive_fun; eassumption). subst c4.
      assert (HP : p4 <> bcont b /\ forall z, In (bcont b, z) (live (mem s)) -> In (bcont b, z) l4).
      { apply malloc_spec in HM as [[-> ->]|(N' & -> & F)]; [split; [apply owns_spec in Ob; congruence|auto]|].
        split; [|intros; right; assumption]. intros ->. eapply Fresh_not_in; [exact F|exact Lb]. }
      destruct HP as [HP HL]. split; [eexists; apply HL, Lb|]. split; [cbn [user]; eapply inv_user; eassumption|].
      intros j (d & Hj & Hd & E). unfold alive in Hj. cbn [bufs] in Hj.
      apply nth_error_replace_inv in Hj as [(_ & [= <-] & _)|[Nj Hj]]; [cbn [bcont] in E; congruence|].
      symmetry in E. revert E. eapply inv_distinct; [exact IM|exact Hb|exact Hj|auto|exact Ob].
    - exfalso. assert (c0 = c) by (eapply alive_fun; eassumption). congruence. }
  assert (ND : bdata b' <> bdata b).
  { remember (Ok m2) as r4 eqn:E4. remember (OCopyAssign k kk) as o4 eqn:Eo4. destruct HS as [| | | |i4 j4 b4 c4 p4 l4 N4 Hi4 Hj4 Ho4 HM| | | | | | |]; try discriminate Eo4; injection Eo4 as -> ->; [congruence| |].
    - injection E4 as <-. assert (c4 = c) by (eapply alive_fun; eassumption). subst c4.
      assert (b' = mkBuffer (bsize c) (bas c) p4 (alignUp p4 (bas c))).
      { unfold alive in Hb'. cbn [bufs] in Hb'. rewrite nth_error_replace_eq in Hb' by (eapply alive_lt; exact Hb). congruence. }
      subst b'. cbn [bdata]. rewrite Ac in *. apply owns_spec in Ob'. cbn [bcont] in Ob'.
      apply malloc_spec in HM as [[-> _]|(N' & -> & F)]; [congruence|].
      assert (ES : forall z, 0 < z -> 8 * z + 63 < 2 ^ 64 -> blockSize 8 z 64 = 8 * z + 63) by (intros z Z1 Z2; unfold blockSize; rewrite u64_small by lia; lia).
      rewrite Sz, ES in F by assumption. rewrite ES in Lb by assumption. destruct F as (F1 & F2 & F3). specialize (F3 _ _ Lb).
      destruct (inv_live _ _ IM _ _ Lb) as [G1 G2].
      destruct (alignUp_spec (bcont b) 6 ltac:(lia) ltac:(lia) ltac:(lia)) as [_ X1]. destruct (alignUp_spec p4 6 ltac:(lia) ltac:(lia) ltac:(lia)) as [_ X2].
      change (2 ^ 6) with 64 in X1, X2. rewrite Eb. lia.
    - exfalso. assert (c0 = c) by (eapply alive_fun; eassumption). congruence. }
  split; [exact ND|]. split; [|exact LK].
  intros S. destruct (pi_in _ HI' i p Hp) as [bi Hbi]. destruct (pi_out _ HI' i p Hp) as [bo Hbo]. cbn [mem] in *.
  destruct (S n f bi bo En Ef Hbi Hbo) as (S1 & S2 & _). destruct Hk as [[-> Ek]|[-> Ek]].
  - assert (bi = b') by (eapply alive_fun; eassumption). subst bi. congruence.
  - assert (bo = b') by (eapply alive_fun; eassumption). subst bo. congruence.
Qed.

(** Concrete histories. *)
Lemma pnew_at s t shape inS outS dims a1 a2 m :
  dftInShape t shape = Ok inS -> dftOutShape t shape = Ok outS -> planDims t shape = Ok dims -> Forall (fun d => 0 < d) dims ->
  let z1 := inWidth t * u64 (shapeSize inS) in let z2 := outWidth t * u64 (shapeSize outS) in
  Fresh (live (mem s)) (blockSize 8 z1 64) a1 -> Fresh ((a1, blockSize 8 z1 64) :: live (mem s)) (blockSize 8 z2 64) a2 ->
  m = mkState ((a2, blockSize 8 z2 64) :: (a1, blockSize 8 z1 64) :: live (mem s))
        ((bufs (mem s) ++ [Some (mkBuffer z1 64 a1 (alignUp a1 64))]) ++ [Some (mkBuffer z2 64 a2 (alignUp a2 64))]) (user (mem s)) ->
  inside (live m) (alignUp a1 64) (8 * inWidth t * fftwIn t dims) && inside (live m) (alignUp a2 64) (8 * outWidth t * fftwOut t dims) = true ->
  pstep s (PNew t shape 0 0) (Ok (mkPstate m
    (fftws s ++ [Some (mkFftw (alignUp a1 64) (8 * inWidth t * fftwIn t dims) (alignUp a2 64) (8 * outWidth t * fftwOut t dims))])
    (plans s ++ [Some (mkDplan t shape (length (bufs (mem s))) (S (length (bufs (mem s)))) (Handle (length (fftws s))))]))).
Proof.
  intros Hi Ho Hd HP z1 z2 F1 F2 Em HI. constructor.
  assert (P := planner_plan (live m) t dims (alignUp a1 64) (alignUp a2 64) (fftws s) HP). cbn zeta in P. rewrite HI in P.
  refine (newPlan_ok s t shape 0 0 inS outS dims m (mkBuffer z1 64 a1 (alignUp a1 64)) (mkBuffer z2 64 a2 (alignUp a2 64)) _ Hi Ho Hd _ _ _ P); fold z1 z2.
  - eapply run_ok; [apply (new_step 8 (mem s) z1 a1 F1)|]. eapply run_ok; [apply new_step; exact F2|]. cbn [live bufs user]. rewrite <- Em. constructor.
  - unfold alive. rewrite Em. cbn [bufs]. rewrite nth_error_app1 by (rewrite app_length; cbn [length]; lia). rewrite nth_error_app2, Nat.sub_diag by lia. reflexivity.
  - unfold alive. rewrite Em. cbn [bufs]. rewrite nth_error_app2 by (rewrite app_length; cbn [length]; lia).
    rewrite app_length. cbn [length]. replace (S (length (bufs (mem s))) - (length (bufs (mem s)) + 1))%nat with 0%nat by lia. reflexivity.
Qed.

Ltac freshBlock := repeat (apply Fresh_cons; [|first [left; vm_compute; discriminate|right; vm_compute; discriminate]]); apply Fresh_nil; vm_compute; reflexivity.
Lemma pstep_eq s o r r' : pstep s o r -> r = r' -> pstep s o r'.
Proof. intros H <-. exact H. Qed.

(** A plan of shape (2, 3) with its input at address 4160 and its output at address 8256, and a second one. *)
Definition onePlan : pstate := mkPstate
  (mkState [(8200, 159); (4104, 111)] [Some (mkBuffer 6 64 4104 4160); Some (mkBuffer 12 64 8200 8256)] [])
  [Some (mkFftw 4160 48 8256 96)] [Some (mkDplan RealDft [2; 3] 0 1 (Handle 0))].
Definition twoPlans : pstate := mkPstate
  (mkState [(16392, 159); (12296, 111); (8200, 159); (4104, 111)]
     [Some (mkBuffer 6 64 4104 4160); Some (mkBuffer 12 64 8200 8256); Some (mkBuffer 6 64 12296 12352); Some (mkBuffer 12 64 16392 16448)] [])
  [Some (mkFftw 4160 48 8256 96); Some (mkFftw 12352 48 16448 96)]
  [Some (mkDplan RealDft [2; 3] 0 1 (Handle 0)); Some (mkDplan RealDft [2; 3] 2 3 (Handle 1))].
Definition newReal : pop := PNew RealDft [2; 3] 0 0.

Lemma one_step : pstep pstart newReal (Ok onePlan).
Proof.
  eapply pstep_eq; [eapply (pnew_at pstart RealDft [2; 3] [2; 3] [2; 3] [3; 2] 4104 8200); [reflexivity|reflexivity|reflexivity|repeat constructor|freshBlock|freshBlock|reflexivity|vm_compute; reflexivity]|vm_compute; reflexivity].
Qed.
Lemma two_step : pstep onePlan newReal (Ok twoPlans).
Proof.
  eapply pstep_eq; [eapply (pnew_at onePlan RealDft [2; 3] [2; 3] [2; 3] [3; 2] 12296 16392); [reflexivity|reflexivity|reflexivity|repeat constructor|freshBlock|freshBlock|reflexivity|vm_compute; reflexivity]|vm_compute; reflexivity].
Qed.
Lemma one_run ops r : prun onePlan ops r -> prun pstart (newReal :: ops) r.
Proof. apply prun_ok. exact one_step. Qed.
Lemma two_run ops r : prun twoPlans ops r -> prun pstart (newReal :: newReal :: ops) r.
Proof. intros H. apply one_run. eapply prun_ok; [exact two_step|exact H]. Qed.

(** Move assignment: plan 0 now holds FFTW plan 1, and FFTW plan 0 is lost, as well as the first two blocks. *)
Definition assigned : pstate := mkPstate
  (mkState [(16392, 159); (12296, 111); (8200, 159); (4104, 111)]
     [Some (mkBuffer 6 64 12296 12352); Some (mkBuffer 12 64 16392 16448); Some (mkBuffer 0 1 0 0); Some (mkBuffer 0 1 0 0)] [])
  [Some (mkFftw 4160 48 8256 96); Some (mkFftw 12352 48 16448 96)]
  [Some (mkDplan RealDft [2; 3] 0 1 (Handle 1)); Some (mkDplan RealDft [2; 3] 2 3 Empty)].
Lemma assign_step : pstep twoPlans (PMoveAssign 0 1) (Ok assigned).
Proof.
  eapply pstep_eq; [eapply (pstep_move_assign twoPlans 0 1); [discriminate|reflexivity|reflexivity|reflexivity|]|].
  - eapply run_step; [eapply step_move_assign; [discriminate|reflexivity|reflexivity]|vm_compute; reflexivity|].
    eapply run_step; [eapply step_move_assign; [discriminate|reflexivity|reflexivity]|vm_compute; reflexivity|]. apply run_nil.
  - vm_compute. reflexivity.
Qed.
Definition ended : pstate := mkPstate (mkState [(8200, 159); (4104, 111)] [None; None; None; None] [])
  [Some (mkFftw 4160 48 8256 96); None] [None; None].
Lemma end_run : prun assigned [PDestroy 1; PDestroy 0] (Ok ended).
Proof.
  eapply prun_ok.
  - eapply pstep_eq; [eapply (pstep_destroy assigned 1); [reflexivity|]|].
    + eapply run_step; [eapply step_destroy; reflexivity|vm_compute; reflexivity|]. eapply run_step; [eapply step_destroy; reflexivity|vm_compute; reflexivity|]. apply run_nil.
    + vm_compute. reflexivity.
  - eapply prun_ok; [|apply prun_nil]. eapply pstep_eq; [eapply (pstep_destroy _ 0); [reflexivity|]|].
    + eapply run_step; [eapply step_destroy; reflexivity|vm_compute; reflexivity|]. eapply run_step; [eapply step_destroy; reflexivity|vm_compute; reflexivity|]. apply run_nil.
    + vm_compute. reflexivity.
Qed.
Lemma assigned_history : prun pstart [newReal; newReal; PMoveAssign 0 1; PDestroy 1; PDestroy 0] (Ok ended).
Proof. apply two_run. eapply prun_ok; [exact assign_step|exact end_run]. Qed.

(** All the plans are destroyed, and there remain an FFTW plan and two blocks. *)
Lemma assignment_refutes : exists ops s, prun pstart ops (Ok s) /\ NoPlan s /\ (forall k b, ~ alive (mem s) k b) /\
  (exists n, Lost s n) /\ exists q q', q <> q' /\ Leaked (mem s) q /\ Leaked (mem s) q'.
Proof.
  exists [newReal; newReal; PMoveAssign 0 1; PDestroy 1; PDestroy 0], ended. split; [exact assigned_history|].
  assert (B : forall k b, ~ alive (mem ended) k b) by (intros [|[|[|[|[|k]]]]] b; discriminate).
  assert (N : NoPlan ended) by (intros [|[|[|i]]] p; discriminate).
  split; [exact N|]. split; [exact B|]. split.
  - exists 0%nat. split; [eexists; reflexivity|]. intros i (p & Hp & _). exact (N _ _ Hp).
  - exists 4104, 8200. split; [discriminate|]. split; (split; [eexists; cbn; auto|]); (split; [intros []|]); intros i (b & Hb & _); exact (B _ _ Hb).
Qed.

(** transform() of a moved plan. *)
Lemma moved_step : exists s', pstep onePlan (PMove 0) (Ok s') /\ pstep s' (PTransform 0) UB /\ pstep s' (PTransform 1) (Ok s').
Proof.
  eexists. split.
  - eapply pstep_eq; [eapply (pstep_move onePlan 0); [reflexivity|]|].
    + eapply run_step; [eapply step_move; reflexivity|vm_compute; reflexivity|]. eapply run_step; [eapply step_move; reflexivity|vm_compute; reflexivity|]. apply run_nil.
    + cbn [bind]. reflexivity.
  - split; (eapply pstep_eq; [eapply pstep_transform; reflexivity|reflexivity]).
Qed.
Lemma moved_transform_refutes : exists ops s i, prun pstart ops (Ok s) /\ PValid s (PTransform i) /\ forall r, pstep s (PTransform i) r -> r = UB.
Proof.
  destruct moved_step as (s' & H1 & H2 & _). assert (X : exists p, planAt s' 0 p) by (inversion H2; subst; eauto).
  exists [newReal; PMove 0], s', 0%nat. split; [apply one_run; eapply prun_ok; [exact H1|apply prun_nil]|]. split; [exact X|].
  intros r Hr. destruct X as [p Hp]. destruct (proj1 (transform_outcome _ _ _ _ Hp) H2) as [[_ E]|[NT _]]; [discriminate|].
  destruct (proj1 (transform_outcome _ _ _ _ Hp) Hr) as [[T _]|[_ E]]; [contradiction|exact E].
Qed.

(** The inverse of a plan, and its use after the destruction of the plan. *)
Definition withInverse : pstate := mkPstate
  (mkState [(8200, 159); (4104, 111)]
     [Some (mkBuffer 6 64 4104 4160); Some (mkBuffer 12 64 8200 8256); Some (mkBuffer 12 1 0 8256); Some (mkBuffer 6 1 0 4160)] [])
  [Some (mkFftw 4160 48 8256 96); Some (mkFftw 8256 96 4160 48)]
  [Some (mkDplan RealDft [2; 3] 0 1 (Handle 0)); Some (mkDplan InverseRealDft [2; 3] 2 3 (Handle 1))].
Lemma inverse_step : pstep onePlan (PInverse 0) (Ok withInverse).
Proof.
  eapply pstep_eq; [eapply (pstep_inverse onePlan 0); [reflexivity|reflexivity|reflexivity|]|].
  - eapply newPlan_ok; [reflexivity|reflexivity|reflexivity| | | |apply planner_plan; repeat constructor].
    + eapply run_step; [eapply step_new, construct_shared; discriminate|vm_compute; reflexivity|].
      eapply run_step; [eapply step_new, construct_shared; discriminate|vm_compute; reflexivity|]. apply run_nil.
    + reflexivity.
    + reflexivity.
  - vm_compute. reflexivity.
Qed.
Lemma inverse_dangles : exists s', prun pstart [newReal; PInverse 0; PDestroy 0] (Ok s') /\ pstep withInverse (PTransform 1) (Ok withInverse) /\ pstep s' (PTransform 1) UB.
Proof.
  eexists. split.
  - apply one_run. eapply prun_ok; [exact inverse_step|]. eapply prun_ok; [|apply prun_nil]. eapply pstep_eq; [eapply (pstep_destroy withInverse 0); [reflexivity|]|].
    + eapply run_step; [eapply step_destroy; reflexivity|vm_compute; reflexivity|]. eapply run_step; [eapply step_destroy; reflexivity|vm_compute; reflexivity|]. apply run_nil.
    + cbn [bind]. vm_compute. reflexivity.
  - split; (eapply pstep_eq; [eapply pstep_transform; reflexivity|reflexivity]).
Qed.

(** dft.in() = raster. *)
Definition withRaster : pstate := mkPstate
  (mkState [(12296, 111); (8200, 159); (4104, 111)]
     [Some (mkBuffer 6 64 4104 4160); Some (mkBuffer 12 64 8200 8256); Some (mkBuffer 6 64 12296 12352)] [])
  (fftws onePlan) (plans onePlan).
Definition inAssigned : pstate := mkPstate
  (mkState [(16392, 111); (12296, 111); (8200, 159); (4104, 111)]
     [Some (mkBuffer 6 64 16392 16448); Some (mkBuffer 12 64 8200 8256); Some (mkBuffer 6 64 12296 12352)] [])
  (fftws onePlan) (plans onePlan).
Lemma raster_step : pstep onePlan (PBuffer (ONew 6 0 0)) (Ok withRaster).
Proof.
  eapply pstep_eq; [eapply pstep_buffer; [discriminate|apply (new_step 8 (mem onePlan) 6 12296); freshBlock]|vm_compute; reflexivity].
Qed.
Lemma in_assign_step : pstep withRaster (PBuffer (OCopyAssign 0 2)) (Ok inAssigned).
Proof.
  eapply pstep_eq; [eapply pstep_buffer; [discriminate|]|].
  - eapply (step_copy_assign_owner 8 (mem withRaster) 0 2); [discriminate|reflexivity|reflexivity|reflexivity|]. apply (malloc_block _ _ 16392). freshBlock.
  - vm_compute. reflexivity.
Qed.
Lemma in_assignment_refutes : exists ops s i p, prun pstart ops (Ok s) /\ planAt s i p /\ pstep s (PTransform i) (Ok s) /\ ~ Synced s p.
Proof.
  exists [newReal; PBuffer (ONew 6 0 0); PBuffer (OCopyAssign 0 2)], inAssigned, 0%nat, (mkDplan RealDft [2; 3] 0 1 (Handle 0)).
  split; [apply one_run; eapply prun_ok; [exact raster_step|]; eapply prun_ok; [exact in_assign_step|apply prun_nil]|].
  split; [reflexivity|]. split; [eapply pstep_eq; [eapply pstep_transform; reflexivity|reflexivity]|].
  intros S. destruct (S 0%nat _ _ _ eq_refl eq_refl eq_refl eq_refl) as [E _]. discriminate E.
Qed.

(** realDft of a raster of shape (2, 3). *)
Definition afterRealDft : pstate := mkPstate (mkState [(8200, 159)] [None; None; Some (mkBuffer 12 64 0 8256)] []) [None] [None].
Lemma real_dft_run : prun pstart (functionBody RealDft false [2; 3] pstart) (Ok afterRealDft).
Proof.
  unfold functionBody. cbn [app plans bufs mem pstart start length]. apply one_run.
  eapply prun_ok; [eapply pstep_eq; [eapply pstep_access; reflexivity|reflexivity]|].
  eapply prun_ok; [eapply pstep_eq; [eapply pstep_transform; reflexivity|reflexivity]|].
  eapply prun_ok; [eapply pstep_eq; [eapply pstep_buffer; [discriminate|eapply step_move; reflexivity]|vm_compute; reflexivity]|].
  eapply prun_ok; [|apply prun_nil]. eapply pstep_eq; [eapply (pstep_destroy _ 0); [reflexivity|]|].
  - eapply run_step; [eapply step_destroy; reflexivity|vm_compute; reflexivity|]. eapply run_step; [eapply step_destroy; reflexivity|vm_compute; reflexivity|]. apply run_nil.
  - vm_compute. reflexivity.
Qed.
Lemma function_refutes : exists t shape s b, PlanShape shape /\ prun pstart (functionBody t false shape pstart) (Ok s) /\ alive (mem s) 2 b /\ owns b = false /\
  exists s' q, pstep s (PBuffer (ODestroy 2)) (Ok s') /\ NoPlan s' /\ (forall k b, ~ alive (mem s') k b) /\ Leaked (mem s') q.
Proof.
  exists RealDft, [2; 3], afterRealDft, (mkBuffer 12 64 0 8256).
  split; [split; [split; [discriminate|repeat constructor]|reflexivity]|]. split; [exact real_dft_run|]. split; [reflexivity|]. split; [reflexivity|].
  eexists. exists 8200. split.
  - eapply pstep_eq; [eapply pstep_buffer|].
    + intros k [= <-] (i & p & Hp & _). revert Hp. destruct i as [|[|i]]; discriminate.
    + eapply step_destroy. reflexivity.
    + vm_compute. reflexivity.
  - split; [intros [|[|i]] p; discriminate|].
    assert (B : forall k b, nth_error [@None buffer; None; None] k <> Some (Some b)) by (intros [|[|[|[|k]]]] b; discriminate).
    split; [exact B|]. split; [eexists; cbn; auto|]. split; [intros []|]. intros i (b & Hb & _). exact (B _ _ Hb).
Qed.
