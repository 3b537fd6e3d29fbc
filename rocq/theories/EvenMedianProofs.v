(** Median filters of windows with an even number of neighbors. *)
From Coq Require Import QArith Reals Lra Lia.
From Flocq Require Import Core IEEE754.BinarySingleNaN.
From Verif Require Import Res Lemmas VecModel BoxModel RasterModel DistModel WidthModel WidthSpec WidthProofs FloatModel FloatSpec FloatProofs QuantileModel NanModel NanSpec NanProofs
  MathProofs TypedMedianModel Spec BoxSpec RasterSpec KernelSpec ContainerSpec MedianSpec TypedMedianSpec DistProofs TypedMedianProofs TypedMedianFloatProofs.
Local Existing Instance hprec.
Local Existing Instance hmax.
Local Existing Instance valid64.
Open Scope R_scope.

Lemma double_format (x : double) : F64 (2 * B2R x).
Proof.
  assert (H := generic_format_B2R 53 1024 x). apply (FLT_format_generic radix2 (3 - 1024 - 53) 53) in H as [[m e] E M B]. cbn [Fnum Fexp] in M, B.
  rewrite E. unfold F2R. cbn [Fnum Fexp]. replace (2 * (IZR m * pow2 e)) with (IZR m * pow2 (e + 1)); [apply F64_scaled; [exact M|lia]|].
  rewrite bpow_plus. change (pow2 1) with 2. ring.
Qed.

Lemma half_rounded (x y : double) : Finite x -> Finite y -> Rabs (real x) <= pow2 1022 -> Rabs (real y) <= pow2 1022 ->
  Finite (halfDouble x y) /\ real (halfDouble x y) = nearestDouble (nearestDouble (real x + real y) / 2) /\
  Rmin (real x) (real y) <= real (halfDouble x y) <= Rmax (real x) (real y).
Proof.
  intros Fx Fy Bx By. unfold halfDouble, Finite, real in *.
  assert (L : 2 * Rmin (B2R x) (B2R y) <= B2R x + B2R y <= 2 * Rmax (B2R x) (B2R y)) by (unfold Rmin, Rmax; destruct (Rle_dec (B2R x) (B2R y)); lra).
  assert (Fm : F64 (2 * Rmin (B2R x) (B2R y))) by (unfold Rmin; destruct (Rle_dec _ _); apply double_format).
  assert (FM : F64 (2 * Rmax (B2R x) (B2R y))) by (unfold Rmax; destruct (Rle_dec _ _); apply double_format).
  assert (Gm : F64 (Rmin (B2R x) (B2R y))) by (unfold Rmin; destruct (Rle_dec _ _); apply generic_format_B2R).
  assert (GM : F64 (Rmax (B2R x) (B2R y))) by (unfold Rmax; destruct (Rle_dec _ _); apply generic_format_B2R).
  apply Rabs_le_inv in Bx, By.
  assert (Bm : - pow2 1022 <= Rmin (B2R x) (B2R y)) by (unfold Rmin; destruct (Rle_dec _ _); lra).
  assert (BM : Rmax (B2R x) (B2R y) <= pow2 1022) by (unfold Rmax; destruct (Rle_dec _ _); lra).
  set (mn := Rmin (B2R x) (B2R y)) in *. set (mx := Rmax (B2R x) (B2R y)) in *.
  assert (R1 : 2 * mn <= rnd (B2R x + B2R y)) by (rewrite <- (round_generic radix2 fexp64 ZnearestE (2 * mn) Fm); apply round_le; [apply valid64|apply valid_rnd_N|lra]).
  assert (R2 : rnd (B2R x + B2R y) <= 2 * mx) by (rewrite <- (round_generic radix2 fexp64 ZnearestE (2 * mx) FM); apply round_le; [apply valid64|apply valid_rnd_N|lra]).
  assert (T : pow2 1022 = / 4 * pow2 1024) by (change (/ 4) with (/ IZR (2 ^ 2)); change (pow2 1022) with (pow2 (-2 + 1024)); rewrite bpow_plus; reflexivity).
  assert (P := bpow_gt_0 radix2 1024).
  destruct (dadd_ok x y Fx Fy) as (V1 & F1); [apply Rabs_lt; lra|].
  destruct half_val as (Fh & Vh).
  assert (S1 : mn <= rnd (rnd (B2R x + B2R y) / 2)) by (rewrite <- (round_generic radix2 fexp64 ZnearestE mn Gm); apply round_le; [apply valid64|apply valid_rnd_N|lra]).
  assert (S2 : rnd (rnd (B2R x + B2R y) / 2) <= mx) by (rewrite <- (round_generic radix2 fexp64 ZnearestE mx GM); apply round_le; [apply valid64|apply valid_rnd_N|lra]).
  destruct (dmul_ok (dadd x y) (dlit 1 (-1)) F1 Fh) as (V2 & F2).
  { rewrite V1, Vh. apply Rabs_lt. unfold Rdiv in S1, S2. lra. }
  rewrite V1, Vh in V2. split; [exact F2|]. split; [exact V2|]. rewrite V2. unfold Rdiv in S1, S2. lra.
Qed.

Open Scope Z_scope.
Lemma even_doubles n f b X region out ext : Runnable f b region X ext out -> windowSize f b mod 2 = 0 -> 2 < windowSize f b ->
  (forall p x, InBox region p -> In x (neighbors f b X p) -> Finite x /\ (Rabs (real x) <= bpow radix2 1022)%R) ->
  exists enough, forall fuel, (enough <= fuel)%nat ->
  (exists r, doubleFilter fuel n (mkBox f b) region ext out r) /\
  forall r, doubleFilter fuel n (mkBox f b) region ext out r ->
    exists out', r = Ok out' /\ WF out' /\ rshape out' = rshape out /\
      (forall p, InBox region p -> exists x y v, In x (neighbors f b X p) /\ (real x <= real y)%R /\ RankAt dltb (neighbors f b X p) (windowSize f b / 2 + 1) y /\
         rget n out' p = Ok v /\ Finite v /\ real v = nearestDouble (nearestDouble (real x + real y) / 2) /\ (real x <= real v <= real y)%R) /\
      (forall p, InDomain (rshape out) p -> ~ InBox region p -> rget n out' p = rget n out p).
Proof.
  intros R M G2 N. assert (Lm : forall p, Z.of_nat (length (neighbors f b X p)) = windowSize f b) by (intros p; exact (neighbors_count f b X (proj1 (proj2 R)) p)).
  assert (Od : forall p, InBox region p -> comparable (neighbors f b X p) = true).
  { intros p Ip. apply numbers_ordered. intros I. destruct (N p _ Ip I) as (F & _). discriminate. }
  destruct (outcome_filter dltb comparable (@Ok double) (fun x y => Ok (halfDouble x y)) (dofZ 0) n f b X region out ext R double_partitions) as (e & H); [intros x e; discriminate|discriminate|].
  exists e. intros fuel Hf. destruct (H fuel Hf) as (Ex & G). split; [exact Ex|]. intros r Hr. destruct (G r Hr) as [(-> & p & Ip & O)|(out' & -> & W & S' & P & Q)].
  - exfalso. remember (@UB double) as u eqn:E. destruct O as [x _ _ _|x y _ _ _ _ _ _|A B|A]; try discriminate E.
    + rewrite Lm in B. lia.
    + rewrite (Od p Ip) in A. discriminate.
  - exists out'. split; [reflexivity|]. split; [exact W|]. split; [exact S'|]. split; [|exact Q]. intros p Ip. destruct (P p Ip) as (v & Ev & O).
    remember (Ok v) as u eqn:E. destruct O as [x _ A _|x y _ _ _ Ix L Ry|A B|A]; [rewrite Lm in A; lia| |discriminate|discriminate].
    injection E as <-. rewrite Lm in Ry. destruct (N p x Ip Ix) as (Fx & Bx). destruct (N p y Ip (proj1 Ry)) as (Fy & By).
    assert (LE : (real x <= real y)%R).
    { unfold dltb in L. unfold Finite in Fx, Fy. rewrite (Bcompare_correct 53 1024 y x Fy Fx) in L. unfold real. destruct (Rcompare_spec (B2R y) (B2R x)); [discriminate|lra|lra]. }
    destruct (half_rounded x y Fx Fy Bx By) as (F & V & B1 & B2). rewrite Rmin_left in B1 by exact LE. rewrite Rmax_right in B2 by exact LE.
    exists x, y, (halfDouble x y). auto 10.
Qed.

Lemma half_int t u x y M : Wf t -> Wf u -> isigned t = true -> Z.abs x <= M -> Z.abs y <= M -> 2 * M <= itmax (promoted t) -> 2 * M < 2 ^ 53 -> InType u (Z.quot (x + y) 2) ->
  (h <- halfInt t x y ;; dtruncTo u h) = Ok (Z.quot (x + y) 2).
Proof.
  intros Wt Wu Sg Bx By HM H53 HI. assert (Sp : isigned (promoted t) = true) by (unfold promoted; destruct (ibits t <? 32); [reflexivity|exact Sg]).
  assert (Fs : fits (promoted t) (x + y) = true) by (unfold fits, itmin; unfold itmax in *; rewrite Sp in *; lia).
  unfold halfInt, computed. rewrite Sp, Fs. cbn [bind].
  destruct half_val as (Fh & Vh). destruct (int_ofZ (x + y) ltac:(lia)) as (F1 & V1).
  assert (E : rnd (B2R (dofZ (x + y)) * B2R (dlit 1 (-1))) = (IZR (x + y) / 2)%R).
  { rewrite V1, Vh. change (IZR (x + y) / 2)%R with (IZR (x + y) * bpow radix2 (-1))%R. change (/ 2)%R with (bpow radix2 (-1)). apply round_generic; [apply valid_rnd_N|]. apply (F64_scaled (x + y) (-1)); lia. }
  destruct (dmul_ok (dofZ (x + y)) (dlit 1 (-1)) F1 Fh) as (V2 & F2).
  { rewrite E. assert (A : (Rabs (IZR (x + y)) <= bpow radix2 53)%R) by (rewrite <- abs_IZR; change (bpow radix2 53) with (IZR (2 ^ 53)); apply IZR_le; lia).
    assert (P : (bpow radix2 53 < bpow radix2 1024)%R) by (apply bpow_lt; lia). unfold Rdiv. rewrite Rabs_mult, (Rabs_pos_eq (/ 2)) by lra. assert (Q := Rabs_pos (IZR (x + y))). lra. }
  apply (dtruncTo_spec u _ _ Wu). split; [exact F2|]. split; [|exact HI]. unfold real. rewrite V2, E. now rewrite (Ztrunc_div (x + y) 2) by lia.
Qed.

Lemma even_integers t u n f b X region out ext M : Wf t -> Wf u -> isigned t = true -> isigned u = true -> M <= itmax u -> 2 * M <= itmax (promoted t) -> 2 * M < 2 ^ 53 ->
  Runnable f b region X ext out -> windowSize f b mod 2 = 0 -> 2 < windowSize f b -> (forall p x, InBox region p -> In x (neighbors f b X p) -> Z.abs x <= M) ->
  exists enough, forall fuel, (enough <= fuel)%nat ->
  (exists r, intFilter t u fuel n (mkBox f b) region ext out r) /\
  forall r, intFilter t u fuel n (mkBox f b) region ext out r ->
    exists out', r = Ok out' /\ WF out' /\ rshape out' = rshape out /\
      (forall p, InBox region p -> exists x y, In x (neighbors f b X p) /\ x <= y /\ RankAt Z.ltb (neighbors f b X p) (windowSize f b / 2 + 1) y /\
         rget n out' p = Ok (Z.quot (x + y) 2)) /\
      (forall p, InDomain (rshape out) p -> ~ InBox region p -> rget n out' p = rget n out p).
Proof.
  intros Wt Wu St Su HMu HMt H53 R M2 G2 N. assert (Lm : forall p, Z.of_nat (length (neighbors f b X p)) = windowSize f b) by (intros p; exact (neighbors_count f b X (proj1 (proj2 R)) p)).
  assert (Half : forall p x y, InBox region p -> In x (neighbors f b X p) -> In y (neighbors f b X p) -> (h <- halfInt t x y ;; dtruncTo u h) = Ok (Z.quot (x + y) 2)).
  { intros p x y Ip Ix Iy. assert (Bx := N p x Ip Ix). assert (By := N p y Ip Iy). apply (half_int t u x y M); auto.
    assert (Q : - M <= Z.quot (x + y) 2 <= M) by (assert (D := Z.quot_rem' (x + y) 2); assert (B := Z.rem_bound_abs (x + y) 2 ltac:(lia)); lia).
    unfold InType, itmin; unfold itmax in *; rewrite Su in *. lia. }
  destruct (outcome_filter Z.ltb (fun _ => true) (fun x => Ok (convert u x)) (fun x y => h <- halfInt t x y ;; dtruncTo u h) 0 n f b X region out ext R (order_partitions Z.ltb _ Zltb_swo)) as (e & H);
    [apply int_throw|intros; apply halfTrunc_throw|].
  exists e. intros fuel Hf. destruct (H fuel Hf) as (Ex & G). split; [exact Ex|]. intros r Hr. destruct (G r Hr) as [(-> & p & Ip & O)|(out' & -> & W & S' & P & Q)].
  - exfalso. remember (@UB Z) as v eqn:E. destruct O as [x _ _ _|x y _ _ _ Ix _ Ry|A B|A]; try discriminate E.
    + rewrite (Half p x y Ip Ix (proj1 Ry)) in E. discriminate.
    + rewrite Lm in B. lia.
    + discriminate A.
  - exists out'. split; [reflexivity|]. split; [exact W|]. split; [exact S'|]. split; [|exact Q]. intros p Ip. destruct (P p Ip) as (v & Ev & O).
    remember (Ok v) as w eqn:E. destruct O as [x _ A _|x y _ _ _ Ix L Ry|A B|A]; [rewrite Lm in A; lia| |discriminate E|discriminate E].
    rewrite (Half p x y Ip Ix (proj1 Ry)) in E. rewrite (Half p x y Ip Ix (proj1 Ry)) in Ev. rewrite Lm in Ry. exists x, y. split; [exact Ix|]. split; [lia|]. split; [exact Ry|exact Ev].
Qed.

Lemma even_met : Runnable [-1] [2] (mkBox [1] [2]) (fun _ => dofZ 7) (rget 1 (rowOf (repeat (dofZ 7) 5))) (rowOf (repeat (dofZ 7) 5)) /\ windowSize [-1] [2] = 4 /\
  (forall p x, InBox (mkBox [1] [2]) p -> In x (neighbors [-1] [2] (fun _ => dofZ 7) p) -> Finite x /\ (Rabs (real x) <= bpow radix2 1022)%R).
Proof.
  split; [exact (row_runnable_even (dofZ 7) (dofZ 7))|]. split; [reflexivity|]. intros p x _ I. unfold neighbors in I. apply in_map_iff in I as (q & <- & _).
  destruct (int_ofZ 7 ltac:(lia)) as (F & V). split; [exact F|]. unfold real. rewrite V, Rabs_pos_eq by lra. apply Rle_trans with (bpow radix2 3); [|apply bpow_le; lia]. change (bpow radix2 3) with 8%R. lra.
Qed.
Lemma even_integers_met : Runnable [-1] [2] (mkBox [1] [2]) (fun _ => 7) (rget 1 (rowOf (repeat 7 5))) (rowOf (repeat 7 5)) /\ windowSize [-1] [2] = 4 /\
  2 * 7 <= itmax (promoted int32) /\ (forall p x, InBox (mkBox [1] [2]) p -> In x (neighbors [-1] [2] (fun _ => 7) p) -> Z.abs x <= 7).
Proof.
  split; [exact (row_runnable_even 7 7)|]. split; [reflexivity|]. split; [vm_compute; discriminate|]. intros p x _ I. unfold neighbors in I. apply in_map_iff in I as (q & <- & _). lia.
Qed.

Lemma even_to_integers u n f b X region out ext : Wf u -> Runnable f b region X ext out -> windowSize f b mod 2 = 0 -> 2 < windowSize f b ->
  (forall p x, InBox region p -> In x (neighbors f b X p) -> Finite x /\ (Rabs (real x) <= bpow radix2 1022)%R /\ InType u (Ztrunc (real x))) ->
  exists enough, forall fuel, (enough <= fuel)%nat ->
  (exists r, doubleIntFilter u fuel n (mkBox f b) region ext out r) /\
  forall r, doubleIntFilter u fuel n (mkBox f b) region ext out r ->
    exists out', r = Ok out' /\ WF out' /\ rshape out' = rshape out /\
      (forall p, InBox region p -> exists x y, In x (neighbors f b X p) /\ (real x <= real y)%R /\ RankAt dltb (neighbors f b X p) (windowSize f b / 2 + 1) y /\
         rget n out' p = Ok (Ztrunc (nearestDouble (nearestDouble (real x + real y) / 2)))) /\
      (forall p, InDomain (rshape out) p -> ~ InBox region p -> rget n out' p = rget n out p).
Proof.
  intros Wu R M G2 N. assert (Lm : forall p, Z.of_nat (length (neighbors f b X p)) = windowSize f b) by (intros p; exact (neighbors_count f b X (proj1 (proj2 R)) p)).
  assert (Od : forall p, InBox region p -> comparable (neighbors f b X p) = true).
  { intros p Ip. apply numbers_ordered. intros I. destruct (N p _ Ip I) as (F & _). discriminate. }
  assert (Half : forall p x y, InBox region p -> In x (neighbors f b X p) -> In y (neighbors f b X p) -> dltb y x = false ->
    (real x <= real y)%R /\ dtruncTo u (halfDouble x y) = Ok (Ztrunc (nearestDouble (nearestDouble (real x + real y) / 2)))).
  { intros p x y Ip Ix Iy L. destruct (N p x Ip Ix) as (Fx & Bx & Tx). destruct (N p y Ip Iy) as (Fy & By & Ty).
    assert (LE : (real x <= real y)%R).
    { unfold dltb in L. unfold Finite in Fx, Fy. rewrite (Bcompare_correct 53 1024 y x Fy Fx) in L. unfold real. destruct (Rcompare_spec (B2R y) (B2R x)); [discriminate|lra|lra]. }
    split; [exact LE|]. destruct (half_rounded x y Fx Fy Bx By) as (F & V & B1 & B2). rewrite Rmin_left in B1 by exact LE. rewrite Rmax_right in B2 by exact LE.
    rewrite <- V. apply (dtruncTo_spec u _ _ Wu). split; [exact F|]. split; [reflexivity|]. apply Ztrunc_le in B1, B2. unfold InType in *. lia. }
  destruct (outcome_filter dltb comparable (dtruncTo u) (fun x y => dtruncTo u (halfDouble x y)) (dofZ 0) n f b X region out ext R double_partitions) as (e & H);
    [intros x e; apply dtruncTo_throw|intros; apply dtruncTo_throw|].
  exists e. intros fuel Hf. destruct (H fuel Hf) as (Ex & G). split; [exact Ex|]. intros r Hr. destruct (G r Hr) as [(-> & p & Ip & O)|(out' & -> & W & S' & P & Q)].
  - exfalso. remember (@UB Z) as w eqn:E. destruct O as [x _ A _|x y _ _ _ Ix L Ry|A B|A].
    + rewrite Lm in A. lia.
    + destruct (Half p x y Ip Ix (proj1 Ry) L) as (_ & C). rewrite C in E. discriminate.
    + rewrite Lm in B. lia.
    + rewrite (Od p Ip) in A. discriminate.
  - exists out'. split; [reflexivity|]. split; [exact W|]. split; [exact S'|]. split; [|exact Q]. intros p Ip. destruct (P p Ip) as (v & Ev & O).
    remember (Ok v) as w eqn:E. destruct O as [x _ A _|x y _ _ _ Ix L Ry|A B|A]; [rewrite Lm in A; lia| |discriminate E|discriminate E].
    destruct (Half p x y Ip Ix (proj1 Ry) L) as (LE & C). rewrite C in Ev. rewrite Lm in Ry. exists x, y. auto.
Qed.

Lemma half_exact t x y M : isigned t = true -> Z.abs x <= M -> Z.abs y <= M -> 2 * M <= itmax (promoted t) -> 2 * M < 2 ^ 53 ->
  exists h, halfInt t x y = Ok h /\ Finite h /\ real h = (IZR (x + y) / 2)%R.
Proof.
  intros Sg Bx By HM H53. assert (Sp : isigned (promoted t) = true) by (unfold promoted; destruct (ibits t <? 32); [reflexivity|exact Sg]).
  assert (Fs : fits (promoted t) (x + y) = true) by (unfold fits, itmin; unfold itmax in *; rewrite Sp in *; lia).
  unfold halfInt, computed. rewrite Sp, Fs. cbn [bind]. eexists. split; [reflexivity|].
  destruct half_val as (Fh & Vh). destruct (int_ofZ (x + y) ltac:(lia)) as (F1 & V1).
  assert (E : rnd (B2R (dofZ (x + y)) * B2R (dlit 1 (-1))) = (IZR (x + y) / 2)%R).
  { rewrite V1, Vh. change (IZR (x + y) / 2)%R with (IZR (x + y) * bpow radix2 (-1))%R. change (/ 2)%R with (bpow radix2 (-1)). apply round_generic; [apply valid_rnd_N|]. apply (F64_scaled (x + y) (-1)); lia. }
  destruct (dmul_ok (dofZ (x + y)) (dlit 1 (-1)) F1 Fh) as (V2 & F2).
  { rewrite E. assert (A : (Rabs (IZR (x + y)) <= bpow radix2 53)%R) by (rewrite <- abs_IZR; change (bpow radix2 53) with (IZR (2 ^ 53)); apply IZR_le; lia).
    assert (P : (bpow radix2 53 < bpow radix2 1024)%R) by (apply bpow_lt; lia). unfold Rdiv. rewrite Rabs_mult, (Rabs_pos_eq (/ 2)) by lra. assert (Q := Rabs_pos (IZR (x + y))). lra. }
  split; [exact F2|]. unfold real. now rewrite V2, E.
Qed.

Lemma even_to_doubles t n f b X region out ext M : isigned t = true -> 2 * M <= itmax (promoted t) -> 2 * M < 2 ^ 53 ->
  Runnable f b region X ext out -> windowSize f b mod 2 = 0 -> 2 < windowSize f b -> (forall p x, InBox region p -> In x (neighbors f b X p) -> Z.abs x <= M) ->
  exists enough, forall fuel, (enough <= fuel)%nat ->
  (exists r, intDoubleFilter t fuel n (mkBox f b) region ext out r) /\
  forall r, intDoubleFilter t fuel n (mkBox f b) region ext out r ->
    exists out', r = Ok out' /\ WF out' /\ rshape out' = rshape out /\
      (forall p, InBox region p -> exists x y v, In x (neighbors f b X p) /\ x <= y /\ RankAt Z.ltb (neighbors f b X p) (windowSize f b / 2 + 1) y /\
         rget n out' p = Ok v /\ Finite v /\ real v = (IZR (x + y) / 2)%R) /\
      (forall p, InDomain (rshape out) p -> ~ InBox region p -> rget n out' p = rget n out p).
Proof.
  intros St HMt H53 R M2 G2 N. assert (Lm : forall p, Z.of_nat (length (neighbors f b X p)) = windowSize f b) by (intros p; exact (neighbors_count f b X (proj1 (proj2 R)) p)).
  destruct (outcome_filter Z.ltb (fun _ => true) (fun x => Ok (dofZ x)) (halfInt t) (0 : Z) n f b X region out ext R (order_partitions Z.ltb _ Zltb_swo)) as (e & H);
    [intros x e; discriminate|intros; apply halfInt_throw|].
  exists e. intros fuel Hf. destruct (H fuel Hf) as (Ex & G). split; [exact Ex|]. intros r Hr. destruct (G r Hr) as [(-> & p & Ip & O)|(out' & -> & W & S' & P & Q)].
  - exfalso. remember (@UB double) as v eqn:E. destruct O as [x _ _ _|x y _ _ _ Ix _ Ry|A B|A]; try discriminate E.
    + destruct (half_exact t x y M St (N p x Ip Ix) (N p y Ip (proj1 Ry)) HMt H53) as (h & C & _). rewrite C in E. discriminate.
    + rewrite Lm in B. lia.
    + discriminate A.
  - exists out'. split; [reflexivity|]. split; [exact W|]. split; [exact S'|]. split; [|exact Q]. intros p Ip. destruct (P p Ip) as (v & Ev & O).
    remember (Ok v) as w eqn:E. destruct O as [x _ A _|x y _ _ _ Ix L Ry|A B|A]; [rewrite Lm in A; lia| |discriminate E|discriminate E].
    destruct (half_exact t x y M St (N p x Ip Ix) (N p y Ip (proj1 Ry)) HMt H53) as (h & C & F & V). rewrite E in C. injection C as ->. rewrite Lm in Ry.
    exists x, y, h. rewrite E in Ev. split; [exact Ix|]. split; [lia|]. auto.
Qed.

Lemma even_to_integers_met : Wf int32 /\ (forall p x, InBox (mkBox [1] [2]) p -> In x (neighbors [-1] [2] (fun _ => dofZ 7) p) ->
  Finite x /\ (Rabs (real x) <= bpow radix2 1022)%R /\ InType int32 (Ztrunc (real x))).
Proof.
  split; [right; cbn; lia|]. intros p x _ I. unfold neighbors in I. apply in_map_iff in I as (q & <- & _).
  destruct (int_ofZ 7 ltac:(lia)) as (F & V). split; [exact F|]. unfold real. rewrite V, Ztrunc_IZR, Rabs_pos_eq by lra.
  split; [|vm_compute; split; discriminate]. apply Rle_trans with (bpow radix2 3); [|apply bpow_le; lia]. change (bpow radix2 3) with 8%R. lra.
Qed.
