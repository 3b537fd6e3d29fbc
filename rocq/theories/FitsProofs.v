(** FITS files. *)
From Verif Require Import Res Lemmas VecModel ContainerProofs FitsModel FitsSpec.

Lemma setFile_same f n x : setFile f n x n = x.
Proof. unfold setFile. rewrite Nat.eqb_refl. reflexivity. Qed.
Lemma setFile_other f n x k : k <> n -> setFile f n x k = f k.
Proof. intros N. unfold setFile. destruct (Nat.eqb_spec k n); [contradiction|reflexivity]. Qed.

Lemma size_nonneg shape : Forall (fun d => 0 <= d) shape -> 0 <= shapeSize shape.
Proof.
  intros F. rewrite shape_size. destruct shape as [|a s]; [lia|]. assert (G : forall l, Forall (fun d => 0 <= d) l -> 0 <= fold_right Z.mul 1 l); [|apply (G (a :: s) F)].
  clear. intros l. induction 1; cbn; [lia|]. nia.
Qed.

Lemma existsb_neg shape : Forall (fun d => 0 <= d) shape -> existsb (fun d => d <? 0) shape = false.
Proof. induction 1; cbn; [reflexivity|]. rewrite IHForall. replace (x <? 0) with false by lia. reflexivity. Qed.

Section Fits.
Variable oracle : nat -> option (positive * image).

Lemma call_ok f w fail ok : oracle (calls w) = None -> fstatus f = 0 -> call oracle (f, w) fail ok = ok (f, tick w).
Proof. intros O S. unfold call. cbn [fst snd]. rewrite S, O. reflexivity. Qed.

Lemma call_stuck x fail ok : 0 < fstatus (fst x) -> call oracle x fail ok = x.
Proof. intros S. unfold call. replace (0 <? fstatus (fst x)) with true by lia. reflexivity. Qed.

Lemma write_ok name w r : Reliable oracle w -> files w name = None -> Forall (fun d => 0 <= d) (bshape r) -> shapeSize (bshape r) <= Z.of_nat (length (bdata r)) ->
  exists w', fitsWrite oracle (newFits name, w) r = (newFits name, w') /\ opened w' = opened w /\ (calls w <= calls w')%nat /\
  files w' name = Some (mkImage (bshape r) (firstn (Z.to_nat (shapeSize (bshape r))) (bdata r))) /\ forall k, k <> name -> files w' k = files w k.
Proof.
  intros R N F L. pose proof (size_nonneg _ F) as P. unfold fitsWrite, createFile. rewrite call_ok by (try reflexivity; apply R; lia). cbn [fst snd tick files newFits fname]. rewrite N.
  unfold createImage. rewrite call_ok by (try reflexivity; apply R; cbn; lia). cbn [fst snd tick fptr]. rewrite (existsb_neg _ F). cbn [files opened calls].
  unfold writeImage. rewrite call_ok by (try reflexivity; apply R; cbn; lia). cbn [fst snd tick fptr current files]. unfold current. cbn [fst snd fptr files]. rewrite setFile_same. cbn [naxes ibytes opened calls].
  unfold closeFile. cbn [fst snd fptr]. rewrite call_ok by (try reflexivity; apply R; cbn; lia). unfold nullify, tick. cbn [fst snd fname fstatus files opened calls].
  eexists. split; [reflexivity|]. cbn [opened calls files]. split; [lia|]. split; [lia|]. split; [|intros k K; rewrite !setFile_other by exact K; reflexivity].
  rewrite setFile_same. f_equal. f_equal. rewrite skipn_all2 by (rewrite repeat_length; lia). apply app_nil_r.
Qed.

Lemma lengths_ok f w d i nm : oracle (calls w) = None -> fstatus f = 0 -> fptr f = Some nm -> files w nm = Some i -> getLengths oracle (f, w) d = ((f, tick w), naxes i).
Proof.
  intros O S P N. unfold getLengths. rewrite call_ok by assumption. assert (C : current (f, tick w) = Some i) by (unfold current; cbn; rewrite P; exact N).
  rewrite C. cbn [fst]. rewrite S. cbn [Z.ltb Z.compare]. rewrite C. reflexivity.
Qed.

Lemma readImage_ok f w n d i nm : oracle (calls w) = None -> fstatus f = 0 -> fptr f = Some nm -> files w nm = Some i ->
  readImage oracle (f, w) n d = ((f, tick w), firstn (Z.to_nat n) (ibytes i) ++ skipn (Z.to_nat n) d).
Proof.
  intros O S P N. unfold readImage. rewrite call_ok by assumption. assert (C : current (f, tick w) = Some i) by (unfold current; cbn; rewrite P; exact N).
  rewrite C. cbn [fst]. rewrite S. cbn [Z.ltb Z.compare]. rewrite C. reflexivity.
Qed.

Lemma repeat_skipn {X} (a : X) n m : skipn n (repeat a m) = repeat a (m - n).
Proof. revert m. induction n as [|n IH]; intros [|m]; cbn; try reflexivity. apply IH. Qed.

Lemma read_ok n ww name w i : Reliable oracle w -> files w name = Some i -> ImageFile i -> (n = -1 \/ n = Z.of_nat (length (naxes i))) -> 0 < ww ->
  exists w', fitsRead oracle n ww (newFits name, w) = ((newFits name, w'), Ok (mkBytesRaster (naxes i) (ibytes i ++ repeat 0 (Z.to_nat (shapeSize (naxes i) * (ww - 1)))))) /\
  opened w' = opened w /\ (calls w <= calls w')%nat /\ forall k, files w' k = files w k.
Proof.
  intros R N [F L] D W. pose proof (size_nonneg _ F) as P. unfold fitsRead, openFile. rewrite call_ok by (try reflexivity; apply R; lia). cbn [fst snd tick files newFits fname]. rewrite N.
  erewrite lengths_ok; [|apply R; cbn; lia|reflexivity|reflexivity|exact N].
  assert (E : exists z, positionOfDim n (Z.of_nat (length (naxes i))) = Ok z /\ (naxes i = [] -> z = [])).
  { unfold positionOfDim. destruct (Z.eqb_spec n (-1)) as [->|Nn]; [eexists; split; [reflexivity|]; intros ->; reflexivity|].
    destruct D as [D|D]; [contradiction|]. rewrite D. rewrite Z.eqb_refl. cbn [negb andb]. eexists. split; [reflexivity|]. intros ->. reflexivity. }
  destruct E as (z & -> & Ez).
  erewrite lengths_ok; [|apply R; cbn; lia|reflexivity|reflexivity|exact N]. cbn [fst fstatus Z.ltb Z.compare orb].
  assert (Sh : (if Z.of_nat (length (naxes i)) =? 0 then z else naxes i) = naxes i).
  { destruct (naxes i) as [|a l]; [cbn; apply Ez; reflexivity|]. reflexivity. }
  rewrite Sh. replace (shapeSize (naxes i) <? 0) with false by lia.
  erewrite readImage_ok; [|apply R; cbn; lia|reflexivity|reflexivity|exact N].
  unfold closeFile. cbn [fst snd fptr]. rewrite call_ok by (try reflexivity; apply R; cbn; lia). unfold nullify, tick. cbn [fst snd fname fstatus files opened calls].
  rewrite firstn_all2 by lia. rewrite repeat_skipn.
  replace (Z.to_nat (shapeSize (naxes i) * ww) - Z.to_nat (shapeSize (naxes i)))%nat with (Z.to_nat (shapeSize (naxes i) * (ww - 1))) by nia.
  eexists. split; [reflexivity|]. cbn [opened calls files]. split; [lia|split; [lia|reflexivity]].
Qed.

Lemma round_trip n ww name w r : Reliable oracle w -> files w name = None -> RasterOf n ww r ->
  exists w1 w2, fitsWrite oracle (newFits name, w) r = (newFits name, w1) /\
  fitsRead oracle n ww (newFits name, w1) = ((newFits name, w2), Ok (mkBytesRaster (bshape r) (firstn (Z.to_nat (shapeSize (bshape r))) (bdata r) ++ repeat 0 (Z.to_nat (shapeSize (bshape r) * (ww - 1)))))) /\
  opened w1 = opened w /\ opened w2 = opened w /\ (forall k, k <> name -> files w1 k = files w k) /\ (forall k, files w2 k = files w1 k).
Proof.
  intros R N (D & W & F & L). pose proof (size_nonneg _ F) as P. destruct (write_ok name w r R N F) as (w1 & E1 & O1 & C1 & F1 & K1); [nia|].
  assert (R1 : Reliable oracle w1) by (intros k Hk; apply R; lia).
  destruct (read_ok n ww name w1 _ R1 F1) as (w2 & E2 & O2 & C2 & F2).
  - split; [exact F|]. cbn [ibytes naxes]. rewrite firstn_length. nia.
  - exact D.
  - exact W.
  - exists w1, w2. split; [exact E1|]. split; [exact E2|]. split; [exact O1|]. split; [congruence|]. split; [exact K1|exact F2].
Qed.

Lemma round_trip_bytes n name w r : Reliable oracle w -> files w name = None -> RasterOf n 1 r ->
  exists w1 w2, fitsWrite oracle (newFits name, w) r = (newFits name, w1) /\ fitsRead oracle n 1 (newFits name, w1) = ((newFits name, w2), Ok r) /\
  opened w1 = opened w /\ opened w2 = opened w /\ (forall k, k <> name -> files w1 k = files w k) /\ (forall k, files w2 k = files w1 k).
Proof.
  intros R N V. destruct (round_trip n 1 name w r R N V) as (w1 & w2 & E1 & E2 & H). exists w1, w2. split; [exact E1|]. split; [|exact H]. rewrite E2.
  destruct V as (_ & _ & _ & L). destruct r as [s d]. cbn [bshape bdata] in *. f_equal. f_equal. f_equal. rewrite firstn_all2 by lia. replace (shapeSize s * (1 - 1)) with 0 by lia. cbn. apply app_nil_r.
Qed.

(** ** Failures *)

Lemma close_stuck x : 0 < fstatus (fst x) -> 0 < fstatus (fst (closeFile oracle x)) /\ files (snd (closeFile oracle x)) = files (snd x) /\ fname (fst (closeFile oracle x)) = fname (fst x).
Proof.
  intros S. unfold closeFile. destruct (fptr (fst x)); [|cbn; auto with zarith]. rewrite call_stuck by exact S. cbn. auto.
Qed.

Lemma write_stuck x r : 0 < fstatus (fst x) -> let y := fitsWrite oracle x r in 0 < fstatus (fst y) /\ files (snd y) = files (snd x) /\ fname (fst y) = fname (fst x).
Proof.
  intros S. unfold fitsWrite, writeImage, createImage, createFile. rewrite !(call_stuck x) by exact S. cbn [nullify fst snd fstatus fname]. apply close_stuck. exact S.
Qed.

Lemma empty_size n : n = -1 \/ 0 <= n -> shapeSize (emptyShape n) = 0.
Proof.
  intros D. unfold emptyShape. destruct (Z.eqb_spec n (-1)); [reflexivity|]. rewrite shape_size. destruct (Z.to_nat n); reflexivity.
Qed.

Lemma read_stuck n ww x : n = -1 \/ 0 <= n -> 0 < fstatus (fst x) -> let '(y, r) := fitsRead oracle n ww x in
  0 < fstatus (fst y) /\ files (snd y) = files (snd x) /\ fname (fst y) = fname (fst x) /\ r = Ok (mkBytesRaster (emptyShape n) []).
Proof.
  intros D S. unfold fitsRead, openFile. rewrite (call_stuck x) by exact S. unfold getLengths at 1. rewrite call_stuck by exact S. replace (0 <? fstatus (fst x)) with true by lia. cbn [length].
  assert (E : positionOfDim n (Z.of_nat 0) = Ok (emptyShape n)).
  { unfold positionOfDim, emptyShape. destruct (n =? -1); [reflexivity|]. cbn [Z.of_nat Z.eqb negb]. rewrite andb_false_r. reflexivity. }
  rewrite E. unfold getLengths. rewrite call_stuck by exact S. replace (0 <? fstatus (fst x)) with true by lia. cbn [orb]. rewrite empty_size by exact D. cbn [Z.ltb Z.compare].
  unfold readImage. rewrite call_stuck by exact S. replace (0 <? fstatus (fst x)) with true by lia. cbn [nullify fst snd fstatus fname].
  destruct (close_stuck x S) as (A & B & C). split; [exact A|]. split; [exact B|]. split; [exact C|]. reflexivity.
Qed.

Lemma steps_stuck l : forall x, Forall (fun o => match o with FWrite _ => True | FRead n _ => n = -1 \/ 0 <= n end) l -> 0 < fstatus (fst x) ->
  0 < fstatus (fst (fsteps oracle x l)) /\ files (snd (fsteps oracle x l)) = files (snd x) /\ fname (fst (fsteps oracle x l)) = fname (fst x).
Proof.
  induction l as [|o l IH]; intros x F S; [cbn; auto|]. inversion F as [|? ? Fo Fl]; subst. cbn [fsteps fold_left]. fold (fsteps oracle (fstep oracle x o) l).
  assert (G : 0 < fstatus (fst (fstep oracle x o)) /\ files (snd (fstep oracle x o)) = files (snd x) /\ fname (fst (fstep oracle x o)) = fname (fst x)).
  { destruct o as [r|n ww]; cbn [fstep]; [apply write_stuck; exact S|]. pose proof (read_stuck n ww x Fo S) as H. destruct (fitsRead oracle n ww x). cbn [fst]. tauto. }
  destruct G as (A & B & C). destruct (IH (fstep oracle x o) Fl A) as (A' & B' & C'). split; [exact A'|]. split; congruence.
Qed.

Lemma existing_stuck name w r i : files w name = Some i -> exists f w', fitsWrite oracle (newFits name, w) r = (f, w') /\ files w' = files w /\ 0 < fstatus f.
Proof.
  intros N. unfold fitsWrite. remember (createFile oracle (newFits name, w)) as x eqn:Ex.
  assert (S : 0 < fstatus (fst x) /\ files (snd x) = files w).
  { rewrite Ex. unfold createFile, call. cbn [fst snd newFits fstatus Z.ltb Z.compare]. destruct (oracle (calls w)) as [[e j]|]; [split; [apply Pos2Z.is_pos|reflexivity]|].
    cbn [fst snd tick files newFits fname]. rewrite N. split; [cbn; lia|reflexivity]. }
  destruct S as [S E]. unfold writeImage, createImage. rewrite !(call_stuck x) by exact S.
  destruct (close_stuck x S) as (A & B & _). eexists _, _. split; [unfold nullify; reflexivity|]. cbn [fstatus]. split; [congruence|exact A].
Qed.

Lemma absent_read n ww name w : n = -1 \/ 0 <= n -> files w name = None -> exists f w', fitsRead oracle n ww (newFits name, w) = ((f, w'), Ok (mkBytesRaster (emptyShape n) [])) /\ files w' = files w /\ 0 < fstatus f.
Proof.
  intros D N. set (x := openFile oracle (newFits name, w)).
  assert (S : 0 < fstatus (fst x) /\ files (snd x) = files w).
  { unfold x, openFile, call. cbn [fst snd newFits fstatus Z.ltb Z.compare]. destruct (oracle (calls w)) as [[e j]|]; [split; [apply Pos2Z.is_pos|reflexivity]|].
    cbn [fst snd tick files newFits fname]. rewrite N. split; [cbn; lia|reflexivity]. }
  destruct S as [S E]. assert (G : fitsRead oracle n ww (newFits name, w) = fitsRead oracle n ww x).
  { unfold fitsRead. fold x. replace (openFile oracle x) with x; [reflexivity|]. unfold openFile. rewrite call_stuck by exact S. reflexivity. }
  rewrite G. pose proof (read_stuck n ww x D S) as H. destruct (fitsRead oracle n ww x) as [[f w'] r]. destruct H as (A & B & _ & ->). exists f, w'. split; [reflexivity|]. cbn [fst snd] in *. split; [congruence|exact A].
Qed.

Lemma wrong_dimension n ww name w i : Reliable oracle w -> files w name = Some i -> 0 <= n -> Z.of_nat (length (naxes i)) <> n -> naxes i <> [] ->
  exists f w', fitsRead oracle n ww (newFits name, w) = ((f, w'), Throw EGeneric) /\ opened w' = opened w + 1 /\ fptr f = Some name.
Proof.
  intros R N P D Ne. unfold fitsRead, openFile. rewrite call_ok by (try reflexivity; apply R; lia). cbn [fst snd tick files newFits fname]. rewrite N.
  erewrite lengths_ok; [|apply R; cbn; lia|reflexivity|reflexivity|exact N].
  assert (E : positionOfDim n (Z.of_nat (length (naxes i))) = Throw EGeneric).
  { unfold positionOfDim. replace (n =? -1) with false by lia. replace (Z.of_nat (length (naxes i)) =? n) with false by lia. destruct (naxes i); [contradiction|]. reflexivity. }
  rewrite E. eexists _, _. split; [reflexivity|]. split; reflexivity.
Qed.
End Fits.

Lemma wide_lost : exists r r', RasterOf 1 2 r /\ snd (fitsRead (fun _ => None) 1 2 (fitsWrite (fun _ => None) (newFits 0, mkWorld (fun _ => None) 0 0) r)) = Ok r' /\ r' <> r.
Proof.
  exists (mkBytesRaster [2] [2; 1; 4; 3]). eexists. split; [|split; [vm_compute; reflexivity|discriminate]].
  unfold RasterOf. cbn. repeat split; auto; try lia. repeat (constructor; [lia|]). constructor.
Qed.

Lemma sticky oracle x l : Forall (fun o => match o with FWrite _ => True | FRead n _ => n = -1 \/ 0 <= n end) l -> 0 < fstatus (fst x) ->
  let y := fsteps oracle x l in 0 < fstatus (fst y) /\ files (snd y) = files (snd x) /\ fname (fst y) = fname (fst x) /\
  forall n ww, n = -1 \/ 0 <= n -> snd (fitsRead oracle n ww y) = Ok (mkBytesRaster (emptyShape n) []).
Proof.
  intros F S. destruct (steps_stuck oracle l x F S) as (A & B & C). split; [exact A|]. split; [exact B|]. split; [exact C|].
  intros n ww D. pose proof (read_stuck oracle n ww _ D A) as H. destruct (fitsRead oracle n ww (fsteps oracle x l)). cbn [snd]. tauto.
Qed.

(** The status tells whether some call failed. *)
Lemma write_status oracle name w r : files w name = None -> Forall (fun d => 0 <= d) (bshape r) -> shapeSize (bshape r) = Z.of_nat (length (bdata r)) ->
  let y := fitsWrite oracle (newFits name, w) r in
  0 <= fstatus (fst y) /\ (fstatus (fst y) = 0 <-> forall k, (calls w <= k < calls (snd y))%nat -> oracle k = None) /\
  (fstatus (fst y) = 0 -> files (snd y) name = Some (mkImage (bshape r) (bdata r))) /\
  opened (snd y) = opened w /\ forall k, k <> name -> files (snd y) k = files w k.
Proof.
  intros Hf Hs Hd. destruct w as [fs op c]. cbn [files calls opened] in *. cbv zeta.
  assert (Bad : forall e j (c' k : nat), oracle k = Some (e, j) -> (c <= k < c')%nat ->
    0 <= Zpos e /\ (Zpos e = 0 <-> forall k, (c <= k < c')%nat -> oracle k = None)).
  { intros e j c' k E Hk. split; [lia|]. split; [lia|]. intros A. rewrite A in E by lia. discriminate. }
  assert (Oth : forall f x k, k <> name -> setFile f name x k = f k) by (intros; now apply setFile_other).
  unfold fitsWrite, createFile, newFits, call, tick. cbn [fst snd fstatus fname fptr files calls opened tick]. rewrite Z.ltb_irrefl.
  destruct (oracle c) as [[e0 j0]|] eqn:E0.
  { unfold failAt, setStatus, createImage, call. cbn [fst snd fstatus fname fptr files calls opened tick]. replace (0 <? Zpos e0) with true by reflexivity.
    cbn [fst snd fstatus fname fptr files calls opened tick writeImage call closeFile nullify setStatus]. unfold writeImage, call. cbn [fst snd fstatus].
    replace (0 <? Zpos e0) with true by reflexivity. unfold closeFile, nullify, setStatus. cbn [fst snd fstatus fname fptr files calls opened].
    split; [lia|]. split; [split; [lia|]; intros A; rewrite A in E0 by (unfold tick; cbn [calls]; lia); discriminate|]. split; [lia|]. split; auto. }
  rewrite Hf. cbn [fst snd fstatus fname fptr files calls opened].
  unfold createImage, call, tick. cbn [fst snd fstatus fname fptr files calls opened]. rewrite Z.ltb_irrefl.
  destruct (oracle (S c)) as [[e1 j1]|] eqn:E1.
  { unfold failWriting, setStatus. cbn [fst snd fstatus fname fptr files calls opened]. unfold writeImage, call. cbn [fst snd fstatus].
    replace (0 <? Zpos e1) with true by reflexivity. unfold closeFile, call, nullify. cbn [fst snd fstatus fname fptr files calls opened].
    replace (0 <? Zpos e1) with true by reflexivity. cbn [fst snd fstatus fname fptr files calls opened].
    destruct (Bad e1 j1 (S (S c)) (S c) E1 ltac:(lia)) as (B1 & B2). split; [exact B1|]. split; [exact B2|]. split; [lia|]. split; [lia|]. intros. now rewrite !Oth. }
  rewrite existsb_neg by auto. cbn [fst snd fstatus fname fptr files calls opened].
  unfold writeImage, call, tick. cbn [fst snd fstatus fname fptr files calls opened]. rewrite Z.ltb_irrefl.
  destruct (oracle (S (S c))) as [[e2 j2]|] eqn:E2.
  { unfold failWriting, setStatus. cbn [fst snd fstatus fname fptr files calls opened].
    unfold closeFile, call, nullify. cbn [fst snd fstatus fname fptr files calls opened].
    replace (0 <? Zpos e2) with true by reflexivity. cbn [fst snd fstatus fname fptr files calls opened].
    destruct (Bad e2 j2 (S (S (S c))) (S (S c)) E2 ltac:(lia)) as (B1 & B2). split; [exact B1|]. split; [exact B2|]. split; [lia|]. split; [lia|]. intros. now rewrite !Oth. }
  unfold current. cbn [fst snd fstatus fname fptr files calls opened]. rewrite setFile_same. cbn [fst snd fstatus fname fptr files calls opened naxes ibytes].
  unfold closeFile, call, nullify, tick. cbn [fst snd fstatus fname fptr files calls opened]. rewrite Z.ltb_irrefl.
  destruct (oracle (S (S (S c)))) as [[e3 j3]|] eqn:E3.
  { unfold failWriting, setStatus. cbn [fst snd fstatus fname fptr files calls opened].
    destruct (Bad e3 j3 (S (S (S (S c)))) (S (S (S c))) E3 ltac:(lia)) as (B1 & B2). split; [exact B1|]. split; [exact B2|]. split; [lia|]. split; [lia|]. intros. now rewrite !Oth. }
  cbn [fst snd fstatus fname fptr files calls opened]. split; [lia|]. split.
  { split; [|auto]. intros _ k Hk. assert (k = c \/ k = S c \/ k = S (S c) \/ k = S (S (S c)))%nat as [Ek|[Ek|[Ek|Ek]]] by lia; subst; assumption. }
  split; [|split; [lia|intros; now rewrite !Oth]].
  intros _. rewrite setFile_same. do 2 f_equal. rewrite firstn_all2 by lia. rewrite skipn_all2 by (rewrite repeat_length; lia). apply app_nil_r.
Qed.
