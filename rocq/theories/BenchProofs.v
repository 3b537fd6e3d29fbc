(** The loops of the benchmark. *)
From Verif Require Import Res Lemmas VecModel BoxModel RasterModel ArithModel BenchModel Spec BoxSpec ArithSpec IndexProofs BoxIterProofs BoxGeomProofs ArithProofs.

Section Loops.
Context {X S : Type}.

Lemma forLoop_each n i (body : Z -> S -> res S) s : forLoop n i body s = forEach (map (fun k => i + Z.of_nat k) (seq 0 n)) body s.
Proof.
  revert i s. induction n as [|n IH]; intros i s; [reflexivity|]. cbn [forLoop seq map forEach]. rewrite Z.add_0_r.
  destruct (body i s) as [t| |]; cbn [bind]; [|reflexivity|reflexivity]. rewrite IH. f_equal. rewrite <- seq_shift, map_map. apply map_ext. intros k. lia.
Qed.

Lemma forFromTo_each lo hi (body : Z -> S -> res S) s : forFromTo lo hi body s = forEach (zrange lo (hi - 1)) body s.
Proof. unfold forFromTo. rewrite forLoop_each. unfold zrange. replace (hi - 1 - lo + 1) with (hi - lo) by lia. reflexivity. Qed.

Lemma forEach_app (l r : list X) (body : X -> S -> res S) s : forEach (l ++ r) body s = (t <- forEach l body s ;; forEach r body t).
Proof. revert s. induction l as [|x l IH]; intros s; cbn [app forEach bind]; [reflexivity|]. destruct (body x s) as [t| |]; cbn [bind]; auto. Qed.
End Loops.

Lemma forEach_flat {X Y S : Type} (l : list X) (g : X -> list Y) (body : Y -> S -> res S) s :
  forEach l (fun x => forEach (g x) body) s = forEach (flat_map g l) body s.
Proof. revert s. induction l as [|x l IH]; intros s; cbn [flat_map forEach]; [reflexivity|]. rewrite forEach_app. destruct (forEach (g x) body s); cbn [bind]; auto. Qed.

Lemma forEach_map {X Y S : Type} (l : list X) (g : X -> Y) (body : Y -> S -> res S) s :
  forEach l (fun x => body (g x)) s = forEach (map g l) body s.
Proof. revert s. induction l as [|x l IH]; intros s; cbn [map forEach]; [reflexivity|]. destruct (body (g x) s); cbn [bind]; auto. Qed.

Lemma forEach_ext {X S : Type} (l : list X) (f g : X -> S -> res S) s : (forall x t, In x l -> f x t = g x t) -> forEach l f s = forEach l g s.
Proof.
  revert s. induction l as [|x l IH]; intros s H; cbn [forEach]; [reflexivity|]. rewrite H by (left; reflexivity).
  destruct (g x s); cbn [bind]; auto. apply IH. intros y t Hy. apply H. right. exact Hy.
Qed.

Section Bench.
Context {A : Type}.
Variable op : A -> A -> A.
Variables da db : list A.
Hypothesis Hab : length da = length db.

Lemma map2_get i : 0 <= i < Z.of_nat (length da) -> exists x y, zget da i = Ok x /\ zget db i = Ok y /\ zget (map2 op da db) i = Ok (op x y).
Proof.
  intros H. destruct (zget_in_range da i H) as [x Hx]. destruct (zget_in_range db i) as [y Hy]; [lia|]. exists x, y. split; [exact Hx|]. split; [exact Hy|].
  clear H. revert db Hab i Hx Hy. induction da as [|a l IH]; intros [|b r] L i Hx Hy; cbn in L; try discriminate.
  - apply zget_range in Hx. cbn in Hx. lia.
  - cbn [map2]. assert (R := zget_range _ _ _ Hx). destruct (Z.eq_dec i 0) as [->|N].
    + rewrite zget_cons_0 in *. congruence.
    + rewrite zget_cons_S in * by lia. apply IH; [lia|exact Hx|exact Hy].
Qed.

(** Writing at indices in any order *)
Lemma each_index (l : list Z) dc : length dc = length da -> (forall i, In i l -> 0 <= i < Z.of_nat (length da)) ->
  exists dc', forEach l (addAtIndex op da db) dc = Ok dc' /\ length dc' = length da /\
    forall j, 0 <= j < Z.of_nat (length da) -> (In j l -> zget dc' j = zget (map2 op da db) j) /\ (~ In j l -> zget dc' j = zget dc j).
Proof.
  revert dc. induction l as [|i l IH]; intros dc L H; cbn [forEach].
  - exists dc. split; [reflexivity|]. split; [exact L|]. intros j _. split; [intros []|reflexivity].
  - assert (Hi := H i (or_introl eq_refl)). destruct (map2_get i Hi) as (x & y & Ex & Ey & Em). unfold addAtIndex at 1. rewrite Ex, Ey. cbn [bind].
    rewrite zset_ok by lia. cbn [bind]. destruct (IH (replace dc (Z.to_nat i) (op x y))) as (dc' & E & L' & P); [rewrite replace_length; exact L|intros k Hk; apply H; right; exact Hk|].
    exists dc'. split; [exact E|]. split; [exact L'|]. intros j Hj. destruct (P j Hj) as [P1 P2].
    assert (Z1 : zset dc i (op x y) = Ok (replace dc (Z.to_nat i) (op x y))) by (apply zset_ok; lia).
    split.
    + intros [->|Hl]; [|auto]. destruct (in_dec Z.eq_dec j l) as [Hl|Hl]; [auto|]. rewrite (P2 Hl). rewrite Em. eapply zset_get_eq. exact Z1.
    + intros N. rewrite P2 by (intros Hl; apply N; right; exact Hl). eapply zset_get_neq; [exact Z1|]. intros ->. apply N. left. reflexivity.
Qed.

Lemma each_index_all (l : list Z) dc : length dc = length da -> (forall i, In i l <-> 0 <= i < Z.of_nat (length da)) ->
  forEach l (addAtIndex op da db) dc = Ok (map2 op da db).
Proof.
  intros L H. destruct (each_index l dc L) as (dc' & -> & L' & P); [intros i Hi; apply H; exact Hi|]. f_equal.
  apply zget_ext; [rewrite map2_length by exact Hab; exact L'|]. intros i Hi. rewrite L' in Hi. apply P; [exact Hi|]. apply H. exact Hi.
Qed.

Section Shape.
Variables w h d : Z.
Hypothesis Hw : 0 < w.
Hypothesis Hh : 0 < h.
Hypothesis Hd : 0 < d.
Hypothesis Hlen : Z.of_nat (length da) = w * h * d.

Lemma rindex3 x y z : rindex 3 [w; h; d] [x; y; z] = Ok (x + w * (y + h * z)).
Proof. reflexivity. Qed.

Lemma addAt_index x y z dc : addAt op w h d da db [x; y; z] dc = addAtIndex op da db (x + w * (y + h * z)) dc.
Proof.
  unfold addAt, addAtIndex, rget, rset, bshape. cbn [rshape rdata]. rewrite rindex3. cbn [bind].
  destruct (zget da _); cbn [bind]; auto. destruct (zget db _); cbn [bind]; auto. destruct (zset dc _ _); cbn [bind rdata]; auto.
Qed.

Lemma index_range x y z : 0 <= x < w -> 0 <= y < h -> 0 <= z < d -> 0 <= x + w * (y + h * z) < w * h * d.
Proof.
  intros Hx Hy Hz. assert (0 <= y + h * z < h * d) by nia. nia.
Qed.

Lemma index_split i : 0 <= i < w * h * d -> exists x y z, 0 <= x < w /\ 0 <= y < h /\ 0 <= z < d /\ i = x + w * (y + h * z).
Proof.
  intros Hi. exists (i mod w), ((i / w) mod h), (i / w / h).
  assert (0 <= i mod w < w) by (apply Z.mod_pos_bound; lia). assert (0 <= (i / w) mod h < h) by (apply Z.mod_pos_bound; lia).
  assert (0 <= i / w) by (apply Z.div_pos; lia). assert (0 <= i / w / h) by (apply Z.div_pos; lia).
  assert (i / w < h * d) by (apply Z.div_lt_upper_bound; lia). assert (i / w / h < d) by (apply Z.div_lt_upper_bound; lia).
  repeat (split; [lia|]). rewrite (Z.div_mod i w) at 1 by lia. rewrite (Z.div_mod (i / w) h) at 1 by lia. lia.
Qed.

Definition idx3 (t : Z * Z * Z) : Z := let '(x, y, z) := t in x + w * (y + h * z).

Lemma each_triples (l : list (Z * Z * Z)) dc : length dc = length da ->
  (forall x y z, In (x, y, z) l <-> 0 <= x < w /\ 0 <= y < h /\ 0 <= z < d) ->
  forEach (map idx3 l) (addAtIndex op da db) dc = Ok (map2 op da db).
Proof.
  intros L H. apply each_index_all; [exact L|]. intros i. rewrite in_map_iff, Hlen. split.
  - intros ([[x y] z] & <- & Ht). apply H in Ht as (Hx & Hy & Hz). cbn [idx3]. apply index_range; assumption.
  - intros Hi. destruct (index_split i Hi) as (x & y & z & Hx & Hy & Hz & ->). exists (x, y, z). split; [reflexivity|]. apply H. repeat split; lia.
Qed.

Lemma xyz_spec dc : length dc = length da -> loopOverXyz op w h d da db dc = Ok (map2 op da db).
Proof.
  intros L. unfold loopOverXyz. rewrite forFromTo_each.
  rewrite (forEach_ext _ _ (fun x => forEach (map idx3 (flat_map (fun y => map (fun z => (x, y, z)) (zrange 0 (d - 1))) (zrange 0 (h - 1)))) (addAtIndex op da db))).
  - rewrite forEach_flat.
    assert (E : flat_map (fun x => map idx3 (flat_map (fun y => map (fun z => (x, y, z)) (zrange 0 (d - 1))) (zrange 0 (h - 1)))) (zrange 0 (w - 1)) =
      map idx3 (flat_map (fun x => flat_map (fun y => map (fun z => (x, y, z)) (zrange 0 (d - 1))) (zrange 0 (h - 1))) (zrange 0 (w - 1)))).
    { generalize (zrange 0 (w - 1)). intros l. induction l as [|a l IH]; cbn [flat_map]; [reflexivity|]. rewrite map_app. f_equal. exact IH. }
    rewrite E. apply each_triples; [exact L|]. intros x y z. rewrite in_flat_map. split.
    + intros (x' & Hx & H). apply in_flat_map in H as (y' & Hy & H). apply in_map_iff in H as (z' & Ez & Hz). apply In_zrange in Hx, Hy, Hz.
      assert (x' = x /\ y' = y /\ z' = z) by (repeat split; congruence). lia.
    + intros (Hx & Hy & Hz). exists x. split; [apply In_zrange; lia|]. apply in_flat_map. exists y. split; [apply In_zrange; lia|]. apply in_map_iff. exists z. split; [reflexivity|apply In_zrange; lia].
  - intros x t _. rewrite forFromTo_each. rewrite <- forEach_map. cbn [idx3].
    rewrite <- (forEach_flat (zrange 0 (h - 1)) (fun y => map (fun z => (x, y, z)) (zrange 0 (d - 1))) (fun t0 => addAtIndex op da db (idx3 t0))).
    apply forEach_ext. intros y t' _. rewrite forFromTo_each. rewrite <- forEach_map. apply forEach_ext. intros z t'' _. apply addAt_index.
Qed.

Lemma zyx_spec dc : length dc = length da -> loopOverZyx op w h d da db dc = Ok (map2 op da db).
Proof.
  intros L. unfold loopOverZyx. rewrite forFromTo_each.
  rewrite (forEach_ext _ _ (fun z => forEach (map idx3 (flat_map (fun y => map (fun x => (x, y, z)) (zrange 0 (w - 1))) (zrange 0 (h - 1)))) (addAtIndex op da db))).
  - rewrite forEach_flat.
    assert (E : flat_map (fun z => map idx3 (flat_map (fun y => map (fun x => (x, y, z)) (zrange 0 (w - 1))) (zrange 0 (h - 1)))) (zrange 0 (d - 1)) =
      map idx3 (flat_map (fun z => flat_map (fun y => map (fun x => (x, y, z)) (zrange 0 (w - 1))) (zrange 0 (h - 1))) (zrange 0 (d - 1)))).
    { generalize (zrange 0 (d - 1)). intros l. induction l as [|a l IH]; cbn [flat_map]; [reflexivity|]. rewrite map_app. f_equal. exact IH. }
    rewrite E. apply each_triples; [exact L|]. intros x y z. rewrite in_flat_map. split.
    + intros (z' & Hz & H). apply in_flat_map in H as (y' & Hy & H). apply in_map_iff in H as (x' & Ez & Hx). apply In_zrange in Hx, Hy, Hz.
      assert (x' = x /\ y' = y /\ z' = z) by (repeat split; congruence). lia.
    + intros (Hx & Hy & Hz). exists z. split; [apply In_zrange; lia|]. apply in_flat_map. exists y. split; [apply In_zrange; lia|]. apply in_map_iff. exists x. split; [reflexivity|apply In_zrange; lia].
  - intros z t _. rewrite forFromTo_each. rewrite <- forEach_map. 
    rewrite <- (forEach_flat (zrange 0 (h - 1)) (fun y => map (fun x => (x, y, z)) (zrange 0 (w - 1))) (fun t0 => addAtIndex op da db (idx3 t0))).
    apply forEach_ext. intros y t' _. rewrite forFromTo_each. rewrite <- forEach_map. apply forEach_ext. intros x t'' _. apply addAt_index.
Qed.

Lemma rdomain3 : rdomain 3 [w; h; d] = Ok (mkBox [0; 0; 0] [w - 1; h - 1; d - 1]).
Proof. reflexivity. Qed.

Lemma domain_ne : NonEmpty [0; 0; 0] [w - 1; h - 1; d - 1].
Proof. repeat constructor; lia. Qed.

Lemma In_domain3 p : In p (positions [0; 0; 0] [w - 1; h - 1; d - 1]) <-> exists x y z, p = [x; y; z] /\ 0 <= x < w /\ 0 <= y < h /\ 0 <= z < d.
Proof.
  rewrite In_positions. split.
  - intros H. inversion H as [|? ? x ? ? p1 Hx H1]; subst. inversion H1 as [|? ? y ? ? p2 Hy H2]; subst. inversion H2 as [|? ? z ? ? p3 Hz H3]; subst. inversion H3; subst.
    exists x, y, z. repeat split; lia.
  - intros (x & y & z & -> & Hx & Hy & Hz). repeat (constructor; [lia|]). constructor.
Qed.

Lemma domain_each body dc fuel : length dc = length da ->
  (forall x y z t, body [x; y; z] t = addAtIndex op da db (x + w * (y + h * z)) t) ->
  Z.of_nat (length (positions [0; 0; 0] [w - 1; h - 1; d - 1])) < Z.of_nat fuel ->
  overDomain w h d fuel body dc = Some (Ok (map2 op da db)).
Proof.
  intros L Hb Hf. unfold overDomain, bshape. rewrite rdomain3. rewrite boxForeach_positions; [|discriminate|apply domain_ne|lia]. cbn [bind].
  set (g := fun p => match p with [x; y; z] => x + w * (y + h * z) | _ => 0 end).
  rewrite (forEach_ext _ _ (fun p => addAtIndex op da db (g p))).
  - rewrite forEach_map. f_equal. apply each_index_all; [exact L|]. intros i. rewrite in_map_iff, Hlen. split.
    + intros (p & <- & Hp). apply In_domain3 in Hp as (x & y & z & -> & Hx & Hy & Hz). cbn [g]. apply index_range; assumption.
    + intros Hi. destruct (index_split i Hi) as (x & y & z & Hx & Hy & Hz & ->). exists [x; y; z]. split; [reflexivity|]. apply In_domain3. exists x, y, z. auto.
  - intros p t Hp. apply In_domain3 in Hp as (x & y & z & -> & _). apply Hb.
Qed.

Lemma positions_spec dc : length dc = length da -> exists enough, forall fuel, (enough <= fuel)%nat ->
  iterateOverPositions op w h d da db fuel dc = Some (Ok (map2 op da db)) /\
  iterateOverPositionsOptimized op w h d da db fuel dc = Some (Ok (map2 op da db)).
Proof.
  intros L. exists (S (length (positions [0; 0; 0] [w - 1; h - 1; d - 1]))). intros fuel Hf. split; apply domain_each; try exact L; try lia.
  - intros x y z t. apply addAt_index.
  - intros x y z t. unfold bshape. rewrite rindex3. reflexivity.
Qed.
End Shape.

Lemma indices_spec dc : length dc = length da -> loopOverIndices op da db dc = Ok (map2 op da db).
Proof.
  intros L. unfold loopOverIndices. rewrite forFromTo_each. apply each_index_all; [exact L|]. intros i. rewrite In_zrange. lia.
Qed.

Lemma valuesLoop_each n i dc : valuesLoop op da db n i i i dc = forLoop n i (addAtIndex op da db) dc.
Proof.
  revert i dc. induction n as [|n IH]; intros i dc; cbn [valuesLoop forLoop]; [reflexivity|]. unfold addAtIndex at 1.
  destruct (zget da i); cbn [bind]; auto. destruct (zget db i); cbn [bind]; auto. destruct (zset dc i _); cbn [bind]; auto.
Qed.

Lemma values_spec dc : length dc = length da -> iterateOverValues op da db dc = Ok (map2 op da db).
Proof.
  intros L. unfold iterateOverValues. rewrite valuesLoop_each. rewrite <- (indices_spec dc L). unfold loopOverIndices, forFromTo. rewrite Z.sub_0_r, Nat2Z.id. reflexivity.
Qed.

Lemma get_a dc i : 0 <= i < Z.of_nat (length da) -> zget (memory da db dc) (0 + i) = zget da i.
Proof. intros H. unfold memory. rewrite zget_app_l by lia. reflexivity. Qed.

Lemma get_b dc i : 0 <= i < Z.of_nat (length da) -> zget (memory da db dc) (addressB da + i) = zget db i.
Proof. intros H. unfold memory, addressB. rewrite zget_app_r by lia. rewrite zget_app_l by lia. f_equal. lia. Qed.

Lemma operator_spec dc : callOperator op da db dc = Ok (map2 op da db).
Proof.
  unfold callOperator. assert (Lm : length (memory da db dc) = (length da + length db + length dc)%nat) by (unfold memory; rewrite !app_length; lia).
  assert (G : forall i, 0 <= i < Z.of_nat (length da) -> (x <- zget (memory da db dc) (0 + i);; y <- zget (memory da db dc) (addressB da + i);; Ok (op x y)) = zget (map2 op da db) i).
  { intros i Hi. rewrite get_a, get_b by exact Hi. destruct (map2_get i Hi) as (x & y & -> & -> & ->). reflexivity. }
  destruct (new2_spec (fun x y => Ok (op x y)) (length da) (memory da db dc) 0 (addressB da)) as (m & E & L & _ & P).
  - unfold Allocated. lia.
  - unfold Allocated, addressB. lia.
  - intros i Hi. rewrite G by exact Hi. destruct (map2_get i Hi) as (x & y & _ & _ & ->). eauto.
  - rewrite E. cbn [bind]. destruct (zgetN_spec (length da) m (Z.of_nat (length (memory da db dc)))) as (l & -> & Ll & Pl); [unfold Allocated; lia|]. f_equal.
    apply zget_ext; [rewrite map2_length by exact Hab; exact Ll|]. rewrite Ll. intros i Hi. rewrite Pl, P, G by exact Hi. reflexivity.
Qed.

Lemma calls_add : forall l r, length l = length r -> calls (addArgs op) tt (map (fun p => [fst p; snd p]) (combine l r)) = Ok (tt, map2 op l r).
Proof.
  induction l as [|x l IH]; intros [|y r] L; cbn in L; try discriminate; [reflexivity|]. cbn [combine map calls addArgs bind fst snd map2]. rewrite IH by lia. reflexivity.
Qed.

Lemma zget_combine {X Y : Type} : forall (l : list X) (r : list Y) i x y, zget l i = Ok x -> zget r i = Ok y -> zget (combine l r) i = Ok (x, y).
Proof.
  induction l as [|a l IH]; intros [|b r] i x y Hx Hy; try (apply zget_range in Hx; cbn in Hx; lia); try (apply zget_range in Hy; cbn in Hy; lia).
  cbn [combine]. assert (R := zget_range _ _ _ Hx). destruct (Z.eq_dec i 0) as [->|N].
  - rewrite zget_cons_0 in Hx. rewrite zget_cons_0 in Hy. rewrite zget_cons_0. congruence.
  - rewrite zget_cons_S in Hx by lia. rewrite zget_cons_S in Hy by lia. rewrite zget_cons_S by lia. apply IH; assumption.
Qed.

Lemma generate_add dc : length dc = length da -> callGenerate op da db dc = Ok (map2 op da db).
Proof.
  intros L. unfold callGenerate. assert (Lm : length (memory da db dc) = (length da + length db + length dc)%nat) by (unfold memory; rewrite !app_length; lia).
  destruct (generate_spec (addArgs op) (length dc) tt (memory da db dc) (addressC da db) [0; addressB da]
    (map (fun p => [fst p; snd p]) (combine da db)) tt (map2 op da db)) as (m & E & (Lf & _) & P).
  - unfold Allocated, addressC. lia.
  - unfold Apart, addressB, addressC. constructor; [right; intros; lia|]. constructor; [right; intros; lia|constructor].
  - rewrite map_length, combine_length. lia.
  - intros i Hi. rewrite L in Hi. unfold shifted. cbn [map readArgs]. rewrite get_a, get_b by exact Hi. destruct (map2_get i Hi) as (x & y & Ex & Ey & _). rewrite Ex, Ey. cbn [bind].
    rewrite zget_map. rewrite (zget_combine da db i x y Ex Ey). reflexivity.
  - apply calls_add. exact Hab.
  - rewrite E. cbn [bind snd]. destruct (zgetN_spec (length dc) m (addressC da db)) as (l & -> & Ll & Pl); [unfold Allocated, addressC; lia|]. f_equal.
    apply zget_ext; [rewrite map2_length by exact Hab; lia|]. rewrite Ll. intros i Hi. rewrite Pl, P by exact Hi. reflexivity.
Qed.
End Bench.

Lemma bench_all {A} (op : A -> A -> A) w h d da db dc : 0 < w -> 0 < h -> 0 < d ->
  Z.of_nat (length da) = w * h * d -> length db = length da -> length dc = length da ->
  loopOverXyz op w h d da db dc = Ok (map2 op da db) /\
  loopOverZyx op w h d da db dc = Ok (map2 op da db) /\
  (exists enough, forall fuel, (enough <= fuel)%nat ->
    iterateOverPositions op w h d da db fuel dc = Some (Ok (map2 op da db)) /\
    iterateOverPositionsOptimized op w h d da db fuel dc = Some (Ok (map2 op da db))) /\
  loopOverIndices op da db dc = Ok (map2 op da db) /\
  iterateOverValues op da db dc = Ok (map2 op da db) /\
  callOperator op da db dc = Ok (map2 op da db) /\
  callGenerate op da db dc = Ok (map2 op da db).
Proof.
  intros Hw Hh Hd Hl Hb Hc. symmetry in Hb.
  split; [apply xyz_spec; assumption|]. split; [apply zyx_spec; assumption|]. split; [apply positions_spec; assumption|].
  split; [apply indices_spec; assumption|]. split; [apply values_spec; assumption|]. split; [apply operator_spec; assumption|]. apply generate_add; assumption.
Qed.

Lemma bench_empty {A} (op : A -> A -> A) : 
  loopOverXyz op 0 0 0 [] [] [] = Ok [] /\ loopOverZyx op 0 0 0 [] [] [] = Ok [] /\
  loopOverIndices op [] [] [] = Ok [] /\ iterateOverValues op [] [] [] = Ok [] /\ callOperator op [] [] [] = Ok [] /\ callGenerate op [] [] [] = Ok [] /\
  forall fuel, iterateOverPositions op 0 0 0 [] [] fuel [] = None /\ iterateOverPositionsOptimized op 0 0 0 [] [] fuel [] = None.
Proof.
  repeat (split; [reflexivity|]). intros fuel.
  assert (E : boxForeach fuel (mkBox [0; 0; 0] [-1; -1; -1]) = None).
  { apply never_ends; [discriminate|reflexivity|]. intros (p & H). inversion H; subst. lia. }
  unfold iterateOverPositions, iterateOverPositionsOptimized, overDomain, bshape. change (rdomain 3 [0; 0; 0]) with (Ok (mkBox [0; 0; 0] [-1; -1; -1])). cbv beta iota. rewrite E. split; reflexivity.
Qed.

Lemma map2_combine {A B C} (f : A -> B -> C) : forall l r, map2 f l r = map (fun p => f (fst p) (snd p)) (combine l r).
Proof. induction l as [|x l IH]; intros [|y r]; cbn [map2 combine map fst snd]; [reflexivity..|]. rewrite IH. reflexivity. Qed.

Lemma bench_props {A} (op : A -> A -> A) w h d da db dc : 0 < w -> 0 < h -> 0 < d ->
  Z.of_nat (length da) = w * h * d -> length db = length da -> length dc = length da ->
  let sum := map (fun p => op (fst p) (snd p)) (combine da db) in
  loopOverXyz op w h d da db dc = Ok sum /\
  loopOverZyx op w h d da db dc = Ok sum /\
  (exists enough, forall fuel, (enough <= fuel)%nat ->
    iterateOverPositions op w h d da db fuel dc = Some (Ok sum) /\ iterateOverPositionsOptimized op w h d da db fuel dc = Some (Ok sum)) /\
  loopOverIndices op da db dc = Ok sum /\
  iterateOverValues op da db dc = Ok sum /\
  callOperator op da db dc = Ok sum /\
  callGenerate op da db dc = Ok sum.
Proof. intros. subst sum. rewrite <- map2_combine. apply bench_all; assumption. Qed.
