(** Subrasters. *)
From Verif Require Import Res VecModel BoxModel RasterModel LoopModel SubrasterModel Spec BoxSpec RasterSpec Lemmas IndexProofs
  BoxIterProofs BoxGeomProofs AccessProofs LoopProofs ViewProofs.

Lemma Between_InDomain shape f b p : InDomain shape f -> InDomain shape b -> Between f b p -> InDomain shape p.
Proof.
  intros Hf Hb H. revert shape Hf Hb.
  induction H as [|x y z f b p Hz H IH]; intros s Hf Hb; inversion Hf; subst; [constructor|].
  inversion Hb; subst. constructor; [lia | now apply IH].
Qed.

Lemma rank_ge shape f b p : InDomain shape f -> InDomain shape b -> Between f b p -> rank shape f <= rank shape p.
Proof.
  intros Hf Hb H. revert shape Hf Hb.
  induction H as [|x y z f b p Hz H IH]; intros s Hf Hb; inversion Hf; subst; [lia|].
  inversion Hb; subst. rewrite !rank_cons. match goal with H : InDomain ?s f |- _ => specialize (IH s) end.
  assert (0 < s0) by lia. assert (rank shape f <= rank shape p) by auto. nia.
Qed.

(** Adding a position of the region. *)
Lemma region_add f b q :
  length f = length b -> (InDomain (boxShape (mkBox f b)) q <-> length q = length f /\ Between f b (vadd q f)).
Proof.
  rewrite boxShape_map2. revert b q; induction f as [|x f IH]; intros [|y b] [|z q] Hl; cbn in Hl; try lia; cbn [map2 vadd length].
  - split; [intros; split; auto; constructor | intros; constructor].
  - split; [inversion 1 | intros [? _]; discriminate].
  - split; [inversion 1 | intros [? _]; discriminate].
  - rewrite InDomain_cons_iff, Between_cons_iff, IH by lia. fold (vadd q f). intuition lia.
Qed.

Lemma sub_access {A} n (r : raster A) f b q a :
  WF r -> n = -1 \/ n = Z.of_nat (length (rshape r)) ->
  InDomain (rshape r) f -> InDomain (rshape r) b -> InDomain (subShape (mkBox f b)) q ->
  let p := vadd f q in
  InBox (mkBox f b) p /\ InDomain (rshape r) p /\
  (exists a0, rget n r p = Ok a0 /\ subGet n r (mkBox f b) q = Ok a0) /\
  (exists r', rset n r p a = Ok r' /\ subSet n r (mkBox f b) q a = Ok r').
Proof.
  intros Hwf Hn Hf Hb Hq p. pose proof (InDomain_length _ _ Hf). pose proof (InDomain_length _ _ Hb).
  unfold subShape in Hq. apply region_add in Hq as [Hlq Hq]; [|lia].
  assert (E : vadd q f = p).
  { unfold p, vadd. clear -Hlq. revert f Hlq; induction q as [|x q IH]; intros [|y f] Hl; cbn in *; try lia; auto.
    rewrite IH by lia. now rewrite Z.add_comm. }
  rewrite E in Hq. assert (Hd : InDomain (rshape r) p) by exact (Between_InDomain _ _ _ _ Hf Hb Hq).
  split; auto. split; auto. unfold subGet, subSet. cbn [bfront]. rewrite E. split.
  - destruct (rget_domain n r p Hwf Hd) as (a0 & Ha0 & _). eauto.
  - destruct (rset_domain n r p a Hwf Hd) as (r' & Hr' & _). eauto.
Qed.

Lemma project0 x y f b : project (mkBox (x :: f) (y :: b)) 0 = Ok (mkBox (x :: f) (x :: b)).
Proof. reflexivity. Qed.

Lemma length0 x y f b : boxLength (mkBox (x :: f) (y :: b)) 0 = Ok (y - x + 1).
Proof. reflexivity. Qed.

Lemma subNext_same_row n shape region r cur eol :
  cur + 1 <> eol -> subNext n shape region (mkSubIt r cur eol) = Ok (mkSubIt r (cur + 1) eol).
Proof. intros H. unfold subNext. cbn [siCurrent siEol siBegin]. apply Z.eqb_neq in H. now rewrite H. Qed.

Section Iter.
Variables (n : Z) (shape : list Z) (x y : Z) (f b : list Z).
Hypothesis (Hne : shape <> []) (Hn : n = -1 \/ n = Z.of_nat (length shape)).
Hypothesis (Hdf : InDomain shape (x :: f)) (Hdb : InDomain shape (y :: b)) (Hxy : x <= y) (HNE : NonEmpty f b).
Let region := mkBox (x :: f) (y :: b).
Let plane := mkBox (x :: f) (x :: b).
Let w := y - x + 1.
Let e := rank shape (x :: f) - 1.
Let atEnd := fun s : subIt => siCurrent s =? e.

Lemma subNext_new_row r r' cur eol :
  next plane r = Ok r' -> length r' = length shape -> cur + 1 = eol ->
  subNext n shape region (mkSubIt r cur eol) = Ok (mkSubIt r' (rank shape r') (rank shape r' + w)).
Proof.
  intros Hr Hl <-. unfold subNext. cbn [siCurrent siEol siBegin]. rewrite Z.eqb_refl. cbn [negb].
  unfold region. rewrite project0. cbn [bind]. fold plane. rewrite Hr. cbn [bind]. rewrite length0. cbn [bind].
  rewrite rindex_rank by auto. reflexivity.
Qed.

(** The rest of a row, then the next rows. *)
Lemma row_trace r r' k L :
  next plane r = Ok r' -> length r' = length shape -> rank shape (x :: f) <= rank shape r ->
  Trace atEnd (subNext n shape region) (mkSubIt r' (rank shape r') (rank shape r' + w)) L ->
  forall j, 0 <= j < w -> k = Z.to_nat (w - 1 - j) ->
  exists L', Trace atEnd (subNext n shape region) (mkSubIt r (rank shape r + j) (rank shape r + w)) (L' ++ L) /\
    map siCurrent L' = zrange (rank shape r + j) (rank shape r + w - 1).
Proof.
  intros Hr Hl Hge HT. induction k as [|k IH]; intros j Hj Hk.
  - assert (j = w - 1) as -> by lia. exists [mkSubIt r (rank shape r + (w - 1)) (rank shape r + w)]. split.
    + cbn [app]. econstructor; [|eapply subNext_new_row; eauto; lia|].
      * unfold atEnd. cbn [siCurrent]. unfold e. lia.
      * exact HT.
    + rewrite zrange_cons by lia. rewrite zrange_empty by lia. reflexivity.
  - destruct (IH (j + 1)) as (L' & HT' & HL'); try lia.
    exists (mkSubIt r (rank shape r + j) (rank shape r + w) :: L'). split.
    + cbn [app]. econstructor; [|apply subNext_same_row; lia|].
      * unfold atEnd. cbn [siCurrent]. unfold e. lia.
      * replace (rank shape r + j + 1) with (rank shape r + (j + 1)) by lia. exact HT'.
    + cbn [map siCurrent]. rewrite HL'. rewrite (zrange_cons (rank shape r + j)) by lia. do 2 f_equal. lia.
Qed.

Lemma row_trace' r r' L :
  next plane r = Ok r' -> length r' = length shape -> rank shape (x :: f) <= rank shape r ->
  Trace atEnd (subNext n shape region) (mkSubIt r' (rank shape r') (rank shape r' + w)) L ->
  exists L', Trace atEnd (subNext n shape region) (mkSubIt r (rank shape r) (rank shape r + w)) (L' ++ L) /\
    map siCurrent L' = zrange (rank shape r) (rank shape r + w - 1).
Proof.
  intros H1 H2 H3 H4. destruct (row_trace r r' (Z.to_nat (w - 1 - 0)) L H1 H2 H3 H4 0) as (L' & HT & HL'); [unfold w; lia | reflexivity|].
  rewrite Z.add_0_r in *. eauto.
Qed.

Lemma rows_trace r R :
  Walk plane r R -> (forall q, In q R -> InBox plane q) ->
  exists L, Trace atEnd (subNext n shape region) (mkSubIt r (rank shape r) (rank shape r + w)) L /\
    map siCurrent L = flat_map (fun q => zrange (rank shape q) (rank shape q + w - 1)) R.
Proof.
  assert (Hdb' : InDomain shape (x :: b)).
  { inversion Hdf; subst. inversion Hdb; subst. constructor; auto. }
  assert (Hlen : forall q, InBox plane q -> length q = length shape).
  { intros q Hq. apply Between_length in Hq. pose proof (InDomain_length _ _ Hdf). cbn [bfront plane] in Hq. lia. }
  assert (Hge : forall q, InBox plane q -> rank shape (x :: f) <= rank shape q).
  { intros q Hq. eapply rank_ge; [exact Hdf | exact Hdb' | exact Hq]. }
  induction 1 as [r Hr | r r' R Hr Hadv HW IH]; intros Hin.
  - assert (Hb' : InBox plane r) by (apply Hin; now left).
    destruct (row_trace' r (x - 1 :: f) []) as (L & HT & HL).
    + unfold next. rewrite (proj2 (veqb_spec _ _) Hr). reflexivity.
    + apply InDomain_length in Hdf. cbn in *. lia.
    + apply Hge; auto.
    + constructor. unfold atEnd. cbn [siCurrent]. unfold e. destruct shape as [|s sh]; [congruence|]. rewrite !rank_cons. lia.
    + exists L. rewrite app_nil_r in HT. split; auto. cbn [flat_map]. now rewrite app_nil_r.
  - destruct IH as (L & HT & HL); [intros; apply Hin; now right|].
    assert (Hr' : InBox plane r') by (apply Hin; right; inversion HW; now left).
    destruct (row_trace' r r' L) as (L' & HT' & HL'); auto.
    + unfold next. rewrite veqb_false by auto. exact Hadv.
    + apply Hge, Hin. now left.
    + exists (L' ++ L). split; auto. rewrite map_app, HL', HL. reflexivity.
Qed.

Lemma flat_map_map {A B C} (g : A -> B) (h : B -> list C) l : flat_map h (map g l) = flat_map (fun a => h (g a)) l.
Proof. induction l as [|a l IH]; cbn; auto. now rewrite IH. Qed.

Lemma map_flat_map {A B C} (g : B -> C) (h : A -> list B) l : map g (flat_map h l) = flat_map (fun a => map g (h a)) l.
Proof. induction l as [|a l IH]; cbn; auto. now rewrite map_app, IH. Qed.

Lemma plane_positions : positions (x :: f) (x :: b) = map (fun q => x :: q) (positions f b).
Proof.
  cbn [positions]. rewrite (zrange_cons x x), zrange_empty by lia. cbn [map].
  induction (positions f b) as [|q L IH]; [reflexivity | cbn; now f_equal].
Qed.

Lemma sub_trace :
  exists L, Trace atEnd (subNext n shape region) (mkSubIt (x :: f) (rank shape (x :: f)) (rank shape (x :: f) + w)) L /\
    map siCurrent L = map (rank shape) (positions (x :: f) (y :: b)).
Proof.
  destruct (rows_trace (x :: f) (positions (x :: f) (x :: b))) as (L & HT & HL).
  - apply positions_Walk. constructor; auto; lia.
  - intros q. apply In_positions.
  - exists L. split; auto. rewrite HL, plane_positions, flat_map_map. cbn [positions]. rewrite map_flat_map.
    apply flat_map_ext. intros q. rewrite map_map. destruct shape as [|s sh]; [congruence|].
    rewrite rank_cons. unfold w. replace (x + s * rank sh q + (y - x + 1) - 1) with (y + s * rank sh q) by lia.
    rewrite zrange_shift. apply map_ext. intros z. now rewrite rank_cons.
Qed.

Lemma sub_foreach :
  exists enough, forall fuel, (enough <= fuel)%nat ->
    subForeach fuel n shape region = Some (Ok (map (rank shape) (positions (x :: f) (y :: b)))).
Proof.
  destruct sub_trace as (L & HT & HL). exists (S (length L)). intros fuel Hfuel.
  unfold subForeach, endPosition, beginPosition, subItMake, region. cbn [bfront decr0 bind]. rewrite project0. cbn [bind].
  rewrite length0. cbn [bind]. pose proof (InDomain_length _ _ Hdf). cbn in H.
  rewrite !rindex_rank by (auto; cbn; lia). cbn [bind siCurrent].
  assert (He : rank shape (x - 1 :: f) = e) by (unfold e; destruct shape as [|s sh]; [congruence|]; rewrite !rank_cons; lia).
  rewrite He. fold w. fold atEnd. fold region. rewrite (Trace_forLoop _ _ _ _ HT) by lia. now rewrite HL.
Qed.
End Iter.

Lemma sub_iteration {A} n (r : raster A) f b :
  WF r -> n = -1 \/ n = Z.of_nat (length (rshape r)) ->
  InDomain (rshape r) f -> InDomain (rshape r) b -> Nonempty (mkBox f b) ->
  exists P L, (exists enough, forall fuel, (enough <= fuel)%nat -> subForeach fuel n (rshape r) (mkBox f b) = Some (Ok L)) /\
    NoDup P /\ (forall p, In p P <-> InBox (mkBox f b) p) /\
    Forall2 (fun p i => rindex n (rshape r) p = Ok i /\ exists a, zget (rdata r) i = Ok a) P L /\
    Sorted.StronglySorted Z.lt L /\ subSize (mkBox f b) = Z.of_nat (length L).
Proof.
  intros Hwf Hn Hf Hb Hbox. pose proof Hwf as (Hne & _ & Hl). apply Nonempty_iff in Hbox. cbn [bfront bback] in Hbox.
  assert (Hd : forall p, In p (positions f b) -> InDomain (rshape r) p).
  { intros p Hp. apply In_positions in Hp. exact (Between_InDomain _ _ _ _ Hf Hb Hp). }
  exists (positions f b), (map (rank (rshape r)) (positions f b)).
  split; [|split; [apply positions_NoDup | split; [intros; apply In_positions|split; [|split]]]].
  - destruct f as [|x f]; [inversion Hf; congruence|]. destruct b as [|y b]; [inversion Hbox|].
    inversion Hbox; subst. apply sub_foreach; auto.
  - induction (positions f b) as [|p L IH]; constructor.
    + rewrite rindex_rank by (auto using InDomain_length, in_eq). split; auto.
      destruct (rget_domain n r p Hwf) as (a & _ & Ha); eauto. apply Hd. now left.
    + apply IH. intros q Hq. apply Hd. now right.
  - apply (SSorted_map (fun p q => rank (rshape r) p < rank (rshape r) q)); auto.
    eapply SSorted_impl; [|apply positions_sorted]. intros p q Hp Hq. apply rank_lexLt; auto.
  - rewrite map_length. unfold subSize. apply boxSize_count; auto. intros ->. inversion Hf. congruence.
Qed.

(** The end pointer of a region whose front is the first pixel is out of the data. *)
Lemma sub_end_pointer n shape y b :
  n = -1 \/ n = Z.of_nat (length shape) -> shape <> [] -> length shape = S (length b) ->
  exists p s, endPosition (mkBox (repeat 0 (length shape)) (y :: b)) = Ok p /\
    subItMake n shape (mkBox (repeat 0 (length shape)) (y :: b)) p = Ok s /\ siCurrent s = -1.
Proof.
  intros Hn Hne Hl. destruct shape as [|s sh]; [congruence|]. cbn [length repeat].
  eexists. eexists. split; [reflexivity|]. unfold subItMake. rewrite project0. cbn [bind]. rewrite length0. cbn [bind].
  rewrite rindex_rank by (auto; cbn; now rewrite repeat_length). cbn [bind]. split; [reflexivity|]. cbn [siCurrent].
  rewrite rank_cons, rank_zero. lia.
Qed.
