(** Proofs about the ownership of pixels by rasters which hold an array. *)
From Verif Require Import Res Lemmas VecModel RasterModel ArithModel ArrOwnModel ArrOwnSpec.

Section P.
Context {A : Type}.
Variable zero : A.
Variable selfMoved : list Z -> list Z.
Notation step := (astep zero selfMoved).

Lemma living_raster (s : astate A) i o : Living s i o <-> araster s i = Some o.
Proof. unfold Living, araster. destruct (nth_error (arasters s) i) as [[x|]|]; split; intros H; congruence. Qed.

Lemma living_bound (s : astate A) i o : Living s i o -> (i < length (arasters s))%nat.
Proof. intros H. apply nth_error_Some. unfold Living in H. congruence. Qed.

Lemma raster_set_eq (s : astate A) i x : (i < length (arasters s))%nat -> araster (setRaster s i x) i = x.
Proof. intros H. unfold araster, setRaster. cbn [arasters]. rewrite nth_error_replace_eq by exact H. destruct x; reflexivity. Qed.

Lemma raster_set_neq (s : astate A) i x k : k <> i -> araster (setRaster s i x) k = araster s k.
Proof. intros H. unfold araster, setRaster. cbn [arasters]. rewrite nth_error_replace_neq by congruence. reflexivity. Qed.

Lemma raster_add_new (s : astate A) o : araster (addRaster s o) (length (arasters s)) = Some o.
Proof. unfold araster, addRaster. cbn [arasters]. rewrite nth_error_app2, Nat.sub_diag by lia. reflexivity. Qed.

Lemma raster_add_old (s : astate A) o k : (k < length (arasters s))%nat -> araster (addRaster s o) k = araster s k.
Proof. intros H. unfold araster, addRaster. cbn [arasters]. rewrite nth_error_app1 by lia. reflexivity. Qed.

Lemma set_length (s : astate A) i x : length (arasters (setRaster s i x)) = length (arasters s).
Proof. apply replace_length. Qed.

Lemma add_length (s : astate A) o : length (arasters (addRaster s o)) = S (length (arasters s)).
Proof. cbn. rewrite app_length. cbn. lia. Qed.

Lemma set_set (s : astate A) i x : length (arasters (setRaster s i x)) = length (arasters s).
Proof. apply replace_length. Qed.

(** What a raster reads depends on itself and on its target. *)
Lemma unaltered_by (s s' : astate A) i : araster s' i = araster s i ->
  (forall q t off n, araster s i = Some q -> aholds q = Pointer t off n -> cellsOf s' t = cellsOf s t) -> Unaltered s s' i.
Proof.
  intros E H o L. apply living_raster in L. split; [apply living_raster; congruence|]. unfold apixels, areadAt. rewrite E, L.
  destruct o as [n sh [l|t off m]]; [split; reflexivity|]. rewrite (H _ _ _ _ L eq_refl). split; reflexivity.
Qed.

Record AInv (s : astate A) : Prop := {
  ai_target : forall k q t off n, Living s k q -> aholds q = Pointer t off n -> (t < length (arasters s))%nat /\ forall o, Living s t o -> OnArray o }.

Lemma living_set (s : astate A) i x k o : (i < length (arasters s))%nat -> Living (setRaster s i x) k o -> (k <> i /\ Living s k o) \/ (k = i /\ x = Some o).
Proof.
  intros B L. apply living_raster in L. destruct (Nat.eq_dec k i) as [->|N].
  - right. rewrite raster_set_eq in L by exact B. auto.
  - left. rewrite raster_set_neq in L by exact N. split; [exact N|apply living_raster; exact L].
Qed.

Lemma living_add (s : astate A) x k o : Living (addRaster s x) k o -> Living s k o \/ (k = length (arasters s) /\ x = o).
Proof.
  intros L. assert (B := living_bound _ _ _ L). rewrite add_length in B. apply living_raster in L.
  destruct (Nat.eq_dec k (length (arasters s))) as [->|N].
  - right. rewrite raster_add_new in L. split; congruence.
  - left. rewrite raster_add_old in L by lia. apply living_raster. exact L.
Qed.

(** Replacing a raster by one which holds an array exactly if the first did. *)
Lemma inv_set (s : astate A) i d x : AInv s -> Living s i d -> (OnArray d -> OnArray x) ->
  (forall t off n, aholds x = Pointer t off n -> (t < length (arasters s))%nat /\ forall o, Living s t o -> OnArray o) -> AInv (setRaster s i (Some x)).
Proof.
  intros I D K H. assert (B := living_bound _ _ _ D). constructor. intros k q t off n L P. rewrite set_set.
  assert ((t < length (arasters s))%nat /\ forall o, Living s t o -> OnArray o) as [Bt Ht].
  { apply living_set in L as [[_ L]|[-> E]]; [exact (ai_target s I k q t off n L P)| |exact B]. injection E as ->. exact (H t off n P). }
  split; [exact Bt|]. intros o L'. apply living_set in L' as [[_ L']|[-> E]]; [exact (Ht o L')| |exact B]. injection E as <-. exact (K (Ht d D)).
Qed.

Lemma inv_add (s : astate A) x : AInv s ->
  (forall t off n, aholds x = Pointer t off n -> (t < length (arasters s))%nat /\ forall o, Living s t o -> OnArray o) -> AInv (addRaster s x).
Proof.
  intros I H. constructor. intros k q t off n L P. rewrite add_length.
  assert ((t < length (arasters s))%nat /\ forall o, Living s t o -> OnArray o) as [Bt Ht].
  { apply living_add in L as [L|[_ <-]]; [exact (ai_target s I k q t off n L P)|exact (H t off n P)]. }
  split; [lia|]. intros o L'. apply living_add in L' as [L'|[-> _]]; [exact (Ht o L')|lia].
Qed.

Lemma inv_destroy (s : astate A) i d : AInv s -> Living s i d -> AInv (setRaster s i None).
Proof.
  intros I D. assert (B := living_bound _ _ _ D). constructor. intros k q t off n L P. rewrite set_set.
  apply living_set in L as [[_ L]|[-> E]]; [|discriminate|exact B]. destruct (ai_target s I k q t off n L P) as [Bt Ht]. split; [exact Bt|].
  intros o L'. apply living_set in L' as [[_ L']|[-> E]]; [exact (Ht o L')|discriminate|exact B].
Qed.

Lemma sameType_array (x y : aobj A) : arrSameType x y = true -> OnArray x <-> OnArray y.
Proof.
  unfold arrSameType, OnArray. destruct x as [n s [l|t o m]], y as [n' s' [l'|t' o' m']]; cbn [aholds]; rewrite ?andb_false_r; intros H; try discriminate.
  - split; intros _; eexists; reflexivity.
  - split; intros [? E]; discriminate.
Qed.

Lemma writeCells_inv (s s' : astate A) i k v : awriteCells s i k v = Ok s' -> exists n sh l l', Living s i (mkAobj n sh (InPlace l)) /\
  zset l k v = Ok l' /\ s' = setRaster s i (Some (mkAobj n sh (InPlace l'))).
Proof.
  unfold awriteCells. destruct (araster s i) as [[n sh [l|]]|] eqn:E; try discriminate. destruct (zset l k v) as [l'| |] eqn:Z; cbn [bind]; try discriminate.
  intros H. injection H as <-. exists n, sh, l, l'. split; [apply living_raster; exact E|]. split; [exact Z|reflexivity].
Qed.

Lemma writeCells_AInv (s s' : astate A) i k v : AInv s -> awriteCells s i k v = Ok s' -> AInv s'.
Proof.
  intros I H. apply writeCells_inv in H as (n & sh & l & l' & L & _ & ->). apply (inv_set s i _ _ I L).
  - intros _. exists l'. reflexivity.
  - intros t off m E. discriminate.
Qed.

Lemma step_inv (s s' : astate A) o : AInv s -> step s o = Some (Ok s') -> AInv s'.
Proof.
  intros I. destruct o as [cap n sh|n sh vs|i off n sh|i|i|i j|i j|i|i k v|i]; cbn [astep].
  - destruct (arrTyped n sh); [|discriminate]. unfold newArr. destruct (_ && _); [discriminate|]. intros E. injection E as <-.
    apply inv_add; [exact I|]. intros t o m E. discriminate.
  - destruct (arrTyped n sh); [|discriminate]. unfold newArrFrom. destruct (_ =? _); [|discriminate]. intros E. injection E as <-.
    apply inv_add; [exact I|]. intros t o m E. discriminate.
  - destruct (araster s i) as [x|] eqn:L; [|discriminate]. apply living_raster in L. destruct (arrTyped n sh); [|discriminate]. intros E. injection E as <-.
    apply inv_add; [exact I|]. cbn [aholds]. intros t o m E. destruct (aholds x) as [l|t' o' m'] eqn:Hx.
    + injection E as <- _ _. split; [exact (living_bound _ _ _ L)|]. intros y Ly. unfold Living in *. assert (y = x) as -> by congruence. exists l. exact Hx.
    + injection E as <- _ _. exact (ai_target s I i x t' o' m' L Hx).
  - destruct (araster s i) as [x|] eqn:L; [|discriminate]. apply living_raster in L. intros E. injection E as <-.
    apply inv_add; [exact I|]. intros t o m. exact (ai_target s I i x t o m L).
  - destruct (araster s i) as [x|] eqn:L; [|discriminate]. apply living_raster in L. intros E. injection E as <-.
    assert (I' : AInv (setRaster s i (Some (amovedFrom x)))).
    { apply (inv_set s i x _ I L); [intros [l Hl]; exists l; exact Hl|]. intros t o m E. exact (ai_target s I i x t o m L E). }
    apply inv_add; [exact I'|]. intros t o m E.
    apply (ai_target _ I' i (amovedFrom x) t o m); [|exact E]. apply living_raster. apply raster_set_eq. exact (living_bound _ _ _ L).
  - destruct (araster s i) as [d|] eqn:L; [|discriminate]. destruct (araster s j) as [x|] eqn:L'; [|discriminate]. apply living_raster in L, L'.
    destruct (arrSameType d x) eqn:T; [|discriminate]. intros E. injection E as <-.
    apply (inv_set s i d _ I L); [apply (sameType_array d x T)|]. intros t o m. exact (ai_target s I j x t o m L').
  - destruct (araster s i) as [d|] eqn:L; [|discriminate]. destruct (araster s j) as [x|] eqn:L'; [|discriminate]. apply living_raster in L, L'.
    destruct (arrSameType d x) eqn:T; [|discriminate]. destruct (Nat.eqb_spec i j) as [<-|N]; intros E; injection E as <-.
    + apply (inv_set s i d _ I L); [intros O; apply (sameType_array d x T) in O as [l Hl]; exists l; exact Hl|].
      intros t o m E. exact (ai_target s I i x t o m L' E).
    + assert (I' : AInv (setRaster s i (Some x))).
      { apply (inv_set s i d _ I L); [apply (sameType_array d x T)|]. intros t o m. exact (ai_target s I j x t o m L'). }
      assert (Lj : Living (setRaster s i (Some x)) j x). { apply living_raster. rewrite raster_set_neq by congruence. apply living_raster. exact L'. }
      apply (inv_set _ j x _ I' Lj); [intros [l Hl]; exists l; exact Hl|]. intros t o m E. exact (ai_target _ I' j x t o m Lj E).
  - destruct (araster s i) as [[n sh [l|]]|]; try discriminate. intros E. injection E as <-. constructor. exact (ai_target s I).
  - destruct (araster s i) as [[n sh [l|t o m]]|] eqn:L; [| |discriminate]; unfold awriteAt; rewrite L; intros E; injection E as E; exact (writeCells_AInv _ _ _ _ _ I E).
  - destruct (araster s i) as [x|] eqn:L; [|discriminate]. apply living_raster in L. intros E. injection E as <-. exact (inv_destroy s i x I L).
Qed.

Lemma exec_inv ops : forall s s', AInv s -> aexec zero selfMoved s ops = Some (Ok s') -> AInv s'.
Proof.
  induction ops as [|o ops IH]; cbn [aexec]; intros s s' I E; [injection E as <-; exact I|].
  destruct (step s o) as [[s1|e|]|] eqn:S1; try discriminate; [exact (IH s1 s' (step_inv s s1 o I S1) E)|exact (IH s s' I E)].
Qed.

Lemma attainable_inv s : Attainable zero selfMoved s -> AInv s.
Proof. intros [ops E]. apply (exec_inv ops astart s); [|exact E]. constructor. intros k q t off n L. destruct k; discriminate L. Qed.

Lemma cells_living (s s' : astate A) t : araster s' t = araster s t -> cellsOf s' t = cellsOf s t.
Proof. unfold cellsOf. intros ->. reflexivity. Qed.

(** Additions alter no raster. *)
Lemma add_unaltered (s : astate A) x : AInv s -> forall j, Unaltered s (addRaster s x) j.
Proof.
  intros I j o L. apply (unaltered_by s (addRaster s x) j); [|intros q t off n E P|exact L].
  - apply raster_add_old. exact (living_bound _ _ _ L).
  - apply living_raster in E. apply cells_living, raster_add_old. exact (proj1 (ai_target s I j q t off n E P)).
Qed.

Lemma unaltered_trans (s s' s'' : astate A) j : Unaltered s s' j -> Unaltered s' s'' j -> Unaltered s s'' j.
Proof.
  intros H H' o L. destruct (H o L) as (L1 & P1 & R1). destruct (H' o L1) as (L2 & P2 & R2). split; [exact L2|]. split; [congruence|].
  intros k. rewrite R2. apply R1.
Qed.

(** A replacement alters neither the other rasters nor what they read, unless they point to an array which changes. *)
Lemma set_unaltered (s : astate A) i x j : (i < length (arasters s))%nat -> j <> i ->
  (forall q off, Living s j q -> PointsTo q i off -> match x with Some y => cellsOf s i = match aholds y with InPlace l => Ok l | _ => UB end | None => False end) ->
  Unaltered s (setRaster s i x) j.
Proof.
  intros B N H. apply unaltered_by; [apply raster_set_neq; exact N|]. intros q t off n E P. apply living_raster in E.
  destruct (Nat.eq_dec t i) as [->|Nt]; [|apply cells_living, raster_set_neq; exact Nt].
  specialize (H q off E (ex_intro _ n P)). destruct x as [y|]; [|contradiction]. rewrite H. unfold cellsOf. rewrite raster_set_eq by exact B. destruct y as [? ? [|]]; reflexivity.
Qed.

Lemma new_arr s cap n sh : Attainable zero selfMoved s -> arrTyped n sh = true ->
  (shapeSize sh = Z.of_nat cap \/ shapeSize sh = 0 -> exists s' o, step s (ANew cap n sh) = Some (Ok s') /\ Living s' (length (arasters s)) o /\
     OnArray o /\ adim o = n /\ ashape o = sh /\ apixels s' (length (arasters s)) = Ok (repeat zero cap) /\ (forall j, Unaltered s s' j) /\ arrays s' = arrays s) /\
  (shapeSize sh <> Z.of_nat cap -> shapeSize sh <> 0 -> step s (ANew cap n sh) = Some (Throw EGeneric)).
Proof.
  intros R T. apply attainable_inv in R. cbn [astep]. rewrite T. unfold newArr. split.
  - intros H. replace (negb (shapeSize sh =? Z.of_nat cap) && negb (shapeSize sh =? 0)) with false by lia.
    eexists _, _. split; [reflexivity|]. split; [apply living_raster, raster_add_new|]. split; [eexists; reflexivity|]. split; [reflexivity|]. split; [reflexivity|].
    split; [unfold apixels; rewrite raster_add_new; reflexivity|]. split; [apply add_unaltered; exact R|reflexivity].
  - intros H H'. replace (negb (shapeSize sh =? Z.of_nat cap) && negb (shapeSize sh =? 0)) with true by lia. reflexivity.
Qed.

Lemma new_from s n sh vs : Attainable zero selfMoved s -> arrTyped n sh = true ->
  (shapeSize sh = Z.of_nat (length vs) -> exists s' o, step s (ANewFrom n sh vs) = Some (Ok s') /\ Living s' (length (arasters s)) o /\
     OnArray o /\ adim o = n /\ ashape o = sh /\ apixels s' (length (arasters s)) = Ok vs /\ (forall j, Unaltered s s' j) /\ arrays s' = arrays s) /\
  (shapeSize sh <> Z.of_nat (length vs) -> step s (ANewFrom n sh vs) = Some (Throw ESize)).
Proof.
  intros R T. apply attainable_inv in R. cbn [astep]. rewrite T. unfold newArrFrom. split.
  - intros H. replace (Z.of_nat (length vs) =? shapeSize sh) with true by lia.
    eexists _, _. split; [reflexivity|]. split; [apply living_raster, raster_add_new|]. split; [eexists; reflexivity|]. split; [reflexivity|]. split; [reflexivity|].
    split; [unfold apixels; rewrite raster_add_new; reflexivity|]. split; [apply add_unaltered; exact R|reflexivity].
  - intros H. replace (Z.of_nat (length vs) =? shapeSize sh) with false by lia. reflexivity.
Qed.

(** A raster reads what a raster with the same holder reads, if both are the same array or pointers. *)
Lemma reads_like (s s' : astate A) i i' x x' : Living s i x -> Living s' i' x' -> aholds x' = aholds x ->
  (forall t off n, aholds x = Pointer t off n -> cellsOf s' t = cellsOf s t) ->
  apixels s' i' = apixels s i /\ forall k, areadAt s' i' k = areadAt s i k.
Proof.
  intros L L' E H. apply living_raster in L, L'. unfold apixels, areadAt. rewrite L, L'. destruct x as [n sh h], x' as [n' sh' h']. cbn [aholds] in E, H. subst h'.
  destruct h as [l|t off m]; [split; reflexivity|]. rewrite (H t off m eq_refl). split; reflexivity.
Qed.

Lemma copy_arr s i o : Attainable zero selfMoved s -> Living s i o -> exists s', step s (ACopy i) = Some (Ok s') /\
  Living s' (length (arasters s)) o /\ apixels s' (length (arasters s)) = apixels s i /\ (forall j, Unaltered s s' j) /\ arrays s' = arrays s.
Proof.
  intros R L. apply attainable_inv in R. cbn [astep]. rewrite (proj1 (living_raster s i o) L). eexists. split; [reflexivity|].
  assert (L' : Living (addRaster s o) (length (arasters s)) o) by (apply living_raster, raster_add_new).
  split; [exact L'|]. split; [|split; [apply add_unaltered; exact R|reflexivity]].
  apply (reads_like s _ i _ o o L L' eq_refl). intros t off n P. apply cells_living, raster_add_old. exact (proj1 (ai_target s R i o t off n L P)).
Qed.

Lemma moved_unaltered (s : astate A) i o j : Living s i o -> j <> i -> Unaltered s (setRaster s i (Some (amovedFrom o))) j.
Proof.
  intros L N. apply set_unaltered; [exact (living_bound _ _ _ L)|exact N|]. intros q off _ _. unfold cellsOf. rewrite (proj1 (living_raster s i o) L).
  destruct o as [? ? [|]]; reflexivity.
Qed.

Lemma cells_moved (s : astate A) i o t : Living s i o -> cellsOf (setRaster s i (Some (amovedFrom o))) t = cellsOf s t.
Proof.
  intros L. unfold cellsOf. destruct (Nat.eq_dec t i) as [->|N]; [|rewrite raster_set_neq by exact N; reflexivity].
  rewrite raster_set_eq by exact (living_bound _ _ _ L). rewrite (proj1 (living_raster s i o) L). destruct o as [? ? [|]]; reflexivity.
Qed.

Lemma move_arr s i o : Attainable zero selfMoved s -> Living s i o -> exists s' p, step s (AMove i) = Some (Ok s') /\
  Living s' (length (arasters s)) o /\ apixels s' (length (arasters s)) = apixels s i /\
  Living s' i p /\ ashape p = movedFrom (adim o) (ashape o) /\ adim p = adim o /\ aholds p = aholds o /\ apixels s' i = apixels s i /\
  (forall j, j <> i -> Unaltered s s' j) /\ arrays s' = arrays s.
Proof.
  intros R L. apply attainable_inv in R. cbn [astep]. rewrite (proj1 (living_raster s i o) L).
  exists (addRaster (setRaster s i (Some (amovedFrom o))) o), (amovedFrom o). assert (B := living_bound _ _ _ L).
  assert (I' : AInv (setRaster s i (Some (amovedFrom o)))). { apply (inv_set s i o _ R L); [intros [l Hl]; exists l; exact Hl|]. intros t off n P. exact (ai_target s R i o t off n L P). }
  assert (L1 : Living (setRaster s i (Some (amovedFrom o))) i (amovedFrom o)) by (apply living_raster, raster_set_eq; exact B).
  split; [reflexivity|].
  assert (Ln : Living (addRaster (setRaster s i (Some (amovedFrom o))) o) (length (arasters s)) o).
  { apply living_raster. rewrite <- (set_length s i (Some (amovedFrom o))). apply raster_add_new. }
  assert (Li : Living (addRaster (setRaster s i (Some (amovedFrom o))) o) i (amovedFrom o)).
  { apply living_raster. rewrite raster_add_old by (rewrite set_length; exact B). apply living_raster. exact L1. }
  assert (C : forall t off n, aholds o = Pointer t off n -> cellsOf (addRaster (setRaster s i (Some (amovedFrom o))) o) t = cellsOf s t).
  { intros t off n P. assert (Bt := proj1 (ai_target s R i o t off n L P)). transitivity (cellsOf (setRaster s i (Some (amovedFrom o))) t).
    - apply cells_living, raster_add_old. rewrite set_length. exact Bt.
    - apply cells_moved. exact L. }
  split; [exact Ln|]. split; [exact (proj1 (reads_like s _ i _ o o L Ln eq_refl C))|].
  split; [exact Li|]. split; [reflexivity|]. split; [reflexivity|]. split; [reflexivity|].
  split; [exact (proj1 (reads_like s _ i i o (amovedFrom o) L Li eq_refl C))|]. split; [|reflexivity].
  intros j N. apply (unaltered_trans s (setRaster s i (Some (amovedFrom o)))); [apply moved_unaltered; assumption|apply add_unaltered; exact I'].
Qed.

(** Pointers read the array of their target. *)
Lemma pointer_reads s k q t off : Attainable zero selfMoved s -> Living s k q -> PointsTo q t off ->
  (forall e, areadAt s k e = areadAt s t (off + e)) /\ ((forall o, ~ Living s t o) -> forall e, areadAt s k e = UB) /\ k <> t.
Proof.
  intros R L [n P]. apply attainable_inv in R. destruct (ai_target s R k q t off n L P) as [_ O].
  assert (N : k <> t). { intros <-. destruct (O q L) as [l H]. congruence. }
  split; [|split; [|exact N]].
  - intros e. unfold areadAt at 1. rewrite (proj1 (living_raster s k q) L). destruct q as [m sh h]. cbn [aholds] in P. subst h. unfold cellsOf, areadAt.
    destruct (araster s t) as [x|] eqn:E; [|reflexivity]. apply living_raster in E. destruct (O x E) as [l Hl]. destruct x as [m' sh' h']. cbn [aholds] in Hl. subst h'. reflexivity.
  - intros D e. unfold areadAt. rewrite (proj1 (living_raster s k q) L). destruct q as [m sh h]. cbn [aholds] in P. subst h. unfold cellsOf.
    destruct (araster s t) as [x|] eqn:E; [|reflexivity]. apply living_raster in E. destruct (D x E).
Qed.

Lemma pointer_arr s i o off n sh : Attainable zero selfMoved s -> Living s i o -> arrTyped n sh = true -> exists s' p,
  step s (APointer i off n sh) = Some (Ok s') /\ Living s' (length (arasters s)) p /\ adim p = n /\ ashape p = sh /\ asize (aholds p) = shapeSize sh /\ ~ OnArray p /\
  (forall k, areadAt s' (length (arasters s)) k = areadAt s i (off + k)) /\ (forall j, Unaltered s s' j) /\ arrays s' = arrays s /\
  (forall k, address (length (arasters s)) p k = address i o (off + k)).
Proof.
  intros R L T. assert (R' := attainable_inv s R). cbn [astep]. rewrite (proj1 (living_raster s i o) L), T. eexists _, _. split; [reflexivity|].
  split; [apply living_raster, raster_add_new|]. cbn [adim ashape aholds]. split; [reflexivity|]. split; [reflexivity|].
  split; [destruct (aholds o); reflexivity|]. split; [intros [l H]; cbn [aholds] in H; destruct (aholds o); discriminate|].
  split; [|split; [apply add_unaltered; exact R'|split; [reflexivity|]]].
  - intros k. unfold areadAt, newPointer. rewrite raster_add_new, (proj1 (living_raster s i o) L). destruct o as [m sh' [l|t o' m']]; cbn [aholds].
    + unfold cellsOf. rewrite raster_add_old by exact (living_bound _ _ _ L). rewrite (proj1 (living_raster s i _) L). reflexivity.
    + rewrite <- Z.add_assoc. f_equal. apply cells_living, raster_add_old. exact (proj1 (ai_target s R' i _ t o' m' L eq_refl)).
  - intros k. unfold address. cbn [aholds]. destruct (aholds o) as [l|t o' m']; [reflexivity|]. f_equal. lia.
Qed.

(** Replacing raster [i] by the value of raster [j]. *)
Lemma set_like s i j d o : AInv s -> Living s i d -> Living s j o -> (OnArray d <-> OnArray o) ->
  let s' := setRaster s i (Some o) in
  apixels s' i = apixels s j /\
  (forall k q, k <> i -> Living s k q -> (forall off, ~ PointsTo q i off) -> Unaltered s s' k) /\
  (forall k q off, Living s k q -> PointsTo q i off -> Living s' k q /\ forall e, areadAt s' k e = areadAt s j (off + e)) /\
  (forall e, areadAt s' i e = areadAt s j e).
Proof.
  intros I D L T s'. assert (B := living_bound _ _ _ D).
  assert (Li : Living s' i o) by (apply living_raster, raster_set_eq; exact B).
  assert (C : forall t off n, aholds o = Pointer t off n -> cellsOf s' t = cellsOf s t).
  { intros t off n P. apply cells_living, raster_set_neq. intros ->. destruct (proj2 (ai_target s I j o i off n L P) d D) as [l Hl].
    destruct (proj1 T (ex_intro _ l Hl)) as [l' Hl']. congruence. }
  destruct (reads_like s s' j i o o L Li eq_refl C) as [P1 P2]. split; [exact P1|]. split; [|split; [|exact P2]].
  - intros k q N Lk H. apply set_unaltered; [exact B|exact N|]. intros q' off Lq P. assert (q' = q) as -> by (unfold Living in *; congruence). destruct (H off P).
  - intros k q off Lk [n P]. destruct (ai_target s I k q i off n Lk P) as [_ O]. assert (Od := O d D).
    assert (N : k <> i). { intros ->. assert (q = d) as -> by (unfold Living in *; congruence). destruct Od as [l Hl]. congruence. }
    assert (Lk' : Living s' k q). { apply living_raster. unfold s'. rewrite raster_set_neq by exact N. apply living_raster. exact Lk. }
    split; [exact Lk'|]. intros e. unfold areadAt. rewrite (proj1 (living_raster s' k q) Lk'), (proj1 (living_raster s j o) L).
    destruct q as [m sh h]. cbn [aholds] in P. subst h. unfold cellsOf. rewrite (proj1 (living_raster s' i o) Li).
    destruct (proj1 T Od) as [l Hl]. destruct o as [m' sh' h']. cbn [aholds] in Hl. subst h'. reflexivity.
Qed.

Lemma set_self (s : astate A) i o k : Living s i o -> araster (setRaster s i (Some o)) k = araster s k.
Proof.
  intros L. destruct (Nat.eq_dec k i) as [->|N]; [|apply raster_set_neq; exact N]. rewrite raster_set_eq by exact (living_bound _ _ _ L). symmetry. apply living_raster. exact L.
Qed.

Lemma copyAssign_arr s i j d o : Attainable zero selfMoved s -> Living s i d -> Living s j o -> arrSameType d o = true -> exists s',
  step s (ACopyAssign i j) = Some (Ok s') /\ Living s' i o /\ apixels s' i = apixels s j /\
  (forall k q, k <> i -> Living s k q -> (forall off, ~ PointsTo q i off) -> Unaltered s s' k) /\
  (forall k q off, Living s k q -> PointsTo q i off -> Living s' k q /\ forall e, areadAt s' k e = areadAt s j (off + e)) /\
  (i = j -> forall k, Unaltered s s' k) /\ arrays s' = arrays s.
Proof.
  intros R D L T. apply attainable_inv in R. cbn [astep]. rewrite (proj1 (living_raster s i d) D), (proj1 (living_raster s j o) L), T. eexists. split; [reflexivity|].
  destruct (set_like s i j d o R D L (sameType_array d o T)) as (P1 & P2 & P3 & _).
  split; [apply living_raster, raster_set_eq; exact (living_bound _ _ _ D)|]. split; [exact P1|]. split; [exact P2|]. split; [exact P3|]. split; [|reflexivity].
  intros <- k. apply unaltered_by; [apply set_self; exact L|]. intros q t off n _ _. apply cells_living, set_self. exact L.
Qed.

Lemma moveAssign_arr s i j d o : Attainable zero selfMoved s -> i <> j -> Living s i d -> Living s j o -> arrSameType d o = true -> exists s' p,
  step s (AMoveAssign i j) = Some (Ok s') /\ Living s' i o /\ apixels s' i = apixels s j /\
  Living s' j p /\ ashape p = movedFrom (adim o) (ashape o) /\ adim p = adim o /\ aholds p = aholds o /\ apixels s' j = apixels s j /\
  (forall k q, k <> i -> k <> j -> Living s k q -> (forall off, ~ PointsTo q i off) -> Unaltered s s' k) /\
  (forall k q off, Living s k q -> PointsTo q i off -> k <> j -> Living s' k q /\ forall e, areadAt s' k e = areadAt s j (off + e)) /\ arrays s' = arrays s.
Proof.
  intros R N D L T. apply attainable_inv in R. cbn [astep]. rewrite (proj1 (living_raster s i d) D), (proj1 (living_raster s j o) L), T.
  destruct (Nat.eqb_spec i j) as [|_]; [contradiction|]. set (s1 := setRaster s i (Some o)). exists (setRaster s1 j (Some (amovedFrom o))), (amovedFrom o). split; [reflexivity|].
  destruct (set_like s i j d o R D L (sameType_array d o T)) as (P1 & P2 & P3 & P4). fold s1 in P1, P2, P3, P4.
  assert (Lj : Living s1 j o). { apply living_raster. unfold s1. rewrite raster_set_neq by congruence. apply living_raster. exact L. }
  assert (Li : Living s1 i o) by (apply living_raster, raster_set_eq; exact (living_bound _ _ _ D)).
  assert (I1 : AInv s1). { apply (inv_set s i d _ R D); [apply (sameType_array d o T)|]. intros t off n. exact (ai_target s R j o t off n L). }
  assert (Lj' : Living (setRaster s1 j (Some (amovedFrom o))) j (amovedFrom o)) by (apply living_raster, raster_set_eq; exact (living_bound _ _ _ Lj)).
  destruct (moved_unaltered s1 j o i Lj N o Li) as (Li' & Pi & _). split; [exact Li'|]. split; [rewrite Pi; exact P1|].
  split; [exact Lj'|]. split; [reflexivity|]. split; [reflexivity|]. split; [reflexivity|]. split.
  { rewrite (proj1 (reads_like s1 _ j j o (amovedFrom o) Lj Lj' eq_refl (fun t off n P => cells_moved s1 j o t Lj))).
    apply (reads_like s s1 j j o o L Lj eq_refl). intros t off n P. apply cells_living, raster_set_neq. intros ->.
    destruct (proj2 (ai_target s R j o i off n L P) d D) as [l Hl]. destruct (proj1 (sameType_array d o T) (ex_intro _ l Hl)) as [l' Hl']. congruence. }
  split; [|split; [|reflexivity]].
  - intros k q Nk Nj Lk H. apply (unaltered_trans s s1); [exact (P2 k q Nk Lk H)|apply moved_unaltered; assumption].
  - intros k q off Lk P Nk. destruct (P3 k q off Lk P) as [Lk1 E1]. destruct (moved_unaltered s1 j o k Lj Nk q Lk1) as (Lk2 & _ & E2). split; [exact Lk2|].
    intros e. rewrite E2. apply E1.
Qed.

Lemma selfMove_arr s i o : Attainable zero selfMoved s -> Living s i o -> exists s' p,
  step s (AMoveAssign i i) = Some (Ok s') /\ Living s' i p /\ adim p = adim o /\ aholds p = aholds o /\ (adim o <> -1 -> p = o) /\
  apixels s' i = apixels s i /\ (forall k, k <> i -> Unaltered s s' k) /\ arrays s' = arrays s.
Proof.
  intros R L. cbn [astep]. rewrite (proj1 (living_raster s i o) L).
  assert (T : arrSameType o o = true). { unfold arrSameType. rewrite Z.eqb_refl. destruct (aholds o); [apply Nat.eqb_refl|reflexivity]. }
  rewrite T, Nat.eqb_refl. set (p := mkAobj _ _ _). exists (setRaster s i (Some p)), p. split; [reflexivity|]. assert (B := living_bound _ _ _ L).
  assert (Lp : Living (setRaster s i (Some p)) i p) by (apply living_raster, raster_set_eq; exact B).
  assert (C : forall t, cellsOf (setRaster s i (Some p)) t = cellsOf s t).
  { intros t. unfold cellsOf. destruct (Nat.eq_dec t i) as [->|N]; [|rewrite raster_set_neq by exact N; reflexivity].
    rewrite raster_set_eq by exact B. rewrite (proj1 (living_raster s i o) L). unfold p. destruct o as [? ? [|]]; reflexivity. }
  split; [exact Lp|]. split; [reflexivity|]. split; [reflexivity|]. split.
  { intros N. unfold p. rewrite (proj2 (Z.eqb_neq _ _) N). destruct o; reflexivity. }
  split; [exact (proj1 (reads_like s _ i i o p L Lp eq_refl (fun t _ _ _ => C t)))|]. split; [|reflexivity].
  intros k N. apply unaltered_by; [apply raster_set_neq; exact N|]. intros q t off n _ _. apply C.
Qed.

Lemma moveTo_arr s i o : Attainable zero selfMoved s -> Living s i o -> OnArray o -> exists s' l,
  step s (AMoveTo i) = Some (Ok s') /\ apixels s i = Ok l /\ arrays s' = arrays s ++ [l] /\ forall j, Unaltered s s' j.
Proof.
  intros R L [l H]. cbn [astep]. unfold apixels. rewrite (proj1 (living_raster s i o) L). destruct o as [n sh h]. cbn [aholds] in H. subst h.
  eexists _, l. split; [reflexivity|]. split; [reflexivity|]. split; [reflexivity|]. intros j. apply unaltered_by; [reflexivity|]. reflexivity.
Qed.

Lemma destroy_arr s i o : Attainable zero selfMoved s -> Living s i o -> exists s', step s (ADestroy i) = Some (Ok s') /\ (forall p, ~ Living s' i p) /\
  (forall k q, k <> i -> Living s k q -> (forall off, ~ PointsTo q i off) -> Unaltered s s' k) /\
  (forall k q off, Living s k q -> PointsTo q i off -> Living s' k q /\ forall e, areadAt s' k e = UB) /\ arrays s' = arrays s.
Proof.
  intros R L. assert (R' := attainable_inv s R). cbn [astep]. rewrite (proj1 (living_raster s i o) L). eexists. split; [reflexivity|]. assert (B := living_bound _ _ _ L).
  split; [intros p Lp; apply living_raster in Lp; rewrite raster_set_eq in Lp by exact B; discriminate|]. split; [|split; [|reflexivity]].
  - intros k q N Lk H. apply set_unaltered; [exact B|exact N|]. intros q' off Lq P. assert (q' = q) as -> by (unfold Living in *; congruence). destruct (H off P).
  - intros k q off Lk [n P]. assert (N : k <> i) by (apply (pointer_reads s k q i off R Lk); exists n; exact P).
    assert (Lk' : Living (setRaster s i None) k q). { apply living_raster. rewrite raster_set_neq by exact N. apply living_raster. exact Lk. }
    split; [exact Lk'|]. intros e. unfold areadAt. rewrite (proj1 (living_raster _ _ _) Lk'). destruct q as [m sh h]. cbn [aholds] in P. subst h.
    unfold cellsOf. rewrite raster_set_eq by exact B. reflexivity.
Qed.

(** Writes. *)
Lemma writeAt_address (s : astate A) i o k v : Living s i o -> awriteAt s i k v = awriteCells s (fst (address i o k)) (snd (address i o k)) v.
Proof. intros L. unfold awriteAt, address. rewrite (proj1 (living_raster s i o) L). destruct o as [n sh [l|t off m]]; reflexivity. Qed.

Lemma readAt_address s i o k : AInv s -> Living s i o -> areadAt s i k = (l <- cellsOf s (fst (address i o k)) ;; zget l (snd (address i o k))).
Proof.
  intros I L. unfold areadAt, address. rewrite (proj1 (living_raster s i o) L). destruct o as [n sh [l|t off m]]; cbn [aholds fst snd]; [|reflexivity].
  unfold cellsOf. rewrite (proj1 (living_raster s i _) L). reflexivity.
Qed.

Lemma write_arr s i o k v s' : Attainable zero selfMoved s -> Living s i o -> step s (AWrite i k v) = Some (Ok s') ->
  arrays s' = arrays s /\ (forall j p, Living s j p -> exists p', Living s' j p' /\ adim p' = adim p /\ ashape p' = ashape p /\ (forall e, address j p' e = address j p e) /\
    forall e, areadAt s' j e = if Nat.eqb (fst (address j p e)) (fst (address i o k)) && (snd (address j p e) =? snd (address i o k)) then Ok v else areadAt s j e) /\
  (forall j p, Living s j p -> j <> i -> OnArray o -> OnArray p -> Unaltered s s' j).
Proof.
  intros R L E. assert (I := attainable_inv s R). cbn [astep] in E. rewrite (proj1 (living_raster s i o) L) in E. injection E as E.
  assert (I' : AInv s') by (rewrite (writeAt_address s i o k v L) in E; exact (writeCells_AInv _ _ _ _ _ I E)).
  rewrite (writeAt_address s i o k v L) in E. apply writeCells_inv in E as (n & sh & l & l' & Lt & Zs & Es).
  set (t := fst (address i o k)) in *. set (a := snd (address i o k)) in *. assert (B := living_bound _ _ _ Lt). split; [subst s'; reflexivity|]. split.
  - intros j p Lj.
    assert (exists p', Living s' j p' /\ adim p' = adim p /\ ashape p' = ashape p /\ (forall e, address j p' e = address j p e)) as (p' & Lp & Ed & Es' & Ea).
    { destruct (Nat.eq_dec j t) as [->|N].
      - assert (p = mkAobj n sh (InPlace l)) as -> by (unfold Living in *; congruence). exists (mkAobj n sh (InPlace l')). split; [|split; [reflexivity|split; [reflexivity|reflexivity]]].
        subst s'. apply living_raster, raster_set_eq. exact B.
      - exists p. split; [|split; [reflexivity|split; [reflexivity|reflexivity]]]. subst s'. apply living_raster. rewrite raster_set_neq by exact N. apply living_raster. exact Lj. }
    exists p'. split; [exact Lp|]. split; [exact Ed|]. split; [exact Es'|]. split; [exact Ea|]. intros e.
    rewrite (readAt_address s' j p' e I' Lp), (readAt_address s j p e I Lj), (Ea e). set (u := fst (address j p e)). set (b := snd (address j p e)).
    destruct (Nat.eqb_spec u t) as [->|N]; cbn [andb].
    + unfold cellsOf. subst s'. rewrite raster_set_eq by exact B. rewrite (proj1 (living_raster s t _) Lt). cbn [bind].
      destruct (Z.eqb_spec b a) as [->|Nb]; [exact (zset_get_eq l l' a v Zs)|]. apply (zset_get_neq l l' a b v Zs). congruence.
    + f_equal. subst s'. apply cells_living, raster_set_neq. exact N.
  - intros j p Lj N [li Hi] [lj Hj]. assert (t = i) as Et by (unfold t, address; rewrite Hi; reflexivity). subst s'. apply set_unaltered; [exact B|congruence|].
    intros q off Lq [m P]. assert (q = p) as -> by (unfold Living in *; congruence). congruence.
Qed.

Lemma defined_arr s : Attainable zero selfMoved s ->
  (forall i o, Living s i o -> OnArray o -> exists l, apixels s i = Ok l /\ Z.of_nat (length l) = asize (aholds o)) /\
  (forall o, step s o = Some UB -> exists i x k v, o = AWrite i k v /\ Living s i x /\ (OnArray x -> ~ 0 <= k < asize (aholds x))).
Proof.
  intros R. split.
  - intros i o L [l H]. exists l. unfold apixels. rewrite (proj1 (living_raster s i o) L). destruct o as [n sh h]. cbn [aholds] in *. subst h. split; reflexivity.
  - intros o. destruct o as [cap n sh|n sh vs|i off n sh|i|i|i j|i j|i|i k v|i]; cbn [astep].
    + destruct (arrTyped n sh); [|discriminate]. unfold newArr. destruct (_ && _); discriminate.
    + destruct (arrTyped n sh); [|discriminate]. unfold newArrFrom. destruct (_ =? _); discriminate.
    + destruct (araster s i); [|discriminate]. destruct (arrTyped n sh); discriminate.
    + destruct (araster s i); discriminate.
    + destruct (araster s i); discriminate.
    + destruct (araster s i); [|discriminate]. destruct (araster s j); [|discriminate]. destruct (arrSameType _ _); discriminate.
    + destruct (araster s i); [|discriminate]. destruct (araster s j); [|discriminate]. destruct (arrSameType _ _); [|discriminate]. destruct (Nat.eqb i j); discriminate.
    + destruct (araster s i) as [[n sh [l|]]|]; discriminate.
    + destruct (araster s i) as [x|] eqn:L; [|discriminate]. intros E. injection E as E. exists i, x, k, v. split; [reflexivity|]. split; [apply living_raster; exact L|].
      intros [l H] B. unfold awriteAt in E. rewrite L in E. destruct x as [n sh h]. cbn [aholds asize] in *. subst h. unfold awriteCells in E. rewrite L in E. rewrite zset_ok in E by exact B. discriminate.
    + destruct (araster s i); discriminate.
Qed.

(** Consistency of sizes. *)
Lemma tidy_attainable s : Tidy zero selfMoved s -> Attainable zero selfMoved s.
Proof.
  induction 1 as [|s o s' H IH _ E]; [exists []; reflexivity|]. destruct IH as [ops E']. exists (ops ++ [o]).
  assert (G : forall ops s0, aexec zero selfMoved s0 ops = Some (Ok s) -> aexec zero selfMoved s0 (ops ++ [o]) = Some (Ok s')).
  { clear ops E'. induction ops as [|q ops IHo]; cbn [aexec app]; intros s0 E0.
    - injection E0 as ->. rewrite E. reflexivity.
    - destruct (step s0 q) as [[s1|e|]|]; try discriminate; apply IHo; exact E0. }
  exact (G ops astart E').
Qed.

Definition Sized (s : astate A) : Prop := forall i o l, Living s i o -> aholds o = InPlace l -> Z.of_nat (length l) = shapeSize (ashape o).

Lemma sized_set (s : astate A) i x : Sized s -> (i < length (arasters s))%nat -> (forall y l, x = Some y -> aholds y = InPlace l -> Z.of_nat (length l) = shapeSize (ashape y)) -> Sized (setRaster s i x).
Proof. intros H B Hx k o l L E. apply living_set in L as [[_ L]|[_ L]]; [exact (H k o l L E)|exact (Hx o l L E)|exact B]. Qed.

Lemma sized_add (s : astate A) x : Sized s -> (forall l, aholds x = InPlace l -> Z.of_nat (length l) = shapeSize (ashape x)) -> Sized (addRaster s x).
Proof. intros H Hx k o l L E. apply living_add in L as [L|[_ <-]]; [exact (H k o l L E)|exact (Hx l E)]. Qed.

Lemma sized_cells (s s' : astate A) i k v : Sized s -> awriteCells s i k v = Ok s' -> Sized s'.
Proof.
  intros H E. apply writeCells_inv in E as (n & sh & l & l' & L & Zs & ->). apply sized_set; [exact H|exact (living_bound _ _ _ L)|].
  intros y m Ey Em. injection Ey as <-. cbn [aholds ashape] in *. injection Em as <-. rewrite (zset_length l l' k v Zs). exact (H i _ l L eq_refl).
Qed.

Lemma moved_shape (x : aobj A) l : (OnArray x -> adim x <> -1) -> aholds x = InPlace l -> movedFrom (adim x) (ashape x) = ashape x.
Proof. intros H E. unfold movedFrom. rewrite (proj2 (Z.eqb_neq _ _) (H (ex_intro _ l E))). reflexivity. Qed.

Lemma tidy_sized s : Tidy zero selfMoved s -> Sized s.
Proof.
  induction 1 as [|s o s' _ IH K E]; [intros i o l L; destruct i; discriminate L|].
  destruct o as [cap n sh|n sh vs|i off n sh|i|i|i j|i j|i|i k v|i]; cbn [astep] in E; cbn [KeepsShapes] in K.
  - destruct (arrTyped n sh); [|discriminate]. unfold newArr in E. destruct (negb (shapeSize sh =? Z.of_nat cap) && negb (shapeSize sh =? 0)) eqn:C; [discriminate|]. injection E as <-.
    apply sized_add; [exact IH|]. cbn [aholds ashape]. intros l H. injection H as <-. rewrite repeat_length.
    destruct (Z.eq_dec (shapeSize sh) 0) as [Z0|N0]; [specialize (K Z0); subst cap; lia|lia].
  - destruct (arrTyped n sh); [|discriminate]. unfold newArrFrom in E. destruct (Z.eqb_spec (Z.of_nat (length vs)) (shapeSize sh)) as [Es|]; [|discriminate]. injection E as <-.
    apply sized_add; [exact IH|]. cbn [aholds ashape]. intros l H. injection H as <-. exact Es.
  - destruct (araster s i) as [x|]; [|discriminate]. destruct (arrTyped n sh); [|discriminate]. injection E as <-. apply sized_add; [exact IH|]. cbn [aholds]. intros l H. destruct (aholds x); discriminate.
  - destruct (araster s i) as [x|] eqn:L; [|discriminate]. apply living_raster in L. injection E as <-. apply sized_add; [exact IH|]. intros l. exact (IH i x l L).
  - destruct (araster s i) as [x|] eqn:L; [|discriminate]. apply living_raster in L. injection E as <-. apply sized_add; [|intros l; exact (IH i x l L)].
    apply sized_set; [exact IH|exact (living_bound _ _ _ L)|]. intros y l Ey Hl. injection Ey as <-. cbn [aholds amovedFrom ashape] in *. rewrite (moved_shape x l (K x L) Hl). exact (IH i x l L Hl).
  - destruct (araster s i) as [d|] eqn:L; [|discriminate]. destruct (araster s j) as [x|] eqn:L'; [|discriminate]. apply living_raster in L, L'.
    destruct (arrSameType d x); [|discriminate]. injection E as <-. apply sized_set; [exact IH|exact (living_bound _ _ _ L)|]. intros y l Ey. injection Ey as <-. exact (IH j x l L').
  - destruct (araster s i) as [d|] eqn:L; [|discriminate]. destruct (araster s j) as [x|] eqn:L'; [|discriminate]. apply living_raster in L, L'.
    destruct (arrSameType d x); [|discriminate]. destruct (Nat.eqb_spec i j) as [<-|N]; injection E as <-.
    + apply sized_set; [exact IH|exact (living_bound _ _ _ L)|]. intros y l Ey Hl. injection Ey as <-. cbn [aholds ashape] in *.
      rewrite (proj2 (Z.eqb_neq _ _) (K x L' (ex_intro _ l Hl))). exact (IH i x l L' Hl).
    + apply sized_set; [apply sized_set; [exact IH|exact (living_bound _ _ _ L)|intros y l Ey; injection Ey as <-; exact (IH j x l L')]|rewrite set_length; exact (living_bound _ _ _ L')|].
      intros y l Ey Hl. injection Ey as <-. cbn [aholds amovedFrom ashape] in *. rewrite (moved_shape x l (K x L') Hl). exact (IH j x l L' Hl).
  - destruct (araster s i) as [[n sh [l|]]|]; try discriminate. injection E as <-. exact IH.
  - destruct (araster s i) as [x|] eqn:L; [|discriminate]. apply living_raster in L. injection E as E. rewrite (writeAt_address s i x k v L) in E. exact (sized_cells _ _ _ _ _ IH E).
  - destruct (araster s i) as [x|] eqn:L; [|discriminate]. apply living_raster in L. injection E as <-. apply sized_set; [exact IH|exact (living_bound _ _ _ L)|]. intros y l Ey. discriminate.
Qed.

Lemma consistent_arr s i o : Tidy zero selfMoved s -> Living s i o -> OnArray o -> asize (aholds o) = shapeSize (ashape o).
Proof. intros T L [l H]. rewrite H. exact (tidy_sized s T i o l L H). Qed.
End P.

Lemma arr_size_refuted (A : Type) (zero : A) selfMoved : exists s o p,
  aexec zero selfMoved astart [ANew 4 2 [0; 0]; ANew 6 (-1) [2; 3]; AMove 1] = Some (Ok s) /\
  Living s 0 o /\ ashape o = [0; 0] /\ shapeSize (ashape o) = 0 /\ asize (aholds o) = 4 /\
  Living s 1 p /\ ashape p = [] /\ shapeSize (ashape p) = 0 /\ asize (aholds p) = 6.
Proof. eexists _, _, _. split; [reflexivity|]. repeat (split; [reflexivity|]). reflexivity. Qed.

Lemma arr_follow_refuted : exists s, aexec 0 (fun x => x) astart [ANewFrom 1 [2] [7; 8]; APointer 0 1 1 [1]; AMove 0; AWrite 2 1 9] = Some (Ok s) /\
  areadAt s 2 1 = Ok 9 /\ areadAt s 1 0 = Ok 8 /\ areadAt s 0 1 = Ok 8.
Proof. eexists. split; [reflexivity|]. repeat (split; [reflexivity|]). reflexivity. Qed.
