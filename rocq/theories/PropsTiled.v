(** C104: filtering by regions. [RunnableOn f b regions X ext out]: the filter of window [f] to [b] can be applied on each region;
    [Disjoint regions]: no position is in two regions; [InSome regions p]: p is in one of them; see TiledSpec.
    [tiledApplyTo] and [intTiled] hold of the results of all interleavings of the calls: concurrent, or one after the other in any order. *)
From Verif Require Import Res VecModel BoxModel RasterModel WidthModel TypedMedianModel TiledModel Spec BoxSpec RasterSpec KernelSpec TypedMedianSpec TiledSpec TypedMedianProofs TiledProofs.
Open Scope Z_scope.

(** Any types, any window: all schedules end. Each pixel of the regions only depends on its neighbors in the input, and the others do not change. *)
Theorem C104_schedules : forall (A B : Type) (lt : A -> A -> bool) ordered (conv : A -> res B) middle zero n f b X regions out ext, RunnableOn f b regions X ext out -> Disjoint regions ->
  Partitions lt ordered -> NoThrow conv -> (forall x y e, middle x y <> Throw e) ->
  exists enough, forall fuel, (enough <= fuel)%nat ->
  (exists r, tiledApplyTo lt ordered conv middle zero fuel n (mkBox f b) regions ext out r) /\
  forall r, tiledApplyTo lt ordered conv middle zero fuel n (mkBox f b) regions ext out r ->
    (r = UB /\ exists p, InSome regions p /\ Outcome lt ordered conv middle (neighbors f b X p) UB) \/
    exists out', r = Ok out' /\ WF out' /\ rshape out' = rshape out /\
      (forall p, InSome regions p -> exists v, rget n out' p = Ok v /\ Outcome lt ordered conv middle (neighbors f b X p) (Ok v)) /\
      (forall p, InDomain (rshape out) p -> ~ InSome regions p -> rget n out' p = rget n out p).
Proof. exact @tiled_to. Qed.
Print Assumptions C104_schedules.

(** At any moment of any schedule, each pixel of the output has its initial value or a final one, each call which is not finished can go on or is undefined, and the execution can end. *)
Theorem C104_any_moment : forall (A B : Type) (lt : A -> A -> bool) ordered (conv : A -> res B) middle zero n f b X regions out ext, RunnableOn f b regions X ext out -> Disjoint regions ->
  Partitions lt ordered -> NoThrow conv -> (forall x y e, middle x y <> Throw e) ->
  exists enough, forall fuel, (enough <= fuel)%nat ->
  forall calls out', tiledReaches lt ordered conv middle zero fuel n (mkBox f b) regions ext out calls out' ->
  WF out' /\ rshape out' = rshape out /\
  (forall p, InDomain (rshape out) p -> rget n out' p = rget n out p \/ InSome regions p /\ exists v, rget n out' p = Ok v /\ Outcome lt ordered conv middle (neighbors f b X p) (Ok v)) /\
  (forall i c, nth_error calls i = Some c -> ctodo c <> [] ->
    (exists c' out'', callStep lt ordered conv middle fuel n (mkBox f b) ext c out' c' out'') \/ callFails lt ordered conv middle fuel n (mkBox f b) ext c out') /\
  (exists r, interleaved lt ordered conv middle fuel n (mkBox f b) ext calls out' r).
Proof. exact @tiled_moment. Qed.
Print Assumptions C104_any_moment.
Example C104_types_met : Partitions Z.ltb (fun _ : list Z => true) /\ NoThrow (fun x => Ok (convert u8 x)) /\ (forall x y e, halfInt int32 x y <> Throw e).
Proof. split; [exact int_partitions|]. split; [intros x e; discriminate|]. intros x y e. unfold halfInt, WidthModel.computed. destruct (isigned (promoted int32)), (WidthModel.fits (promoted int32) (x + y)); discriminate. Qed.

(** Integers with an odd number of neighbors: all schedules have one and the same result, which is that of a single call on the union of the regions. *)
Theorem C104_integers : forall t u n f b X regions out ext, RunnableOn f b regions X ext out -> Disjoint regions -> windowSize f b mod 2 = 1 ->
  exists enough, forall fuel, (enough <= fuel)%nat -> exists out',
  (forall r, intTiled t u fuel n (mkBox f b) regions ext out r <-> r = Ok out') /\ WF out' /\ rshape out' = rshape out /\
  (forall p, InSome regions p -> exists x, MiddleValue Z.ltb (neighbors f b X p) x /\ rget n out' p = Ok (convert u x)) /\
  (forall p, InDomain (rshape out) p -> ~ InSome regions p -> rget n out' p = rget n out p).
Proof. exact tiled_integers. Qed.
Print Assumptions C104_integers.
Theorem C104_single_call : forall t u n f b X regions region out ext, RunnableOn f b regions X ext out -> Disjoint regions -> windowSize f b mod 2 = 1 ->
  (forall p, InBox region p <-> InSome regions p) ->
  exists enough, forall fuel, (enough <= fuel)%nat ->
  (exists r, intTiled t u fuel n (mkBox f b) regions ext out r) /\
  forall r, intTiled t u fuel n (mkBox f b) regions ext out r <-> intFilter t u fuel n (mkBox f b) region ext out r.
Proof. exact tiled_same. Qed.
Print Assumptions C104_single_call.
Example C104_met : let regions := [mkBox [3] [3]; mkBox [1] [2]] in
  RunnableOn [-1] [1] regions (pixel [5] [3; 1; 4; 1; 5]) (rget 1 (rowOf [3; 1; 4; 1; 5])) (rowOf (repeat 0 5)) /\ Disjoint regions /\ windowSize [-1] [1] mod 2 = 1 /\
  (forall p, InBox (mkBox [1] [3]) p <-> InSome regions p).
Proof. exact two_tiles. Qed.

(** There is no data race: different calls write different cells of the output. The input is only read. *)
Theorem C104_distinct_cells : forall (A : Type) n (out : raster A) regions i j a c p q, WF out -> Disjoint regions -> i <> j ->
  nth_error regions i = Some a -> nth_error regions j = Some c ->
  InBox a p -> InBox c q -> InDomain (rshape out) p -> InDomain (rshape out) q -> rindex n (rshape out) p <> rindex n (rshape out) q.
Proof. exact @distinct_cells. Qed.
Print Assumptions C104_distinct_cells.
Example C104_cells_met : WF (rowOf (repeat 0 5)) /\ InDomain (rshape (rowOf (repeat 0 5))) [3] /\ InBox (mkBox [3] [3]) [3] /\ InBox (mkBox [1] [2]) [1].
Proof. split; [split; [discriminate|split; [repeat constructor; cbn; lia|reflexivity]]|]. split; [constructor; [cbn; lia|constructor]|]. split; (constructor; [lia|constructor]). Qed.

(** In place, the pixels which are already filtered are read again: for (0, 5, 0, 5, 0) and three neighbors, the middle pixel gets 0 instead of 5. *)
Theorem C104_in_place_refuted : let l := [0; 5; 0; 5; 0] in exists out, inPlace 10 int32 1 (mkBox [-1] [1]) (mkBox [1] [3]) (rowOf l) (Ok out) /\ rget 1 out [2] = Ok 0 /\
  MiddleValue Z.ltb (neighbors [-1] [1] (pixel [5] l) [2]) 5 /\ convert int32 5 = 5.
Proof. exact in_place_witness. Qed.
Print Assumptions C104_in_place_refuted.
