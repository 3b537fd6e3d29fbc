(** Limits of integral types and additive noises. *)
From Verif Require Import Res Lemmas ArithModel ArithSpec ArithProofs RandomProofs LimitsModel LimitsSpec.

(** ** Limits *)

Ltac bits H := destruct H as [->|[->|[->| ->]]].

Lemma limits_bounds t : Integral t -> Value t (lmin t) /\ Value t (lmax t) /\ linf t = lmax t /\ forall x, Value t x -> lmin t <= x <= lmax t.
Proof.
  intros H. destruct t as [|n|n]; cbn in H; [|bits H..]; cbn; repeat split; intros; lia.
Qed.

Lemma limits_constants t : Integral t -> lzero t = 0 /\ lone t = 1.
Proof.
  intros H. destruct t as [|n|n]; cbn in H; [|bits H..]; split; reflexivity.
Qed.

Lemma limits_half t : Integral t -> exists a b, halfMin t = Ok a /\ halfMax t = Ok b /\ Value t a /\ Value t b /\
  2 * a = lmin t /\ 2 * b = lmax t + 1.
Proof.
  intros H. destruct t as [|n|n]; cbn in H; [|bits H..]; do 2 eexists; (split; [vm_compute; reflexivity|]); (split; [vm_compute; reflexivity|]);
    cbn; repeat split; lia.
Qed.

Lemma limits_epsilon t : Integral t -> lepsilon t = 0 /\ almostMin t = Ok (lmin t) /\ almostMax t = Ok (lmax t) /\
  forall x y, Value t x -> Value t y -> x < y -> y - x <> lepsilon t.
Proof.
  intros H. split; [reflexivity|]. split; [destruct t as [|n|n]; cbn in H; [|bits H..]; reflexivity|].
  split; [destruct t as [|n|n]; cbn in H; [|bits H..]; reflexivity|]. intros. change (lepsilon t) with 0. lia.
Qed.

(** The conversion is that of the value modulo the number of values *)
Lemma toType_signed n x : 0 < n -> - 2 ^ (n - 1) <= x < 2 ^ (n - 1) -> toType (TSigned n) x = x.
Proof.
  intros Hn H. cbn. assert (P : 2 ^ n = 2 * 2 ^ (n - 1)) by (rewrite <- Z.pow_succ_r by lia; f_equal; lia).
  rewrite Z.mod_small by lia. lia.
Qed.

Lemma add_noise_ok t a b x d : Integral t -> halfMin t = Ok a -> halfMax t = Ok b -> Value t x -> a <= x < b -> a <= d <= b ->
  addDrawn t x d = Ok (x + d) /\ Value t (x + d).
Proof.
  intros H Ha Hb Hx Hxr Hd. destruct t as [|n|n]; cbn in H; [|bits H..]; vm_compute in Ha; vm_compute in Hb; injection Ha as <-; injection Hb as <-;
    cbn in Hx; unfold addDrawn, arith; cbn -[Z.modulo toType]; cbn in *.
  - destruct (Z.leb_spec (-2147483648) (x + d)); [|lia]. destruct (Z.leb_spec (x + d) 2147483647); [|lia]. cbn [andb bind].
    destruct (Z.eqb_spec (x + d) 0); split; try lia; f_equal; lia.
  - destruct (Z.leb_spec (-2147483648) (x + d)); [|lia]. destruct (Z.leb_spec (x + d) 2147483647); [|lia]. cbn [andb bind].
    rewrite Z.mod_small by lia. split; [reflexivity|lia].
  - destruct (Z.leb_spec (-2147483648) (x + d)); [|lia]. destruct (Z.leb_spec (x + d) 2147483647); [|lia]. cbn [andb bind].
    rewrite Z.mod_small by lia. split; [reflexivity|lia].
  - rewrite Z.mod_mod by lia. rewrite Z.mod_small by lia. split; [reflexivity|lia].
  - rewrite Z.mod_mod by lia. rewrite Z.mod_small by lia. split; [reflexivity|lia].
  - destruct (Z.leb_spec (-2147483648) (x + d)); [|lia]. destruct (Z.leb_spec (x + d) 2147483647); [|lia]. cbn [andb bind].
    rewrite Z.mod_small by lia. split; [f_equal; lia|lia].
  - destruct (Z.leb_spec (-2147483648) (x + d)); [|lia]. destruct (Z.leb_spec (x + d) 2147483647); [|lia]. cbn [andb bind].
    rewrite Z.mod_small by lia. split; [f_equal; lia|lia].
  - destruct (Z.leb_spec (-2147483648) (x + d)); [|lia]. destruct (Z.leb_spec (x + d) 2147483647); [|lia]. cbn [andb bind].
    rewrite Z.mod_small by lia. split; [f_equal; lia|lia].
  - destruct (Z.leb_spec (-9223372036854775808) (x + d)); [|lia]. destruct (Z.leb_spec (x + d) 9223372036854775807); [|lia]. cbn [andb bind].
    rewrite Z.mod_small by lia. split; [f_equal; lia|lia].
Qed.

Lemma add_noise_corner t b : Integral t -> t <> TBool -> halfMax t = Ok b ->
  Value t b /\ addDrawn t b b = match t with TBool => UB | TUnsigned _ => Ok 0 | TSigned n => if n <? 32 then Ok (- 2 ^ (n - 1)) else UB end.
Proof.
  intros H N Hb. destruct t as [|n|n]; [congruence| |]; cbn in H; bits H; vm_compute in Hb; injection Hb as <-; (split; [cbn; lia|]); vm_compute; reflexivity.
Qed.

Lemma add_noise_defined t x d : Integral t -> Value t x -> Value t d -> t <> TBool ->
  (match t with TSigned n => n < 32 \/ Value t (x + d) | _ => True end) ->
  exists y, addDrawn t x d = Ok y /\ Value t y /\ exists k, y = x + d + k * (lmax t - lmin t + 1).
Proof.
  intros H Hx Hd N Hs. unfold addDrawn, arith.
  destruct t as [|n|n]; [congruence| |]; cbn in H; bits H; cbn -[Z.modulo] in *.
  - destruct (Z.leb_spec (-2147483648) (x + d)); [|lia]. destruct (Z.leb_spec (x + d) 2147483647); [|lia]. cbn [andb bind].
    eexists. split; [reflexivity|]. split; [apply Z.mod_pos_bound; lia|]. exists (- ((x + d) / 256)). rewrite (Z.mod_eq (x + d) 256) by lia. lia.
  - destruct (Z.leb_spec (-2147483648) (x + d)); [|lia]. destruct (Z.leb_spec (x + d) 2147483647); [|lia]. cbn [andb bind].
    eexists. split; [reflexivity|]. split; [apply Z.mod_pos_bound; lia|]. exists (- ((x + d) / 65536)). rewrite (Z.mod_eq (x + d) 65536) by lia. lia.
  - rewrite Z.mod_mod by lia.
    eexists. split; [reflexivity|]. split; [apply Z.mod_pos_bound; lia|]. exists (- ((x + d) / 4294967296)). rewrite (Z.mod_eq (x + d) 4294967296) by lia. lia.
  - rewrite Z.mod_mod by lia.
    eexists. split; [reflexivity|]. split; [apply Z.mod_pos_bound; lia|]. exists (- ((x + d) / 18446744073709551616)). rewrite (Z.mod_eq (x + d) 18446744073709551616) by lia. lia.
  - destruct (Z.leb_spec (-2147483648) (x + d)); [|lia]. destruct (Z.leb_spec (x + d) 2147483647); [|lia]. cbn [andb bind].
    pose proof (Z.mod_pos_bound (x + d + 128) 256 eq_refl).
    eexists. split; [reflexivity|]. split; [lia|]. exists (- ((x + d + 128) / 256)). rewrite (Z.mod_eq (x + d + 128) 256) by lia. lia.
  - destruct (Z.leb_spec (-2147483648) (x + d)); [|lia]. destruct (Z.leb_spec (x + d) 2147483647); [|lia]. cbn [andb bind].
    pose proof (Z.mod_pos_bound (x + d + 32768) 65536 eq_refl).
    eexists. split; [reflexivity|]. split; [lia|]. exists (- ((x + d + 32768) / 65536)). rewrite (Z.mod_eq (x + d + 32768) 65536) by lia. lia.
  - destruct Hs as [Hs|Hs]; [discriminate|].
    destruct (Z.leb_spec (-2147483648) (x + d)); [|lia]. destruct (Z.leb_spec (x + d) 2147483647); [|lia]. cbn [andb bind].
    rewrite Z.mod_small by lia. eexists. split; [reflexivity|]. split; [lia|]. exists 0. lia.
  - destruct Hs as [Hs|Hs]; [discriminate|].
    destruct (Z.leb_spec (-9223372036854775808) (x + d)); [|lia]. destruct (Z.leb_spec (x + d) 9223372036854775807); [|lia]. cbn [andb bind].
    rewrite Z.mod_small by lia. eexists. split; [reflexivity|]. split; [lia|]. exists 0. lia.
Qed.

(** ** Additive noises *)
Section Noise.
Context {D E S T : Type}.
Variable draw : D -> E -> (D * E) * S.
Variable convert : S -> res T.
Variable plus : T -> T -> res T.
Notation noiseCall := (noiseCall draw convert plus).
Notation after := (after draw).
Notation drawn := (drawn draw).

Lemma drawn_S st k : drawn (fst (draw (fst st) (snd st))) k = drawn st (Datatypes.S k).
Proof. reflexivity. Qed.

Lemma noise_calls xs : forall st st' outs, calls noiseCall st xs = Ok (st', outs) ->
  st' = after (length xs) st /\ length outs = length xs /\
  forall k args, nth_error xs k = Some args -> exists d y, convert (drawn st k) = Ok d /\ nth_error outs k = Some y /\
    (args = [] /\ y = d \/ exists x, args = [x] /\ plus x d = Ok y).
Proof.
  induction xs as [|a xs IH]; intros st st' outs H; cbn [calls] in H.
  - injection H as <- <-. split; [reflexivity|]. split; [reflexivity|]. intros [|k] args Hk; discriminate.
  - destruct (noiseCall st a) as [r| |] eqn:R; [|discriminate..]. cbn [bind] in H.
    destruct (calls noiseCall (fst r) xs) as [t| |] eqn:C; [|discriminate..]. cbn [bind] in H. injection H as <- <-.
    destruct t as [ts touts]. cbn [fst snd] in *.
    assert (F : fst r = fst (draw (fst st) (snd st)) /\ exists d, convert (drawn st 0) = Ok d /\ (a = [] /\ snd r = d \/ exists x, a = [x] /\ plus x d = Ok (snd r))).
    { unfold LimitsModel.noiseCall, noiseAdd, noiseGenerate in R. unfold LimitsSpec.drawn. cbn [LimitsSpec.after].
      destruct a as [|x [|x' a]]; [| |discriminate]; destruct (convert _) as [d| |] eqn:Cv; cbn [bind fst snd] in R; try discriminate.
      - injection R as <-. cbn. split; [reflexivity|]. exists d. auto.
      - destruct (plus x d) as [y| |] eqn:P; cbn [bind] in R; try discriminate. injection R as <-. cbn. split; [reflexivity|]. exists d. split; [reflexivity|]. right. eauto. }
    destruct F as (F1 & d & Fd & F2). destruct (IH _ _ _ C) as (I1 & I2 & I3). split; [|split].
    + cbn [length LimitsSpec.after]. rewrite <- F1. exact I1.
    + cbn [length]. rewrite I2. reflexivity.
    + intros [|k] args Hk; cbn [nth_error] in Hk |- *.
      * injection Hk as <-. exists d, (snd r). auto.
      * destruct (I3 k args Hk) as (d' & y & E1 & E2). rewrite F1, drawn_S in E1. eauto.
Qed.

Lemma noise_calls_ok xs : forall st,
  (forall k args, nth_error xs k = Some args -> exists d, convert (drawn st k) = Ok d /\ (args = [] \/ exists x y, args = [x] /\ plus x d = Ok y)) ->
  exists st' outs, calls noiseCall st xs = Ok (st', outs).
Proof.
  induction xs as [|a xs IH]; intros st H; cbn [calls]; [eauto|].
  assert (R : exists r, noiseCall st a = Ok r /\ fst r = fst (draw (fst st) (snd st))).
  { destruct (H O a eq_refl) as (d & Hd & Ha). unfold LimitsSpec.drawn in Hd. cbn [LimitsSpec.after] in Hd.
    unfold LimitsModel.noiseCall, noiseAdd, noiseGenerate. destruct Ha as [->|(x & y & -> & Hp)]; rewrite Hd; cbn [bind snd fst]; [|rewrite Hp; cbn [bind]]; eauto. }
  destruct R as (r & -> & F). cbn [bind]. destruct (IH (fst r)) as (st' & outs & C).
  { intros k args Hk. rewrite F, drawn_S. apply (H (Datatypes.S k) args). exact Hk. }
  rewrite C. cbn. eauto.
Qed.

Lemma noise_apply st n mem a : Allocated mem a n ->
  (forall i x, 0 <= i < Z.of_nat n -> zget mem (a + i) = Ok x -> exists d y, convert (drawn st (Z.to_nat i)) = Ok d /\ plus x d = Ok y) ->
  exists mem', apply noiseCall n st mem a [] = Ok (after n st, mem') /\ Frame mem mem' a n /\
    forall i x d, 0 <= i < Z.of_nat n -> zget mem (a + i) = Ok x -> convert (drawn st (Z.to_nat i)) = Ok d -> zget mem' (a + i) = plus x d.
Proof.
  intros HA HP. set (l := firstn n (skipn (Z.to_nat a) mem)).
  assert (L : length l = n) by (unfold l; rewrite firstn_length, skipn_length; destruct HA; lia).
  assert (G : forall i, 0 <= i < Z.of_nat n -> zget l i = zget mem (a + i)) by (intros i Hi; apply (zget_slice (E := E) (fun _ : Z => snd st) (fun x e => (e, x))); assumption).
  destruct (noise_calls_ok (map (fun x => [x]) l) st) as (st' & outs & C).
  { intros k args Hk. rewrite nth_error_map in Hk. destruct (nth_error l k) as [x|] eqn:Hx; [|discriminate]. injection Hk as <-.
    assert (K : (k < n)%nat) by (rewrite <- L; apply nth_error_Some; congruence).
    destruct (HP (Z.of_nat k) x) as (d & y & Hd & Hy); [lia| |].
    - rewrite <- G by lia. unfold zget. destruct (Z.ltb_spec (Z.of_nat k) 0); [lia|]. rewrite Nat2Z.id, Hx. reflexivity.
    - rewrite Nat2Z.id in Hd. exists d. split; [exact Hd|]. right. eauto. }
  destruct (noise_calls _ _ _ _ C) as (S1 & S2 & S3). rewrite map_length, L in S1.
  destruct (apply_spec noiseCall n st mem a [] (map (fun x => [x]) l) st' outs HA) as (mem' & Em & F & P).
  - constructor.
  - rewrite map_length. exact L.
  - intros i Hi. cbn [shifted map readArgs bind]. rewrite <- G by exact Hi. unfold zget. destruct (Z.ltb_spec i 0); [lia|].
    rewrite nth_error_map. destruct (nth_error l (Z.to_nat i)); reflexivity.
  - exact C.
  - exists mem'. rewrite <- S1. split; [exact Em|]. split; [exact F|]. intros i x d Hi Hx Hd. rewrite P by exact Hi. rewrite <- G in Hx by exact Hi.
    unfold zget in Hx |- *. destruct (Z.ltb_spec i 0); [lia|]. destruct (nth_error l (Z.to_nat i)) as [x'|] eqn:Hn; [|discriminate]. injection Hx as ->.
    destruct (S3 (Z.to_nat i) [x]) as (d' & y & Hd' & Hy & [[? _]|(x' & Ex & Hp)]); [rewrite nth_error_map, Hn; reflexivity|discriminate|].
    injection Ex as <-. rewrite Hy. rewrite Hd in Hd'. injection Hd' as <-. symmetry. exact Hp.
Qed.

Lemma noise_generate st n mem a : Allocated mem a n ->
  (forall i, 0 <= i < Z.of_nat n -> exists d, convert (drawn st (Z.to_nat i)) = Ok d) ->
  exists mem', generate noiseCall n st mem a [] = Ok (after n st, mem') /\ Frame mem mem' a n /\
    forall i, 0 <= i < Z.of_nat n -> zget mem' (a + i) = convert (drawn st (Z.to_nat i)).
Proof.
  intros HA HP.
  destruct (noise_calls_ok (repeat [] n) st) as (st' & outs & C).
  { intros k args Hk. assert (K : (k < n)%nat) by (rewrite <- (repeat_length (@nil T) n); apply nth_error_Some; congruence).
    destruct (HP (Z.of_nat k)) as (d & Hd); [lia|]. rewrite Nat2Z.id in Hd. exists d. split; [exact Hd|]. left.
    apply nth_error_In in Hk. apply repeat_spec in Hk. exact Hk. }
  destruct (noise_calls _ _ _ _ C) as (S1 & S2 & S3). rewrite repeat_length in S1, S2.
  destruct (generate_spec noiseCall n st mem a [] (repeat [] n) st' outs HA) as (mem' & Em & F & P).
  - constructor.
  - apply repeat_length.
  - intros i Hi. cbn [shifted map readArgs]. symmetry. unfold zget. destruct (Z.ltb_spec i 0); [lia|].
    rewrite nth_error_repeat by lia. reflexivity.
  - exact C.
  - exists mem'. rewrite <- S1. split; [exact Em|]. split; [exact F|]. intros i Hi. rewrite P by exact Hi.
    destruct (S3 (Z.to_nat i) []) as (d & y & Hd & Hy & [[_ ->]|(x & Ex & _)]); [apply nth_error_repeat; lia| |discriminate].
    unfold zget. destruct (Z.ltb_spec i 0); [lia|]. rewrite Hy, Hd. reflexivity.
Qed.
End Noise.

(** The noise does not depend on the values *)
Lemma noise_same {D E : Type} (draw : D -> E -> (D * E) * Z) st n n' mem mem' a a' st1 st1' out out' :
  Allocated mem a n -> Allocated mem' a' n' ->
  apply (noiseCall draw (fun x => Ok x) (fun x y => Ok (x + y))) n st mem a [] = Ok (st1, out) ->
  apply (noiseCall draw (fun x => Ok x) (fun x y => Ok (x + y))) n' st mem' a' [] = Ok (st1', out') ->
  forall i x x' y y', 0 <= i < Z.of_nat n -> i < Z.of_nat n' -> zget mem (a + i) = Ok x -> zget mem' (a' + i) = Ok x' ->
    zget out (a + i) = Ok y -> zget out' (a' + i) = Ok y' -> y - x = y' - x'.
Proof.
  intros A A' H H' i x x' y y' Hi Hi' Hx Hx' Hy Hy'.
  destruct (noise_apply draw (fun x => Ok x) (fun x y => Ok (x + y)) st n mem a A) as (o & Eo & _ & P); [intros; eauto|].
  destruct (noise_apply draw (fun x => Ok x) (fun x y => Ok (x + y)) st n' mem' a' A') as (o' & Eo' & _ & P'); [intros; eauto|].
  assert (o = out) by congruence. assert (o' = out') by congruence. subst o o'.
  rewrite (P i x _ Hi Hx eq_refl) in Hy. rewrite (P' i x' _ ltac:(lia) Hx' eq_refl) in Hy'. injection Hy as <-. injection Hy' as <-. lia.
Qed.

(** Complex noise with distributions which keep no state and which all move the engine in the same way *)
Lemma after_complex {D E S : Type} (value : D -> E -> S) (next : E -> E) dr di k : forall e,
  after (drawComplex (fun d e => ((d, next e), value d e))) k ((dr, di), e) = ((dr, di), Nat.iter (2 * k) next e).
Proof.
  induction k as [|k IH]; intros e; [reflexivity|]. cbn [after]. replace (2 * Datatypes.S k)%nat with (Datatypes.S (Datatypes.S (2 * k))) by lia.
  cbn -[Nat.mul Nat.iter]. rewrite IH. f_equal.
  generalize (2 * k)%nat. intros m. induction m as [|m IHm]; cbn [Nat.iter nat_rect] in *; [reflexivity|]. rewrite <- IHm. reflexivity.
Qed.

Lemma complex_drawn {D E S : Type} (value : D -> E -> S) (next : E -> E) dr di e k :
  drawn (drawComplex (fun d e => ((d, next e), value d e))) ((dr, di), e) k =
  (value dr (Nat.iter (2 * k) next e), value di (Nat.iter (2 * k + 1) next e)).
Proof.
  unfold drawn. rewrite after_complex. cbn -[Nat.mul Nat.iter]. f_equal. rewrite Nat.add_1_r. reflexivity.
Qed.
