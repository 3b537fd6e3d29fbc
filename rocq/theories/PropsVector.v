(** Properties C31 to C33, C50, C51, C53: vectors, clamping, integral part, text output, segments, serialization. *)
From Coq Require Import Ascii String.
From Verif Require Import Res VecModel BoxModel RasterModel ContainerModel ArithModel TypesModel Spec BoxSpec ContainerSpec
  ContainerProofs WholeProofs.
Open Scope list_scope.

(** C31. zero(), one() and the predicates, for template parameter [n]. *)
Theorem C31_constants : forall n,
  let d := Z.to_nat (Z.abs n) in
  vzero n = repeat 0 d /\ vone n = repeat 1 d /\ isZero (vzero n) = true /\ isOne (vone n) = true /\
  (forall u, isZero u = true <-> u = repeat 0 (length u)) /\
  (forall u, isOne u = true <-> u = repeat 1 (length u)) /\
  (forall u, isInf u = true <-> u = repeat (2 ^ 63 - 1) (length u)).
Proof. exact constants_spec. Qed.
Print Assumptions C31_constants.

(** inf() is made of the opposite of the greatest value, and is not recognised by isInf(). *)
Theorem C31_inf_refuted : forall n, n <> 0 ->
  vinf n = repeat (- (2 ^ 63 - 1)) (Z.to_nat (Z.abs n)) /\ isInf (vinf n) = false.
Proof. exact inf_spec. Qed.
Print Assumptions C31_inf_refuted.

(** So Box::whole(), which is documented as unlimited, has no position, and looping over it never ends. *)
Theorem C31_whole_refuted : forall n, n <> 0 -> (forall p, ~ InBox (wholeBox n) p) /\ forall fuel, boxForeach fuel (wholeBox n) = None.
Proof. exact whole_empty. Qed.
Print Assumptions C31_whole_refuted.

Theorem C31_slice : forall m u, (m <= length u)%nat -> vslice m u = Ok (firstn m u).
Proof. exact vslice_spec. Qed.
Print Assumptions C31_slice.

Theorem C31_slice_too_long : forall m u, (length u < m)%nat -> vslice m u = UB.
Proof. exact vslice_short. Qed.
Print Assumptions C31_slice_too_long.

Theorem C31_extend : forall u p, (length u <= length p)%nat -> vextend u p = Ok (u ++ skipn (length u) p).
Proof. exact vextend_spec. Qed.
Print Assumptions C31_extend.

Theorem C31_extend_too_short : forall u p, (length p < length u)%nat -> vextend u p = UB.
Proof. exact vextend_short. Qed.
Print Assumptions C31_extend_too_short.

Theorem C31_extend_slice : forall u p, (length u <= length p)%nat -> (v <- vextend u p ;; vslice (length u) v) = Ok u.
Proof. exact vextend_slice. Qed.
Print Assumptions C31_extend_slice.

Example C31_met : vzero 3 = [0; 0; 0] /\ vone (-1) = [1] /\ isZero [0; 1] = false /\ isOne [1; 1] = true /\
  isInf [9223372036854775807] = true /\ vinf 1 = [-9223372036854775807] /\
  vslice 2 [1; 2; 3] = Ok [1; 2] /\ vextend [1; 2] [7; 8; 9] = Ok [1; 2; 9].
Proof. repeat split. Qed.

(** C32. *)
Theorem C32_clamp : forall (pos shape : list Z), length pos = length shape -> Positive shape ->
  InDomain shape (vclamp pos shape) /\ (InDomain shape pos -> vclamp pos shape = pos) /\
  forall i c p q qi, InDomain shape q -> zget (vclamp pos shape) i = Ok c -> zget pos i = Ok p -> zget q i = Ok qi ->
    Z.abs (c - p) <= Z.abs (qi - p).
Proof. exact clamp_spec. Qed.
Print Assumptions C32_clamp.

Example C32_met : Positive [4; 3; 5] /\ vclamp [-2; 7; 3] [4; 3; 5] = [0; 2; 3].
Proof. split; [repeat constructor; lia|reflexivity]. Qed.

(** C33. floor is right, but at negative integers, where it is one less. *)
Theorem C33_floor_characterised : forall x,
  floorM x = if qltb x 0 && Qeq_bool x (inject_Z (Qfloor x)) then Qfloor x - 1 else Qfloor x.
Proof. exact floor_characterised. Qed.
Print Assumptions C33_floor_characterised.

(** Missing: negative integers. *)
Theorem C33_floor_partial : forall x, (0 <= x)%Q \/ ~ (x == inject_Z (Qfloor x))%Q ->
  (inject_Z (floorM x) <= x)%Q /\ (x < inject_Z (floorM x + 1))%Q.
Proof. exact floor_partial. Qed.
Print Assumptions C33_floor_partial.

Theorem C33_floor_refuted : exists x : Q, floorM x <> Qfloor x.
Proof. exact floor_refuted. Qed.
Print Assumptions C33_floor_refuted.

Example C33_met : floorM (7 # 2) = 3 /\ floorM (-7 # 2) = -4 /\ floorM 3 = 3 /\ floorM (-2) = -3 /\ Qfloor (-2) = -2.
Proof. repeat split. Qed.

(** C50. *)
Theorem C50_short : forall A (pr : A -> list ascii) (l : list A),
  (length l <= 7)%nat -> cprint pr l = Ok (lit "[" ++ join (lit ", ") (map pr l) ++ lit "]").
Proof. exact @cprint_short. Qed.
Print Assumptions C50_short.

Theorem C50_long : forall A (pr : A -> list ascii) (l : list A),
  (7 < length l)%nat ->
  cprint pr l = Ok (lit "[" ++ join (lit ", ") (map pr (firstn 3 l)) ++ lit " ... " ++
                    join (lit ", ") (map pr (skipn (length l - 3) l)) ++ lit "]").
Proof. exact @cprint_long. Qed.
Print Assumptions C50_long.

(** Two short containers which print the same have the same printed elements,
    if the elements print as a non-empty text without comma. *)
Theorem C50_injective : forall A (pr : A -> list ascii) (l r : list A),
  (length l <= 7)%nat -> (length r <= 7)%nat -> (forall x, pr x <> [] /\ ~ In ","%char (pr x)) ->
  cprint pr l = cprint pr r -> map pr l = map pr r.
Proof. exact @cprint_inj. Qed.
Print Assumptions C50_injective.

Example C50_met :
  let pr := fun b : bool => lit (if b then "1" else "0") in
  (forall x, pr x <> [] /\ ~ In ","%char (pr x)) /\
  cprint pr [true; false; true] = Ok (lit "[1, 0, 1]") /\ cprint pr [] = Ok (lit "[]") /\
  cprint pr [true; false; true; false; true; false; true] = Ok (lit "[1, 0, 1, 0, 1, 0, 1]") /\
  cprint pr [true; false; true; true; false; false; true; true] = Ok (lit "[1, 0, 1 ... 0, 1, 1]").
Proof.
  cbv zeta. split; [|repeat split]. intros []; (split; [discriminate|intros [C|[]]; discriminate]).
Qed.

(** C51. Segment::fromSize(front, size) has back = size - front - 1: it is the expected segment for front = 0 only. *)
Theorem C51_segment_characterised : forall front size,
  - 2 ^ 62 <= front < 2 ^ 62 -> 0 <= size < 2 ^ 62 ->
  segFromSize front size = mkSegment front (size - front - 1) /\
  (segSize (segFromSize front size) = size <-> front = 0).
Proof. exact segment_spec. Qed.
Print Assumptions C51_segment_characterised.

Theorem C51_segment_refuted : exists front size, 0 <= size /\ segSize (segFromSize front size) <> size /\
  segBack (segFromSize front size) <> front + size - 1.
Proof. exact segment_refuted. Qed.
Print Assumptions C51_segment_refuted.

Example C51_met : segFromSize 0 5 = mkSegment 0 4 /\ segSize (segFromSize 0 5) = 5 /\
  segFromSize (-1) 3 = mkSegment (-1) 3 /\ segSize (segFromSize (-1) 3) = 5.
Proof. repeat split. Qed.

(** C53. *)
Theorem C53_serialize : forall t ts, serialize t ts = join (lit ", ") (t :: ts).
Proof. exact serialize_spec. Qed.
Print Assumptions C53_serialize.

Example C53_met : serialize (lit "1") [lit "3.14"; lit "str"] = lit "1, 3.14, str".
Proof. reflexivity. Qed.

(** The size of a shape is the product of its lengths, or 0 without axes. *)
Theorem C31_shape_size : forall shape, shapeSize shape = match shape with [] => 0 | _ => prod shape end.
Proof. exact shape_size. Qed.
Print Assumptions C31_shape_size.
Example C31_shape_size_met : shapeSize [3; 4; 5] = 60 /\ shapeSize [] = 0.
Proof. split; reflexivity. Qed.
