(** C94: pixel-wise functions which throw. *)
From Coq Require Import Permutation.
From Verif Require Import Res ArithModel ThrowModel Spec ArithSpec ThrowSpec ThrowProofs.

(** generate(): the elements before the one for which the function threw hold its results, all the others and the rest of the memory
    are unchanged; the arguments which do not overlap the container, or start after it, are those before the call. *)
Theorem C94_generate : forall A S (func : S -> list A -> S * res A) n st mem a args tuples st' out r,
  Allocated mem a n -> Forall (fun b => a <= b \/ Apart a n b n) args -> length tuples = n ->
  (forall i, 0 <= i < Z.of_nat n -> readArgs mem (shifted args i) = zget tuples i) ->
  attempt func st tuples = (st', out, r) ->
  exists mem', generateT func n st mem a args = (st', mem', r) /\ Frame mem mem' a n /\
    (forall i, 0 <= i < Z.of_nat (length out) -> zget mem' (a + i) = zget out i) /\
    (forall i, Z.of_nat (length out) <= i -> zget mem' (a + i) = zget mem (a + i)).
Proof. exact @generateT_spec. Qed.
Print Assumptions C94_generate.
Example C94_generate_met : attempt (fun s xs => (s + 1, match xs with [x; y] => if x =? y then Throw EGeneric else Ok (x + s) | _ => UB end)) 10 [[1; 2]; [3; 4]; [5; 5]; [6; 7]]
    = (13, [11; 14], Throw EGeneric) /\
  generateT (fun s xs => (s + 1, match xs with [x; y] => if x =? y then Throw EGeneric else Ok (x + s) | _ => UB end)) 4 10 [0; 0; 0; 0; 1; 3; 5; 6; 2; 4; 5; 7] 0 [4; 8]
    = (13, [11; 14; 0; 0; 1; 3; 5; 6; 2; 4; 5; 7], Throw EGeneric).
Proof. split; reflexivity. Qed.

(** The same for apply(). *)
Theorem C94_apply : forall A S (func : S -> list A -> S * res A) n st mem a args tuples st' out r,
  Allocated mem a n -> Forall (fun b => a <= b \/ Apart a n b n) args -> length tuples = n ->
  (forall i, 0 <= i < Z.of_nat n -> (x <- zget mem (a + i) ;; t <- readArgs mem (shifted args i) ;; Ok (x :: t)) = zget tuples i) ->
  attempt func st tuples = (st', out, r) ->
  exists mem', applyT func n st mem a args = (st', mem', r) /\ Frame mem mem' a n /\
    (forall i, 0 <= i < Z.of_nat (length out) -> zget mem' (a + i) = zget out i) /\
    (forall i, Z.of_nat (length out) <= i -> zget mem' (a + i) = zget mem (a + i)).
Proof. exact @applyT_spec. Qed.
Print Assumptions C94_apply.
Example C94_apply_met : applyT (fun (_ : unit) xs => (tt, match xs with [x] => if x =? 3 then Throw EGeneric else Ok (x + 1) | _ => UB end)) 3 tt [1; 2; 3] 0 [] =
  (tt, [2; 3; 3], Throw EGeneric).
Proof. reflexivity. Qed.

(** Without exception, these are the functions of C19. *)
Theorem C94_no_throw : forall A S (func : S -> list A -> res (S * A)) n st mem a args st' mem',
  generateT (lift func) n st mem a args = (st', mem', Ok tt) <-> generate func n st mem a args = Ok (st', mem').
Proof. exact @generateT_generate. Qed.
Print Assumptions C94_no_throw.
Example C94_no_throw_met : generate (fun (s : Z) xs => match xs with [x] => Ok (s + 1, x + s) | _ => UB end) 2 1 [0; 0; 5; 6] 0 [2] = Ok (3, [6; 8; 5; 6]).
Proof. reflexivity. Qed.

(** In-place operators and functions: whatever the order of the calls, those before the exception are done and nothing else changed. The second
    operand may be the container itself. *)
Theorem C94_inplace : forall A (op : list A -> res A) reads a n order mem mem' r, NoDup order -> Forall (fun k => 0 <= k < Z.of_nat n) order -> Allocated mem a n ->
  (forall k j, In k order -> In j order -> j <> k -> ~ In (a + j) (reads k)) ->
  transformT op reads order mem a = (mem', r) -> Interrupted op reads order mem mem' a r.
Proof. exact @transformT_spec. Qed.
Print Assumptions C94_inplace.
Example C94_inplace_met : NoDup [2; 0; 1] /\ (forall k j, In k [2; 0; 1] -> In j [2; 0; 1] -> j <> k -> ~ In (0 + j) [0 + k; 3 + k]) /\
  transformT (fun xs => match xs with [x; y] => if y =? 0 then Throw EGeneric else Ok (x / y) | _ => UB end) (fun k => [0 + k; 3 + k]) [2; 0; 1] [10; 20; 30; 0; 2; 3] 0 =
    ([10; 20; 10; 0; 2; 3], Throw EGeneric).
Proof.
  split; [repeat constructor; cbn; lia|]. split; [|reflexivity]. intros k j Hk Hj N [H|[H|[]]]; [lia|]. cbn in Hk, Hj. lia.
Qed.

(** In order and without exception, these are the operators of C15. *)
Theorem C94_in_order : forall A (op : A -> A -> res A) n i mem a b mem',
  transformT (fun xs => match xs with [x; y] => op x y | _ => UB end) (fun k => [a + k; b + k]) (zrange i (i + Z.of_nat n - 1)) mem a = (mem', Ok tt) <->
  transform2 op n mem (a + i) (b + i) = Ok mem'.
Proof. exact @transformT_transform2. Qed.
Print Assumptions C94_in_order.

(** Operators and functions which return a new instance: an exception changes nothing. *)
Theorem C94_new : forall A (op : list A -> res A) reads order n mem a mem' e, Forall (fun k => 0 <= k) order ->
  newT op reads order n mem a = (mem', Throw e) -> mem' = mem.
Proof. exact @newT_strong. Qed.
Print Assumptions C94_new.
Example C94_new_met :
  newT (fun xs => match xs with [x; y] => if y =? 0 then Throw EGeneric else Ok (x / y) | _ => UB end) (fun k => [6 + k; 3 + k]) [2; 0; 1] 3 [10; 20; 30; 0; 2; 3] 0 =
    ([10; 20; 30; 0; 2; 3], Throw EGeneric).
Proof. reflexivity. Qed.

(** And in any case they do not change the operands. *)
Theorem C94_operands : forall A (op : list A -> res A) reads order n mem a mem' r, Forall (fun k => 0 <= k) order ->
  newT op reads order n mem a = (mem', r) -> forall j, j < Z.of_nat (length mem) -> zget mem' j = zget mem j.
Proof. exact @newT_frame. Qed.
Print Assumptions C94_operands.

(** generate() can be called again after an exception, with the same result as if the first call had not been made, if the arguments do not overlap the container. *)
Theorem C94_retry : forall A S T (f : S -> list A -> S * res A) (g : T -> list A -> T * res A) n mem a args tuples st st1 mem1 r t t1 out,
  Allocated mem a n -> Forall (fun b => Apart a n b n) args -> length tuples = n ->
  (forall i, 0 <= i < Z.of_nat n -> readArgs mem (shifted args i) = zget tuples i) ->
  generateT f n st mem a args = (st1, mem1, r) -> attempt g t tuples = (t1, out, Ok tt) ->
  exists mem', generateT g n t mem a args = (t1, mem', Ok tt) /\ generateT g n t mem1 a args = (t1, mem', Ok tt).
Proof. exact @generateT_retry. Qed.
Print Assumptions C94_retry.
Example C94_retry_met : Apart 0 2 2 2 /\ generateT (fun (_ : unit) xs => (tt, match xs with [6] => Throw EGeneric | [x] => Ok x | _ => UB end)) 2 tt [0; 0; 5; 6] 0 [2] = (tt, [5; 0; 5; 6], Throw EGeneric).
Proof. split; [intros i j; lia|reflexivity]. Qed.

(** Not so of apply(): the elements already changed are changed again. *)
Theorem C94_retry_refuted : exists (f g : unit -> list Z -> unit * res Z) n mem mem1 m1 m2 a e, Allocated mem a n /\
  (forall xs y, snd (f tt xs) = Ok y -> snd (g tt xs) = Ok y) /\
  applyT f n tt mem a [] = (tt, mem1, Throw e) /\ applyT g n tt mem a [] = (tt, m1, Ok tt) /\ applyT g n tt mem1 a [] = (tt, m2, Ok tt) /\ m1 <> m2.
Proof. exact retry_witness. Qed.
Print Assumptions C94_retry_refuted.

(** And in-place operators do not undo their changes. *)
Theorem C94_inplace_refuted : exists (op : list Z -> res Z) reads order n mem mem' a e, Permutation order (zrange 0 (Z.of_nat n - 1)) /\ Allocated mem a n /\ (forall k, reads k = [a + k]) /\
  transformT op reads order mem a = (mem', Throw e) /\ mem' <> mem.
Proof. exact inplace_witness. Qed.
Print Assumptions C94_inplace_refuted.
