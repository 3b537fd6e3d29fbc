(** C69: exceptions, C70: sequence utilities. *)
From Coq Require Import String Permutation Reals.
From Verif Require Import Res ArithModel FloatModel FloatSpec TextModel TextSpec TextProofs SeqModel SeqProofs.
From Flocq Require Import IEEE754.BinarySingleNaN.
Open Scope string_scope.

(** The message is the prefix and the first message, and then one line per appended line, each with its indentation. *)
Theorem C69_message : forall prefix message appended, OneLine prefix -> OneLine message -> Forall (fun x => OneLine (fst x)) appended ->
  lines (what (fold_left (fun e x => appendLine e (fst x) (snd x)) appended (newException prefix message))) =
  (prefix ++ ": " ++ message) :: map (fun x => spaces (2 * snd x) ++ fst x) appended.
Proof. exact message_lines. Qed.
Print Assumptions C69_message.
Example C69_message_met : OneLine "Litl error" /\ lines (what (appendLine (appendLine (litlError "no") "why" 0) "how" 1)) = ["Litl error: no"; "why"; "  how"].
Proof. split; reflexivity. Qed.

(** An integer is rejected exactly if it is not between the bounds, included. *)
Theorem C69_bounds : forall name value lo hi, ((lo <= value <= hi)%Z -> mayThrowBounds name value lo hi = None) /\
  ((value < lo \/ hi < value)%Z -> mayThrowBounds name value lo hi = Some (outOfBounds name value lo hi)).
Proof. exact bounds_ok. Qed.
Print Assumptions C69_bounds.
Example C69_bounds_met : mayThrowBounds "x" 2 0 2 = None /\ mayThrowBounds "x" 3 0 2 <> None /\ mayThrowBounds "x" (-1) 0 2 <> None.
Proof. repeat split; discriminate. Qed.

(** The message gives the value and the bounds in decimal. *)
Theorem C69_bounds_text : forall name value lo hi e, mayThrowBounds name value lo hi = Some e ->
  exists v a b, what e = "Out of bounds error: " ++ name ++ v ++ " not in [" ++ a ++ ", " ++ b ++ "]" /\ Denotes v value /\ Denotes a lo /\ Denotes b hi.
Proof. exact bounds_text. Qed.
Print Assumptions C69_bounds_text.
Example C69_bounds_text_met : mayThrowBounds "x" (-13) 0 207 <> None /\ Denotes "-13" (-13) /\ Denotes "207" 207 /\ ~ Denotes "207" 208.
Proof. repeat split; discriminate. Qed.

(** A size is rejected exactly if it is not the expected one, both in 64 bits, and the message gives them in this order. *)
Theorem C69_size : forall size ref, (u64 size = u64 ref -> mayThrowSize size ref = None) /\
  (u64 size <> u64 ref -> exists e a b, mayThrowSize size ref = Some e /\ what e = "Size error: Expected " ++ a ++ ", got " ++ b /\ Denotes a (u64 ref) /\ Denotes b (u64 size)).
Proof. exact size_ok. Qed.
Print Assumptions C69_size.
Example C69_size_met : mayThrowSize 6 6 = None /\ option_map what (mayThrowSize 5 6) = Some "Size error: Expected 6, got 5" /\
  option_map what (mayThrowSize 0 (-1)) = Some "Size error: Expected 18446744073709551615, got 0".
Proof. repeat split. Qed.

(** The same for finite doubles. Missing: NaN (see below). *)
Theorem C69_double_bounds_partial : forall value lo hi, Finite value -> Finite lo -> Finite hi ->
  (mayThrowDouble value lo hi = false <-> (real lo <= real value <= real hi)%R).
Proof. exact double_bounds_ok. Qed.
Print Assumptions C69_double_bounds_partial.
Example C69_double_bounds_met : Finite (dofZ 1) /\ mayThrowDouble (dofZ 1) (dofZ 0) (dofZ 2) = false /\ mayThrowDouble (dofZ 3) (dofZ 0) (dofZ 2) = true.
Proof. repeat split; vm_compute; reflexivity. Qed.

(** NaN, which is between no bounds, is accepted for all bounds. *)
Theorem C69_nan_refuted : exists value : double, is_nan value = true /\ forall lo hi, mayThrowDouble value lo hi = false.
Proof. exact nan_accepted. Qed.
Print Assumptions C69_nan_refuted.

(** The message does not have the documented form "name: value not in [min, max]": there is no separator, and the index of
    an element appears twice. *)
Theorem C69_form_refuted : what (outOfBounds "x" 3 0 2) = "Out of bounds error: x3 not in [0, 2]" /\
  option_map what (atError 5 3) = Some "Out of bounds error: Index 55 not in [-3, 2]".
Proof. exact form_wrong. Qed.
Print Assumptions C69_form_refuted.

(** Whatever the order in which the arguments are evaluated, the function receives the elements in the order of the iterators and each
    iterator is incremented once; it is undefined if and only if some iterator is out of bounds. *)
Theorem C70_iterators : forall (A : Type) (mem : list A) order its, Permutation order (seq 0 (List.length its)) ->
  tupleRead order mem its = (xs <- readArgs mem its ;; Ok (xs, map (fun it => (it + 1)%Z) its)).
Proof. exact @tupleRead_any. Qed.
Print Assumptions C70_iterators.
Example C70_iterators_met : Permutation [1; 0]%nat (seq 0 2) /\ tupleRead [1; 0]%nat [5; 6; 7]%Z [0; 2]%Z = Ok ([5; 7], [1; 3])%Z.
Proof. split; [apply perm_swap|reflexivity]. Qed.

(** Hence generating does not depend on these orders: C19 is about any of them. *)
Theorem C70_generate : forall (A S : Type) (func : S -> list A -> res (S * A)) orders n st mem a its,
  (forall j, Permutation (orders j) (seq 0 (List.length its))) -> generateAny orders func n st mem a its = generate func n st mem a its.
Proof. exact @generate_any. Qed.
Print Assumptions C70_generate.
Example C70_generate_met : generateAny (fun _ => [1; 0]%nat) (fun s l => Ok (s + 1, fold_left Z.sub l s)%Z) 2 10%Z [0; 0; 1; 2; 3; 4]%Z 0 [2; 4]%Z = Ok (12, [6; 5; 1; 2; 3; 4])%Z.
Proof. reflexivity. Qed.

(** Transforming a sequence applies the function to each element, in place, in whichever order. *)
Theorem C70_transform : forall (A B : Type) (zero : B) order (f : A -> B) l, Permutation order (seq 0 (List.length l)) -> seqTransform zero order f l = Ok (map f l).
Proof. exact @seqTransform_any. Qed.
Print Assumptions C70_transform.
Example C70_transform_met : seqTransform 0%Z [2; 0; 1]%nat (Z.mul 2) [1; 2; 3]%Z = Ok [2; 4; 6]%Z.
Proof. reflexivity. Qed.

(** Serializing writes the arguments with a comma and a space in between. *)
Theorem C70_serialize : forall logger arg args, serialize logger arg args = logger ++ String.concat ", " (arg :: args).
Proof. exact serialize_concat. Qed.
Print Assumptions C70_serialize.
Example C70_serialize_met : serialize ">" "a" ["b"; "c"] = ">a, b, c".
Proof. reflexivity. Qed.
