(** C71: program options. *)
From Coq Require Import String.
From Verif Require Import Res OptionsModel OptionsSpec OptionsProofs.
Open Scope string_scope.

(** After any number of command lines, the value of an option is the first one which was given, else its default value,
    and there is none before the first command line. *)
Theorem C71_value : forall (V : Type) (ds : list (option_desc V)) names ls o d, NoDup (map oname ds) -> In d ds -> Parses (declared ds names) ls o ->
  match firstGiven names ls (oname d) with
  | Some vs => exists v, meaning d vs = Some v /\ as_ o (oname d) = Some v /\ has o (oname d) = true
  | None => as_ o (oname d) = match ls with [] => None | _ => odefault d end /\
            has o (oname d) = match ls, odefault d with _ :: _, Some _ => true | _, _ => false end
  end.
Proof. exact @value_ok. Qed.
Print Assumptions C71_value.

Example C71_value_met : NoDup (map oname (onamed someOptions)) /\
  (exists o, Parses someOptions [[Positional "1"]; [Given "flag" []]] o /\ as_ o "pos" = Some 1 /\ as_ o "named" = Some 0 /\ as_ o "flag" = Some 1).
Proof.
  split; [repeat constructor; cbn; intuition discriminate|]. eexists. split; [eapply Parses_cons; [reflexivity|]; eapply Parses_cons; [reflexivity|]; apply Parses_nil|].
  repeat split.
Qed.

(** The first word, the name of the program, is not an argument. *)
Theorem C71_program_name : forall (V : Type) (lex : list string -> list item) (o : options V) name args,
  parseWords lex o (name :: args) = parse o (lex args).
Proof. exact @program_name. Qed.
Print Assumptions C71_program_name.
Example C71_program_name_met : snd (parseWords (map Positional) someOptions ["program"; "1"]) = false /\
  snd (parse someOptions [Positional "program"; Positional "1"]) = true.
Proof. split; reflexivity. Qed.

(** A first command line is accepted if its options are declared, with no more positional arguments than declared ones, each option is given at
    most once and the values can be read. *)
Theorem C71_accepted : forall (V : Type) (ds : list (option_desc V)) names l, NoDup (map oname ds) -> incl names (map oname ds) ->
  (forall n vs, In (Given n vs) l -> In n (map oname ds)) ->
  (List.length (filter (fun x => match x with Positional _ => true | _ => false end) l) <= List.length names)%nat ->
  (forall n, (List.length (occurrences names l n) <= 1)%nat) ->
  (forall d vs, In d ds -> In vs (occurrences names l (oname d)) -> meaning d vs <> None) ->
  exists o, parse (declared ds names) l = (o, false).
Proof. exact @parse_ok. Qed.
Print Assumptions C71_accepted.
Example C71_accepted_met : snd (parse someOptions [Given "named" ["2"]; Positional "1"]) = false /\ snd (parse someOptions [Given "other" ["2"]]) = true /\
  snd (parse someOptions [Positional "1"; Positional "2"]) = true.
Proof. repeat split. Qed.

(** An option which was not given is said to be set if it has a default value, for example a flag. *)
Theorem C71_has_refuted : exists o, Parses someOptions [[Positional "1"]] o /\ has o "flag" = true /\ has o "named" = true.
Proof. exact has_default. Qed.
Print Assumptions C71_has_refuted.

(** Parsing again does not change an option which was given. *)
Theorem C71_again_refuted : exists o, Parses someOptions [[Given "named" ["1"]]; [Given "named" ["2"]]] o /\ as_ o "named" = Some 1.
Proof. exact parse_again. Qed.
Print Assumptions C71_again_refuted.

(** A command line which throws leaves a trace: an option said to be set without value, a correct command line rejected afterwards. *)
Theorem C71_error_refuted :
  (let bad := parse someOptions [Given "named" ["a"]] in snd bad = true /\ has (fst bad) "named" = true /\
     let next := parse (fst bad) [] in snd next = false /\ as_ (fst next) "named" = None) /\
  (let bad := parse someOptions [Positional "1"; Given "named" ["a"]] in snd bad = true /\
     snd (parse (fst bad) [Positional "1"; Given "named" ["2"]]) = true /\ snd (parse someOptions [Positional "1"; Given "named" ["2"]]) = false).
Proof. exact error_trace. Qed.
Print Assumptions C71_error_refuted.

(** The options declared in a copy are added to the copied object. *)
Theorem C71_copy_refuted : let s := declareIn 1 namedOption (copyObject 0 (newObject [])) in
  snd (parseIn 1 [Given "named" ["1"]] s) = true /\ snd (parseIn 0 [Given "named" ["1"]] s) = false.
Proof. exact copy_adds. Qed.
Print Assumptions C71_copy_refuted.

(** Declarations make the options which [declared] describes: all of them, in order, the positional ones being those which are declared so. *)
Theorem C71_declarations : forall (V : Type) (l : list (bool * option_desc V)),
  declareAll l = declared (map snd l) (map (fun bd => oname (snd bd)) (filter fst l)).
Proof. exact @declare_all. Qed.
Print Assumptions C71_declarations.
Example C71_declarations_met : declareAll [(true, posOption); (false, namedOption); (false, flagOption)] = someOptions.
Proof. reflexivity. Qed.

(** In any history of several objects without copy, each object is what the operations done with it make of new options: objects do not interfere. *)
Theorem C71_objects_partial : forall (V : Type) (before after : list (oop V)), let s := fold_left ostep before [] in
  nth_error (fold_left ostep (before ++ ONew :: after) []) (length s) = Some (fold_left (only (length s)) after newOptions, length s).
Proof. exact @objects_apart. Qed.
Print Assumptions C71_objects_partial.
Example C71_objects_met : fold_left (only 1) [ODeclare 0 namedOption; ODeclare 1 flagOption; ONew; OParse 1 [Given "flag" ["1"]]] newOptions =
  fst (parse (declared [flagOption] []) [Given "flag" ["1"]]).
Proof. reflexivity. Qed.

(** A copy has the declarations and values of the copied object. From then on, parsing one of them, or any object, changes nothing else:
    its outcome is that of the parsed object alone. The second components are the objects which get the declarations, see C71_copy_refuted. *)
Theorem C71_copies_partial : forall (V : Type) (s : store_ V) k o a l, nth_error s k = Some (o, a) ->
  (nth_error (copyObject k s) (length s) = Some (o, a) /\ forall j, (j < length s)%nat -> nth_error (copyObject k s) j = nth_error s j) /\
  snd (parseIn k l s) = snd (parse o l) /\ nth_error (fst (parseIn k l s)) k = Some (fst (parse o l), a) /\
  length (fst (parseIn k l s)) = length s /\ forall j, j <> k -> nth_error (fst (parseIn k l s)) j = nth_error s j.
Proof. exact @copies_parse. Qed.
Print Assumptions C71_copies_partial.
Example C71_copies_met : let s := copyObject 0 (declareIn 0 flagOption (newObject [])) in
  nth_error s 1 = Some (declared [flagOption] [], 0%nat) /\ snd (parseIn 1 [Given "flag" ["1"]] s) = false /\ nth_error (fst (parseIn 1 [Given "flag" ["1"]] s)) 0 = nth_error s 0.
Proof. repeat split. Qed.
