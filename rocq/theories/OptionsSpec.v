(** What a history of command lines gives to an option. *)
From Coq Require Import String.
From Verif Require Import Res OptionsModel.

Section Spec.
Context {V : Type}.

(** The values given to an option by a command line, occurrence by occurrence, where the positional arguments go to the given names in order. *)
Fixpoint occurrences (names : list string) (l : list item) (name : string) : list (list string) :=
  match l with
  | [] => []
  | Given n vs :: l' => if String.eqb n name then vs :: occurrences names l' name else occurrences names l' name
  | Positional v :: l' =>
      match names with
      | [] => occurrences [] l' name
      | n :: names' => if String.eqb n name then [v] :: occurrences names' l' name else occurrences names' l' name
      end
  end.

(** What an occurrence means for an option. *)
Definition meaning (d : option_desc V) (values : list string) : option V :=
  match values with
  | [] => oimplicit d
  | [t] => oread d t
  | _ => None
  end.

(** The last occurrence of the first command line with an occurrence. *)
Fixpoint firstGiven (names : list string) (ls : list (list item)) (name : string) : option (list string) :=
  match ls with
  | [] => None
  | l :: ls' => match occurrences names l name with [] => firstGiven names ls' name | o :: os => Some (last (o :: os) []) end
  end.

(** Command lines parsed one after the other, none of which throws. *)
Inductive Parses : options V -> list (list item) -> options V -> Prop :=
| Parses_nil o : Parses o [] o
| Parses_cons o o' o'' l ls : parse o l = (o', false) -> Parses o' ls o'' -> Parses o (l :: ls) o''.

(** Fresh options with given declarations, the positional ones being in order. *)
Definition declared (ds : list (option_desc V)) (names : list string) : options V := mkOptions ds names [] [].

(** Declarations, in order: each with whether it is positional. *)
Definition declareAll (l : list (bool * option_desc V)) : options V :=
  fold_left (fun o bd => if fst bd : bool then declarePositional (snd bd) o else declare (snd bd) o) l newOptions.

(** What is done with several objects, except copying them; and what is done with one of them. *)
Inductive oop := ONew | ODeclare (k : nat) (d : option_desc V) | OParse (k : nat) (l : list item).
Definition ostep (s : store_ V) (a : oop) : store_ V :=
  match a with ONew => newObject s | ODeclare k d => declareIn k d s | OParse k l => fst (parseIn k l s) end.
Definition only (k : nat) (o : options V) (a : oop) : options V :=
  match a with
  | ONew => o
  | ODeclare j d => if Nat.eqb j k then declare d o else o
  | OParse j l => if Nat.eqb j k then fst (parse o l) else o
  end.
End Spec.
Arguments oop : clear implicits.

(** Options of the examples. *)
Open Scope string_scope.
Definition digit (t : string) : option Z := if String.eqb t "0" then Some 0 else if String.eqb t "1" then Some 1 else if String.eqb t "2" then Some 2 else None.
Definition posOption := mkDesc "pos" None None digit.
Definition namedOption := mkDesc "named" (Some 0) None digit.
Definition flagOption := mkDesc "flag" (Some 0) (Some 1) digit.
Definition someOptions := declared [posOption; namedOption; flagOption] ["pos"].

