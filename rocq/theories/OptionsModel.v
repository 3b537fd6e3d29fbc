(** Model of ProgramOptions (LitlRun/LitlRun/ProgramOptions.h).
    The library wraps Boost.ProgramOptions: the semantics of what is called there is written out below from its documentation and sources,
    for options of scalar types without composing, multitoken or required semantics, which is what the templated methods declare.
    The lexical part (long and short forms, guessing) is not modelled: a command line is what the lexer makes of it, i.e. the sequence
    of the given options, each with its canonical name and its values, and of the positional arguments. *)
From Coq Require Import String.
From Verif Require Import Res.

Section Options.
(** Values, and how each declared option reads a token: None stands for a token which cannot be converted. *)
Context {V : Type}.

(** Declaration of one option: default_value and implicit_value. *)
Record option_desc := mkDesc { oname : string; odefault : option V; oimplicit : option V; oread : string -> option V }.

(** m_named, m_positional, m_variables and its set of final names. A variable is a value, possibly empty,
    and whether it is a default one. *)
Record options := mkOptions { onamed : list option_desc; opositional : list string; ovars : list (string * (option V * bool)); ofinal : list string }.

(** positional(name, description), without and with default value, named, flag (ProgramOptions.h: 57-113). *)
Definition newOptions : options := mkOptions [] [] [] [].
Definition declare (d : option_desc) (o : options) : options := mkOptions (onamed o ++ [d]) (opositional o) (ovars o) (ofinal o).
Definition declarePositional (d : option_desc) (o : options) : options :=
  mkOptions (onamed o ++ [d]) (opositional o ++ [oname d]) (ovars o) (ofinal o).

Fixpoint lookup {B : Type} (name : string) (l : list (string * B)) : option B :=
  match l with
  | [] => None
  | (n, b) :: l' => if String.eqb n name then Some b else lookup name l'
  end.
Definition findDesc (name : string) (l : list option_desc) : option option_desc := find (fun d => String.eqb (oname d) name) l.
Definition isFinal (name : string) (l : list string) : bool := existsb (String.eqb name) l.

(** One item of the command line, as lexed: an option and its values, or a positional argument. *)
Inductive item := Given (name : string) (values : list string) | Positional (value : string).

(** Names of the positional arguments (positional_options_description::name_for_position). Too many: an exception. Unknown names: an exception. *)
Fixpoint assign (named : list option_desc) (names : list string) (l : list item) : option (list (string * list string)) :=
  match l with
  | [] => Some []
  | Given n vs :: l' =>
      match findDesc n named, assign named names l' with
      | Some _, Some r => Some ((n, vs) :: r)
      | _, _ => None
      end
  | Positional v :: l' =>
      match names with
      | [] => None
      | n :: names' => match assign named names' l' with Some r => Some ((n, [v]) :: r) | None => None end
      end
  end.

(** typed_value::xparse: the implicit value without token; else validate, which needs one token and no previous value. *)
Definition readValue (d : option_desc) (previous : option V) (values : list string) : option V :=
  match values, oimplicit d with
  | [], Some v => Some v
  | [t], _ => match previous with Some _ => None | None => oread d t end
  | _, _ => None
  end.

(** First loop of boost::program_options::store: the given options, except those already final. Variables are stored one by one: the
    variable is created, or emptied if it has the default value, before the tokens are read, and remains so when an exception is thrown. *)
Fixpoint storeLoop (named : list option_desc) (final : list string) (l : list (string * list string)) (vars : list (string * (option V * bool))) (new : list string)
  : list (string * (option V * bool)) * option (list string) :=
  match l with
  | [] => (vars, Some new)
  | (n, vs) :: l' =>
      if isFinal n final then storeLoop named final l' vars new
      else match findDesc n named with
           | None => (vars, None)
           | Some d =>
               let previous := match lookup n vars with Some (v, false) => v | _ => None end in
               match readValue d previous vs with
               | None => ((n, (previous, false)) :: vars, None)
               | Some v => storeLoop named final l' ((n, (Some v, false)) :: vars) (n :: new)
               end
           end
  end.

(** Second loop of store: the default values. *)
Fixpoint storeDefaults (named : list option_desc) (vars : list (string * (option V * bool))) : list (string * (option V * bool)) :=
  match named with
  | [] => vars
  | d :: named' =>
      storeDefaults named' match lookup (oname d) vars, odefault d with None, Some v => (oname d, (Some v, true)) :: vars | _, _ => vars end
  end.

(** parse(argc, argv) (ProgramOptions.h: 125-130): the new state and whether an exception is thrown. *)
Definition parse (o : options) (l : list item) : options * bool :=
  match assign (onamed o) (opositional o) l with
  | None => (o, true)
  | Some given =>
      match storeLoop (onamed o) (ofinal o) given (ovars o) [] with
      | (vars, None) => (mkOptions (onamed o) (opositional o) vars (ofinal o), true)
      | (vars, Some new) => (mkOptions (onamed o) (opositional o) (storeDefaults (onamed o) vars) (new ++ ofinal o), false)
      end
  end.

(** parse(args) for texts (ProgramOptions.h: 142-156): the first word is the name of the program. *)
Definition parseWords (lex : list string -> list item) (o : options) (words : list string) : options * bool := parse o (lex (tl words)).

(** has(name) (ProgramOptions.h: 161-163). *)
Definition has (o : options) (name : string) : bool := match lookup name (ovars o) with Some _ => true | None => false end.

(** as<T>(name) (ProgramOptions.h: 170-173): None stands for an exception. *)
Definition as_ (o : options) (name : string) : option V := match lookup name (ovars o) with Some (v, _) => v | None => None end.

(** Several objects: m_add refers to the description of the object it was made for, and copying a ProgramOptions copies that reference
    (implicit copy constructor; ProgramOptions.h: 51-52, 184-187). Each object comes with the index of the object it adds to. *)
Definition store_ := list (options * nat).
Definition newObject (s : store_) : store_ := s ++ [(newOptions, length s)].
Definition copyObject (k : nat) (s : store_) : store_ := match nth_error s k with Some (o, a) => s ++ [(o, a)] | None => s end.
Definition declareIn (k : nat) (d : option_desc) (s : store_) : store_ :=
  match nth_error s k with
  | Some (_, a) => match nth_error s a with Some (o, b) => replace s a (declare d o, b) | None => s end
  | None => s
  end.
Definition parseIn (k : nat) (l : list item) (s : store_) : store_ * bool :=
  match nth_error s k with
  | Some (o, a) => let (o', e) := parse o l in (replace s k (o', a), e)
  | None => (s, true)
  end.
End Options.
Arguments option_desc : clear implicits.
Arguments options : clear implicits.
Arguments store_ : clear implicits.
