(** Model of the texts of the library: exceptions (LitlTypes/LitlTypes/Exceptions.h) and serialization (LitlTypes/LitlTypes/SeqUtils.h). *)
From Coq Require Import String Ascii DecimalString.
From Verif Require Import Res FloatModel.
Open Scope string_scope.

(** Exception (Exceptions.h: 18-64). *)
Record exception := mkException { eprefix : string; emessage : string }.
Definition newException (prefix message : string) : exception := mkException prefix (prefix ++ ": " ++ message).

(** Exception(message) (Exceptions.h: 30). *)
Definition litlError (message : string) : exception := newException "Litl error" message.

(** what() (Exceptions.h: 43-45). *)
Definition what (e : exception) : string := emessage e.

(** append(line, indent) (Exceptions.h: 52-59). *)
Definition newline : string := String (ascii_of_nat 10) "".
Fixpoint indentLoop (message : string) (indent : nat) : string :=
  match indent with
  | O => message
  | S n => indentLoop (message ++ "  ") n
  end.
Definition appendLine (e : exception) (line : string) (indent : nat) : exception :=
  mkException (eprefix e) (indentLoop (emessage e ++ newline) indent ++ line).

(** std::to_string for integers (Exceptions.h: 101-106). *)
Definition toString (z : Z) : string := NilZero.string_of_int (Z.to_int z).

(** OutOfBoundsError(name, value, bounds) (Exceptions.h: 101-106). *)
Definition outOfBounds (name : string) (value lo hi : Z) : exception :=
  newException "Out of bounds error" (name ++ toString value ++ " not in [" ++ toString lo ++ ", " ++ toString hi ++ "]").

(** OutOfBoundsError::mayThrow (Exceptions.h: 112-116): the exception, if any. *)
Definition mayThrowBounds (name : string) (value lo hi : Z) : option exception :=
  if ((value <? lo) || (hi <? value))%Z then Some (outOfBounds name value lo hi) else None.

(** The same for doubles (Exceptions.h: 112-116), without the text. *)
Definition mayThrowDouble (value lo hi : double) : bool := dltb value lo || dltb hi value.

(** The exception of DataContainer::at(i) for a container of s elements (LitlContainer/LitlContainer/DataContainer.h: 111-112). *)
Definition atError (i s : Z) : option exception := mayThrowBounds ("Index " ++ toString i) i (- s) (s - 1).

(** SizeError (LitlContainer/LitlContainer/Holders.h: 18-28). *)
Definition sizeError (size ref : Z) : exception := newException "Size error" ("Expected " ++ toString ref ++ ", got " ++ toString size).

(** SizeError::mayThrow (Holders.h: 23-27): the exception, if any. The arguments are converted to std::size_t. *)
Definition mayThrowSize (size ref : Z) : option exception :=
  if (u64 size =? u64 ref)%Z then None else Some (sizeError (u64 size) (u64 ref)).

(** serialize(logger, args...) (SeqUtils.h: 212-217): what the logger receives, given the text of each argument. *)
Definition serialize (logger : string) (arg0 : string) (args : list string) : string :=
  fold_left (fun l a => (l ++ ", ") ++ a) args (logger ++ arg0).
