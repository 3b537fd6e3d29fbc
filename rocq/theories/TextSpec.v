(** Lines of a text. *)
From Coq Require Import String Ascii DecimalString.
From Verif Require Import Res.
Open Scope string_scope.

Fixpoint lines (s : string) : list string :=
  match s with
  | "" => [""]
  | String c s' =>
      if Ascii.eqb c (ascii_of_nat 10) then "" :: lines s'
      else match lines s' with
           | l :: ls => String c l :: ls
           | [] => [String c ""]
           end
  end.

(** A text on one line. *)
Definition OneLine (s : string) : Prop := lines s = [s].

(** n spaces. *)
Fixpoint spaces (n : nat) : string := match n with O => "" | S k => String " " (spaces k) end.

(** The text is the decimal writing of an integer. *)
Definition Denotes (s : string) (z : Z) : Prop := option_map Z.of_int (NilZero.int_of_string s) = Some z.
