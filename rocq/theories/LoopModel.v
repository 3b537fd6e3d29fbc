(** The C++ loop [for (it = begin; it != end; ++it) visit(it)], for iterators whose increment is [next]. *)
From Verif Require Import Res.

(** The visited states; [None] if the fuel does not suffice. *)
Fixpoint forLoop {S : Type} (fuel : nat) (atEnd : S -> bool) (next : S -> res S) (s : S) : option (res (list S)) :=
  match fuel with
  | O => None
  | S fuel' =>
      if atEnd s then Some (Ok [])
      else match next s with
           | Ok s' =>
               match forLoop fuel' atEnd next s' with
               | Some (Ok l) => Some (Ok (s :: l))
               | r => r
               end
           | Throw x => Some (Throw x)
           | UB => Some UB
           end
  end.
