(** Specification of the chronometer. *)
From Verif Require Import Res ChronoModel.

(** The time of the last start of a history of calls, 0 (the epoch) if there is none. *)
Fixpoint lastStart (t : Z) (history : list call) : Z :=
  match history with
  | [] => t
  | Start now :: history' => lastStart now history'
  | _ :: history' => lastStart t history'
  end.

(** The increments of a history without reset which follows a start at [t]: those between each stop and the last start before it, truncated towards zero. *)
Fixpoint increments (u t : Z) (history : list call) : list Z :=
  match history with
  | [] => []
  | Start now :: history' => increments u now history'
  | Stop now :: history' => Z.quot (now - t) u :: increments u t history'
  | Reset _ :: history' => increments u t history'
  end.

Definition NoReset (history : list call) : Prop := forall o, ~ In (Reset o) history.

(** Alternate starts and stops at the given times. *)
Fixpoint alternate (times : list (Z * Z)) : list call :=
  match times with
  | [] => []
  | (a, b) :: times' => Start a :: Stop b :: alternate times'
  end.

(** The calls occur at increasing times. *)
Fixpoint Clock (t : Z) (history : list call) : Prop :=
  match history with
  | [] => True
  | Start now :: history' | Stop now :: history' => t <= now /\ Clock now history'
  | Reset _ :: history' => Clock t history'
  end.

Fixpoint sumZ (l : list Z) : Z := match l with [] => 0 | x :: l' => x + sumZ l' end.
Fixpoint sqsum (l : list Z) : Z := match l with [] => 0 | x :: l' => x * x + sqsum l' end.
