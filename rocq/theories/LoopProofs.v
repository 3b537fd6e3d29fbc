From Verif Require Import Res LoopModel.

Inductive Trace {S : Type} (atEnd : S -> bool) (next : S -> res S) : S -> list S -> Prop :=
| Trace_end : forall s, atEnd s = true -> Trace atEnd next s []
| Trace_step : forall s s' L, atEnd s = false -> next s = Ok s' -> Trace atEnd next s' L -> Trace atEnd next s (s :: L).

Lemma forLoop_S {S : Type} n (atEnd : S -> bool) next s :
  forLoop (Datatypes.S n) atEnd next s =
  if atEnd s then Some (Ok [])
  else match next s with
       | Ok s' => match forLoop n atEnd next s' with Some (Ok l) => Some (Ok (s :: l)) | r => r end
       | Throw x => Some (Throw x)
       | UB => Some UB
       end.
Proof. reflexivity. Qed.

Lemma Trace_forLoop {S : Type} (atEnd : S -> bool) next s L :
  Trace atEnd next s L -> forall fuel, (length L < fuel)%nat -> forLoop fuel atEnd next s = Some (Ok L).
Proof.
  induction 1 as [s He | s s' L He Hn HT IH]; intros [|fuel] Hf; cbn in Hf; try lia; rewrite forLoop_S, He; auto.
  rewrite Hn, IH by lia. reflexivity.
Qed.

Lemma forLoop_Trace {S : Type} (atEnd : S -> bool) next fuel s L :
  forLoop fuel atEnd next s = Some (Ok L) -> Trace atEnd next s L.
Proof.
  revert s L; induction fuel as [|fuel IH]; intros s L; [discriminate|]. rewrite forLoop_S.
  destruct (atEnd s) eqn:E; [intros [= <-]; now constructor|].
  destruct (next s) as [s'| |] eqn:En; try discriminate.
  destruct (forLoop fuel atEnd next s') as [[l| |]|] eqn:El; try discriminate.
  intros [= <-]. econstructor; eauto.
Qed.

(** No trace of any length: the loop never ends (nor throws, nor is undefined). *)
Lemma forLoop_never {S : Type} (I : S -> Prop) (atEnd : S -> bool) next :
  (forall s, I s -> atEnd s = false /\ exists s', next s = Ok s' /\ I s') ->
  forall fuel s, I s -> forLoop fuel atEnd next s = None.
Proof.
  intros H; induction fuel as [|fuel IH]; intros s Hs; auto.
  destruct (H s Hs) as (He & s' & Hn & Hs'). rewrite forLoop_S, He, Hn, IH; auto.
Qed.
