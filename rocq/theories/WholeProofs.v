(** C31: boxes made with inf(). *)
From Verif Require Import Res VecModel BoxModel Spec BoxSpec Lemmas IndexProofs BoxIterProofs BoxGeomProofs.

Lemma whole_empty n : n <> 0 -> (forall p, ~ InBox (wholeBox n) p) /\ forall fuel, boxForeach fuel (wholeBox n) = None.
Proof.
  intros Hn. unfold wholeBox, vzero, vinf. destruct (tplDim n) as [|d] eqn:E; [unfold tplDim in E; lia|]. cbn [repeat].
  assert (H : forall p, ~ InBox (mkBox (0 :: repeat 0 d) (- indexInf :: repeat (- indexInf) d)) p).
  { intros p H. unfold InBox in H. cbn [bfront bback] in H. destruct p as [|x p]; [inversion H|]. apply Between_cons_iff in H. unfold indexInf in H. lia. }
  split; [exact H|]. apply never_ends; cbn [bfront bback].
  - discriminate.
  - cbn [length]. now rewrite !repeat_length.
  - intros (p & P). exact (H p P).
Qed.
