(** Increments of samples. *)
From Verif Require Import Res SamplingModel SamplingProofs.
Open Scope Z_scope.

Lemma increments conv d : conv 1 = 1 ->
  dData (fst (dsIncr conv d)) = dData d + 1 /\ dData (snd (dsIncr conv d)) = dData d + 1 /\
  dData (snd (dsPostIncr conv d)) = dData d /\ dData (fst (dsPostIncr conv d)) = dData d + 1.
Proof. intros H. split; [cbn; now rewrite H|]. exact (dsPostIncr_spec conv d H). Qed.
