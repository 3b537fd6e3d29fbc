(** Proofs that interpolation is undefined at the positions which do not fit in Index. *)
From Coq Require Import Reals Lra.
From Flocq Require Import Core IEEE754.BinarySingleNaN.
From Verif Require Import Res FloatModel FloatSpec FloatProofs.
Open Scope R_scope.

Lemma dtrunc_outcome x : dtrunc x = UB \/ exists z, dtrunc x = Ok z.
Proof.
  destruct x as [s|s| |s m e B]; cbn [dtrunc]; try (left; reflexivity); [right; now exists 0%Z|].
  cbv zeta. unfold chk64. destruct (_ && _)%bool; [right; eexists; reflexivity|left; reflexivity].
Qed.

Lemma dtrunc_undefined x : ~ Finite x \/ pow2 63 < Rabs (real x) -> dtrunc x = UB.
Proof.
  intros H. destruct (dtrunc_outcome x) as [E|(z & E)]; [exact E|]. destruct (dtrunc_bounded x z E) as [F B]. unfold Finite, real in H. destruct H as [H|H]; [now destruct H|lra].
Qed.

Lemma dfloor_outcome x : dfloor x = UB \/ exists z, dfloor x = Ok z.
Proof.
  unfold dfloor. destruct (dtrunc_outcome x) as [->|(z & ->)]; cbn [bind]; [now left|].
  unfold chk64. destruct (_ && _)%bool; [right; eexists; reflexivity|left; reflexivity].
Qed.

Lemma dfloor_undefined x : ~ Finite x \/ pow2 63 < Rabs (real x) -> dfloor x = UB.
Proof. intros H. unfold dfloor. now rewrite dtrunc_undefined. Qed.

Lemma dlinearRec_undefined get rpos : forall ind, Exists (fun x => ~ Finite x \/ pow2 63 < Rabs (real x)) rpos -> dlinearRec get rpos ind = UB.
Proof.
  induction rpos as [|x rpos IH]; intros ind H; [inversion H|]. cbn [dlinearRec]. destruct (dfloor_outcome x) as [->|(f & E)]; [reflexivity|]. rewrite E. cbn [bind].
  inversion H as [? ? Hx|? ? Hx]; subst; [now rewrite dfloor_undefined in E|]. destruct rpos as [|y rpos]; [inversion Hx|]. now rewrite IH.
Qed.

Theorem linear_undefined get pos : Exists (fun x => ~ Finite x \/ pow2 63 < Rabs (real x)) pos -> dlinearAt get pos = UB.
Proof. intros H. apply dlinearRec_undefined. apply Exists_exists in H. destruct H as (x & I & H). apply Exists_exists. exists x. split; [now apply in_rev in I|exact H]. Qed.

Lemma dcubicRec_undefined get rpos : forall ind, Exists (fun x => ~ Finite x \/ pow2 63 < Rabs (real x)) rpos -> dcubicRec get rpos ind = UB.
Proof.
  induction rpos as [|x rpos IH]; intros ind H; [inversion H|]. cbn [dcubicRec]. destruct (dfloor_outcome x) as [->|(f & E)]; [reflexivity|]. rewrite E. cbn [bind].
  inversion H as [? ? Hx|? ? Hx]; subst; [now rewrite dfloor_undefined in E|]. destruct rpos as [|y rpos]; [inversion Hx|]. now rewrite IH.
Qed.

Theorem cubic_undefined get pos : Exists (fun x => ~ Finite x \/ pow2 63 < Rabs (real x)) pos -> dcubicAt get pos = UB.
Proof. intros H. apply dcubicRec_undefined. apply Exists_exists in H. destruct H as (x & I & H). apply Exists_exists. exists x. split; [now apply in_rev in I|exact H]. Qed.

Theorem nearest_undefined x : ~ Finite x -> dnearest x = UB.
Proof.
  intros H. unfold dnearest. apply dtrunc_undefined. left. intros F. apply H. unfold Finite in *.
  assert (Y : is_finite (dlit 1 (-1)) = true) by (vm_compute; reflexivity). revert F Y. generalize (dlit 1 (-1)). intros y F Y.
  destruct x as [s'|s'| |s' m' e' B']; try reflexivity; destruct y; cbn in F, Y; discriminate.
Qed.
