(** The pixels of rasters which hold an array, and of views on them. *)
From Verif Require Import Res Lemmas VecModel ArithModel ArrOwnModel ArrOwnSpec ArrOwnProofs ChannelProofs.
Open Scope Z_scope.

Lemma arr_pixels {A} (s : astate A) i o l : Living s i o -> apixels s i = Ok l ->
  Z.of_nat (length l) = Z.max 0 (asize (aholds o)) /\ forall k, 0 <= k < Z.of_nat (length l) -> areadAt s i k = zget l k.
Proof.
  intros L. unfold apixels, areadAt. rewrite (proj1 (living_raster s i o) L). destruct o as [n sh [c|t off m]]; cbn [aholds asize].
  - intros [= <-]. split; [lia|]. reflexivity.
  - destruct (cellsOf s t) as [c| |]; cbn [bind]; try discriminate. intros E. apply zgetN_elements in E as (E1 & E2). split; [lia|]. intros k Hk. symmetry. apply E2. lia.
Qed.
