(** C61: the pixels of views. *)
From Verif Require Import Res Lemmas VecModel RasterModel ArithModel OwnModel OwnSpec OwnProofs.

Lemma zgetN_part {A} (mem : list A) n : forall a l j m, zgetN n mem a = Ok l -> (j + m <= length l)%nat -> zgetN m mem (a + Z.of_nat j) = Ok (firstn m (skipn j l)).
Proof.
  induction n as [|n IH]; intros a l j m H L; cbn [zgetN] in H.
  - injection H as <-. cbn [length] in L. replace m with O by lia. reflexivity.
  - destruct (zget mem a) as [x| |] eqn:E; cbn [bind] in H; try discriminate. destruct (zgetN n mem (a + 1)) as [t| |] eqn:Et; cbn [bind] in H; try discriminate.
    injection H as <-. cbn [length] in L. destruct j as [|j].
    + destruct m as [|m]; [reflexivity|]. cbn [skipn firstn zgetN]. rewrite Z.add_0_r, E. cbn [bind]. specialize (IH (a + 1) t O m Et ltac:(lia)).
      rewrite Z.add_0_r in IH. rewrite IH. reflexivity.
    + cbn [skipn]. rewrite <- (IH (a + 1) t j m Et ltac:(lia)). f_equal. lia.
Qed.

Lemma view_pixels {A} (zero : A) s i o l offset n shape : Alive s i o -> pixels s (oholder o) = Ok l -> wellTyped n shape = true ->
  0 <= offset -> 0 <= shapeSize shape -> offset + shapeSize shape <= Z.of_nat (length l) ->
  exists s' p, step zero s (OView i offset n shape) = Some (Ok s') /\ Alive s' (length (objs s)) p /\
    pixels s' (oholder p) = Ok (firstn (Z.to_nat (shapeSize shape)) (skipn (Z.to_nat offset) l)).
Proof.
  intros Hi Hl W H0 H1 H2. cbn [step]. rewrite (proj2 (obj_alive s i o) Hi), W. eexists _, _. split; [reflexivity|]. split; [apply nth_app_here|].
  unfold pixels in *. destruct (hsize s (oholder o)) as [k| |]; cbn [bind] in Hl; try discriminate.
  cbn [newView oholder hsize hblock hoffset bind]. change (block (newView s o offset n shape)) with (block s).
  destruct (block s (hblock (oholder o))) as [m| |]; cbn [bind] in Hl |- *; try discriminate.
  rewrite <- (zgetN_part m (Z.to_nat k) _ l (Z.to_nat offset) (Z.to_nat (shapeSize shape)) Hl ltac:(lia)). f_equal. lia.
Qed.
