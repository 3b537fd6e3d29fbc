From Coq Require Import String Ascii DecimalString Reals.
From Flocq Require Import IEEE754.BinarySingleNaN.
From Coq Require Import DecimalString DecimalPos DecimalZ.
From Verif Require Import Res FloatModel FloatSpec TextModel TextSpec FloatProofs.
Open Scope string_scope.

Lemma app_assoc_s (a b c : string) : (a ++ b) ++ c = a ++ (b ++ c).
Proof. induction a as [|x a IH]; cbn [String.append]; [reflexivity|now rewrite IH]. Qed.

Lemma lines_nonempty s : lines s <> [].
Proof. destruct s as [|c s]; cbn [lines]; [discriminate|]. destruct (Ascii.eqb c _); [discriminate|]. destruct (lines s); discriminate. Qed.

(** Lines of a text followed by a line *)
Lemma lines_app_newline a b : lines (a ++ newline ++ b) = (lines a ++ lines b)%list.
Proof.
  induction a as [|c a IH]; [reflexivity|]. cbn [String.append lines]. rewrite IH. destruct (Ascii.eqb c (ascii_of_nat 10)); [reflexivity|].
  destruct (lines a) as [|l ls] eqn:E; [destruct (lines_nonempty a E)|]. reflexivity.
Qed.

Lemma lines_app_one a b : OneLine a -> OneLine b -> OneLine (a ++ b).
Proof.
  unfold OneLine. intros Ha Hb. induction a as [|c a IH]; [exact Hb|]. cbn [lines String.append] in *.
  destruct (Ascii.eqb c (ascii_of_nat 10)); [discriminate|]. destruct (lines a) as [|l ls] eqn:E; [destruct (lines_nonempty a E)|].
  injection Ha as -> ->. rewrite (IH eq_refl). reflexivity.
Qed.

Lemma lines_spaces n : OneLine (spaces n).
Proof. induction n as [|n IH]; [reflexivity|]. unfold OneLine in *. cbn [spaces lines]. replace (Ascii.eqb " " (ascii_of_nat 10)) with false by reflexivity. now rewrite IH. Qed.

Lemma indentLoop_spec n : forall m, indentLoop m n = m ++ spaces (2 * n).
Proof.
  induction n as [|n IH]; intros m; cbn [indentLoop].
  - cbn [Nat.mul spaces]. now induction m as [|c m IHm]; cbn [String.append]; [|rewrite <- IHm].
  - rewrite IH. rewrite app_assoc_s. f_equal. replace (2 * S n)%nat with (S (S (2 * n))) by lia. reflexivity.
Qed.

Lemma appendLine_lines e line indent : OneLine line -> lines (what (appendLine e line indent)) = (lines (what e) ++ [(spaces (2 * indent) ++ line)%string])%list.
Proof.
  intros H. unfold what, appendLine. cbn [emessage]. rewrite indentLoop_spec, !app_assoc_s, lines_app_newline. f_equal. apply lines_app_one; [apply lines_spaces|exact H].
Qed.

Theorem message_lines prefix message l : OneLine prefix -> OneLine message -> Forall (fun x => OneLine (fst x)) l ->
  lines (what (fold_left (fun e x => appendLine e (fst x) (snd x)) l (newException prefix message))) =
  (prefix ++ ": " ++ message) :: map (fun x => spaces (2 * snd x) ++ fst x) l.
Proof.
  intros Hp Hm H. assert (G : forall l e ls, Forall (fun x => OneLine (fst x)) l -> lines (what e) = ls ->
    lines (what (fold_left (fun e x => appendLine e (fst x) (snd x)) l e)) = (ls ++ map (fun x => (spaces (2 * snd x) ++ fst x)%string) l)%list).
  { clear. induction l as [|[line n] l IH]; intros e ls F E; cbn [fold_left map fst snd]; [now rewrite app_nil_r|].
    apply Forall_cons_iff in F. destruct F as [F1 F]. cbn [fst] in F1. rewrite (IH _ _ F (appendLine_lines e line n F1)), E. rewrite <- app_assoc. reflexivity. }
  rewrite (G l (newException prefix message) [prefix ++ ": " ++ message] H); [reflexivity|]. apply lines_app_one; [exact Hp|]. apply lines_app_one; [reflexivity|exact Hm].
Qed.

(** Bounds *)
Theorem bounds_ok name v lo hi : ((lo <= v <= hi)%Z -> mayThrowBounds name v lo hi = None) /\ ((v < lo \/ hi < v)%Z -> mayThrowBounds name v lo hi = Some (outOfBounds name v lo hi)).
Proof. unfold mayThrowBounds. split; intros H; [replace ((v <? lo) || (hi <? v))%Z with false by lia|replace ((v <? lo) || (hi <? v))%Z with true by lia]; reflexivity. Qed.

(** Numbers *)
Lemma toString_denotes z : Denotes (toString z) z.
Proof.
  unfold Denotes, toString. rewrite NilZero.isi.
  - cbn [option_map]. now rewrite DecimalZ.of_to.
  - destruct z as [|q|q]; cbn; [discriminate| |discriminate]. intros E. injection E as E. exact (DecimalPos.Unsigned.to_uint_nonnil q E).
  - destruct z as [|q|q]; cbn; [discriminate|discriminate|]. intros E. injection E as E. exact (DecimalPos.Unsigned.to_uint_nonnil q E).
Qed.

Lemma size_ok size ref : (u64 size = u64 ref -> mayThrowSize size ref = None) /\
  (u64 size <> u64 ref -> exists e a b, mayThrowSize size ref = Some e /\ what e = "Size error: Expected " ++ a ++ ", got " ++ b /\ Denotes a (u64 ref) /\ Denotes b (u64 size)).
Proof.
  unfold mayThrowSize. destruct (Z.eqb_spec (u64 size) (u64 ref)) as [E|E]; split; intros H; try reflexivity; try contradiction.
  eexists _, _, _. split; [reflexivity|]. split; [reflexivity|]. split; apply toString_denotes.
Qed.

Lemma bounds_text name value lo hi e : mayThrowBounds name value lo hi = Some e ->
  exists v a b, what e = "Out of bounds error: " ++ name ++ v ++ " not in [" ++ a ++ ", " ++ b ++ "]" /\ Denotes v value /\ Denotes a lo /\ Denotes b hi.
Proof.
  unfold mayThrowBounds. destruct (_ || _)%bool; [|discriminate]. intros E. injection E as <-.
  eexists _, _, _. split; [reflexivity|]. repeat split; apply toString_denotes.
Qed.

Lemma dltb_spec x y : Finite x -> Finite y -> (dltb x y = true <-> (real x < real y)%R).
Proof.
  intros Fx Fy. unfold dltb. rewrite (Bcompare_correct 53 1024 x y Fx Fy). unfold real. destruct (Raux.Rcompare_spec (B2R x) (B2R y)) as [H|H|H].
  - tauto.
  - split; [discriminate|]. rewrite H. intros L. destruct (Rlt_irrefl _ L).
  - split; [discriminate|]. intros L. destruct (Rlt_asym _ _ L H).
Qed.

Theorem double_bounds_ok v lo hi : Finite v -> Finite lo -> Finite hi -> (mayThrowDouble v lo hi = false <-> (real lo <= real v <= real hi)%R).
Proof.
  intros Fv Fl Fh. unfold mayThrowDouble. assert (A := dltb_spec v lo Fv Fl). assert (B := dltb_spec hi v Fh Fv).
  destruct (dltb v lo), (dltb hi v); cbn [orb]; split; intros H; try discriminate; auto.
  - destruct H as [H _]. destruct (Rlt_irrefl (real v)). apply Rlt_le_trans with (real lo); tauto.
  - destruct H as [H _]. destruct (Rlt_irrefl (real v)). apply Rlt_le_trans with (real lo); tauto.
  - destruct H as [_ H]. destruct (Rlt_irrefl (real v)). apply Rle_lt_trans with (real hi); tauto.
  - split; apply Rnot_lt_le; intros L; [destruct A as [_ A]; discriminate (A L)|destruct B as [_ B]; discriminate (B L)].
Qed.

(** Serialization *)
Theorem serialize_concat logger arg0 args : serialize logger arg0 args = logger ++ String.concat ", " (arg0 :: args).
Proof.
  unfold serialize. assert (G : forall args acc, fold_left (fun l a => (l ++ ", ") ++ a) args acc = acc ++ fold_right (fun a s => ", " ++ a ++ s) "" args).
  { clear. induction args as [|a args IH]; intros acc; cbn [fold_left fold_right].
    - now induction acc as [|c acc IHa]; cbn [String.append]; [|rewrite <- IHa].
    - rewrite IH, !app_assoc_s. reflexivity. }
  rewrite G, app_assoc_s. f_equal. clear. revert arg0. induction args as [|a args IH]; intros arg0; cbn [fold_right String.concat].
  - now induction arg0 as [|c arg0 IHa]; cbn [String.append]; [|rewrite IHa].
  - rewrite IH. reflexivity.
Qed.

Lemma nan_accepted : exists value : double, is_nan value = true /\ forall lo hi, mayThrowDouble value lo hi = false.
Proof. exists B754_nan. split; [reflexivity|]. intros lo hi. unfold mayThrowDouble, dltb. destruct lo, hi; reflexivity. Qed.

Lemma form_wrong : what (outOfBounds "x" 3 0 2) = "Out of bounds error: x3 not in [0, 2]" /\
  option_map what (atError 5 3) = Some "Out of bounds error: Index 55 not in [-3, 2]".
Proof. split; reflexivity. Qed.
