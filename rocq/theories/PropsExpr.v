(** Property C75: formulae of containers and scalars, and generate() and apply(). *)
From Verif Require Import Res ArithModel TypesModel WidthModel WidthSpec ExprModel ExprSpec ArithSpec ExprProofs.

(** C75. A formula leaves its operands, and all what was in memory, unchanged;
    each pixel of the result is the formula applied to the pixels of the operands. *)
Theorem C75_formula : forall A (op : bop -> A -> A -> res A) n operands e mem,
  Operands mem n operands -> Closed (length operands) e ->
  (forall i xs, 0 <= i < Z.of_nat n -> PixelsAt mem operands i xs -> exists z, evalPixel op e xs = Ok z) ->
  exists l a, evalFormula op n operands e mem = Ok (mem ++ l, a) /\ Allocated (mem ++ l) a n /\
    forall i xs, 0 <= i < Z.of_nat n -> PixelsAt mem operands i xs -> zget (mem ++ l) (a + i) = evalPixel op e xs.
Proof. exact @formula_spec. Qed.
Print Assumptions C75_formula.

(** For pixel types which are closed under the operators, generate() with the same formula on pixels gives the same pixels,
    and changes nothing else. *)
Theorem C75_generate : forall A (op : bop -> A -> A -> res A) n operands e mem r,
  Allocated mem r n -> Operands mem n operands -> Closed (length operands) e ->
  Forall (fun b => r <= b \/ Apart r n b n) operands ->
  (forall i xs, 0 <= i < Z.of_nat n -> PixelsAt mem operands i xs -> exists z, evalPixel op e xs = Ok z) ->
  exists l a mem', evalFormula op n operands e mem = Ok (mem ++ l, a) /\ generateFormula op (fun z => z) n operands e mem r = Ok mem' /\
    Frame mem mem' r n /\
    forall i, 0 <= i < Z.of_nat n -> exists xs z, PixelsAt mem operands i xs /\ evalPixel op e xs = Ok z /\
      zget (mem ++ l) (a + i) = Ok z /\ zget mem' (r + i) = Ok z.
Proof. exact @formula_generate. Qed.
Print Assumptions C75_generate.

(** apply() is generate() of the container from itself and the other operands. *)
Theorem C75_apply : forall A (op : bop -> A -> A -> res A) conv n a operands e mem,
  Operands mem n (a :: operands) -> Forall (fun b => a <= b \/ Apart a n b n) operands ->
  (forall i xs, 0 <= i < Z.of_nat n -> PixelsAt mem (a :: operands) i xs -> exists z, evalPixel op e xs = Ok z) ->
  exists mem', applyFormula op conv n a operands e mem = Ok mem' /\ Frame mem mem' a n /\
    forall i xs, 0 <= i < Z.of_nat n -> PixelsAt mem (a :: operands) i xs ->
      zget mem' (a + i) = (z <- evalPixel op e xs ;; Ok (conv z)).
Proof.
  exact (fun A op conv n a operands e mem O H D => generate_formula op conv n (a :: operands) e mem a (Forall_inv O) O
    (Forall_cons a (or_introl (Z.le_refl a)) H) D).
Qed.
Print Assumptions C75_apply.

(** Integral types: where generate() is defined, the formula is, too, and they give the same pixels, if the type has at least 32 bits,
    or at most 15 (16 if signed) and the formula is made of sums, differences and products.
    Missing: the other narrow types and operators, for which it is false. *)
Theorem C75_integral_partial : forall t n operands e mem r, Wf t -> (32 <= ibits t \/ NeverOverflows t /\ Ring e) ->
  Allocated mem r n -> Operands mem n operands -> Closed (length operands) e -> Scalars t e ->
  Forall (fun a => Typed t mem a n) operands -> Forall (fun b => r <= b \/ Apart r n b n) operands ->
  (forall i xs, 0 <= i < Z.of_nat n -> PixelsAt mem operands i xs -> exists z, evalPixel (promotedOp t) e xs = Ok z) ->
  exists l a mem', narrowFormula t n operands e mem = Ok (mem ++ l, a) /\ narrowGenerate t n operands e mem r = Ok mem' /\
    Frame mem mem' r n /\
    forall i, 0 <= i < Z.of_nat n -> exists w, zget (mem ++ l) (a + i) = Ok w /\ zget mem' (r + i) = Ok w.
Proof. exact integral_formula. Qed.
Print Assumptions C75_integral_partial.

(** a * 2 / 3 for unsigned char pixels: 200 becomes 48 by the formula, and 133 by generate().
    (a - 2) * 65535 for unsigned short pixels: 1 becomes 1 by generate(), and the formula is undefined. *)
Theorem C75_integral_refuted :
  (exists t e mem, Wf t /\ Typed t mem 0 1 /\ Closed 1 e /\ Scalars t e /\
    narrowFormula t 1 [0] e mem = Ok (mem ++ [144; 48], 3) /\ narrowGenerate t 1 [0] e mem 1 = Ok [200; 133]) /\
  (exists t e mem, Wf t /\ Typed t mem 0 1 /\ Closed 1 e /\ Scalars t e /\ Ring e /\
    narrowFormula t 1 [0] e mem = UB /\ narrowGenerate t 1 [0] e mem 1 = Ok [1; 1]).
Proof.
  split.
  - exists (mkItype false 8), (BinS Div (BinS Mul (Pix 0) 2) 3), [200; 0]. split; [left; cbn; lia|].
    split; [intros i x Hi Hx; replace i with 0 in Hx by lia; injection Hx as <-; split; cbn; lia|].
    split; [cbn; lia|]. split; [repeat split; cbn; lia|]. split; reflexivity.
  - exists (mkItype false 16), (BinS Mul (BinS Sub (Pix 0) 2) 65535), [1; 0]. split; [left; cbn; lia|].
    split; [intros i x Hi Hx; replace i with 0 in Hx by lia; injection Hx as <-; split; cbn; lia|].
    split; [cbn; lia|]. split; [repeat split; cbn; lia|]. split; [repeat split|]. split; reflexivity.
Qed.
Print Assumptions C75_integral_refuted.

(** a * k + b, with a at 0, b at 3, and the result at 6. *)
Example C75_met :
  let op := fun o => match o with Add => opAdd | Sub => opSub | Mul => opMul | Div => opDiv | Mod => opMod end in
  let e := Bin Add (BinS Mul (Pix 0) 2) (Pix 1) in let mem := [1; 2; 3; 10; 20; 30; 0; 0; 0] in
  Operands mem 3 [0; 3] /\ Closed 2 e /\ PixelsAt mem [0; 3] 1 [2; 20] /\ evalPixel op e [2; 20] = Ok 24 /\
  evalFormula op 3 [0; 3] e mem = Ok (mem ++ [2; 4; 6; 12; 24; 36], 12) /\
  generateFormula op (fun z => z) 3 [0; 3] e mem 6 = Ok [1; 2; 3; 10; 20; 30; 12; 24; 36] /\
  applyFormula op (fun z => z) 3 0 [3] e mem = Ok [12; 24; 36; 10; 20; 30; 0; 0; 0] /\
  narrowFormula (mkItype false 8) 1 [0; 1] e [200; 100; 0] = Ok ([200; 100; 0] ++ [144; 244], 4) /\
  narrowGenerate (mkItype false 8) 1 [0; 1] e [200; 100; 0] 2 = Ok [200; 100; 244].
Proof.
  cbv zeta. split; [repeat constructor; cbn; lia|]. split; [cbn; lia|]. split; [repeat constructor|]. repeat split.
Qed.
