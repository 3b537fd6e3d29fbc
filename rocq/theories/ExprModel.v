(** Model of formulae made of containers and scalars, e.g. a * k + b, and of their replacement by generate() and apply()
    (doc/pixelwise.dox, LitlDemo/tests/src/LitlDemoPixelwise_test.cpp: 76-98). *)
From Verif Require Import Res ArithModel TypesModel WidthModel.

(** A formula: the [k]-th operand, an operator between two formulae, an operator between a formula and a scalar. *)
Inductive expr (A : Type) :=
| Pix (k : nat)
| Bin (o : bop) (e1 e2 : expr A)
| BinS (o : bop) (e : expr A) (s : A).
Arguments Pix {A} k.
Arguments Bin {A} o e1 e2.
Arguments BinS {A} o e s.

Section Expr.
Context {A : Type}.
Variable op : bop -> A -> A -> res A.

(** The evaluation of the formula: each operator makes a new container, after those which are already in memory
    (boost::operators: V op U is a copy of V, and then op=). The result is the memory and the address of the container.
    Simplification: temporaries are not destroyed, and their memory is not used again. *)
Fixpoint evalFormula (n : nat) (operands : list Z) (e : expr A) (mem : list A) : res (list A * Z) :=
  match e with
  | Pix k => match nth_error operands k with Some a => Ok (mem, a) | None => UB end
  | Bin o e1 e2 =>
      r1 <- evalFormula n operands e1 mem ;;
      r2 <- evalFormula n operands e2 (fst r1) ;;
      m <- new2 (op o) n (fst r2) (snd r1) (snd r2) ;;
      Ok (m, Z.of_nat (length (fst r2)))
  | BinS o e1 s =>
      r1 <- evalFormula n operands e1 mem ;;
      m <- new1 (fun x => op o x s) n (fst r1) (snd r1) ;;
      Ok (m, Z.of_nat (length (fst r1)))
  end.

(** The same formula on one pixel, i.e. the body of [](auto e, auto f) { return e * k + f; }. *)
Fixpoint evalPixel (e : expr A) (xs : list A) : res A :=
  match e with
  | Pix k => match nth_error xs k with Some x => Ok x | None => UB end
  | Bin o e1 e2 => x <- evalPixel e1 xs ;; y <- evalPixel e2 xs ;; op o x y
  | BinS o e1 s => x <- evalPixel e1 xs ;; op o x s
  end.

(** res.generate(lambda, operands...) (DataContainer.h: 186-194), where [conv] is the conversion to the pixel type. *)
Definition generateFormula (conv : A -> A) (n : nat) (operands : list Z) (e : expr A) (mem : list A) (r : Z) : res (list A) :=
  s <- generate (fun (_ : unit) xs => z <- evalPixel e xs ;; Ok (tt, conv z)) n tt mem r operands ;; Ok (snd s).

(** a.apply(lambda, b...), where a is the first operand (DataContainer.h: 211-214). *)
Definition applyFormula (conv : A -> A) (n : nat) (a : Z) (operands : list Z) (e : expr A) (mem : list A) : res (list A) :=
  s <- apply (fun (_ : unit) xs => z <- evalPixel e xs ;; Ok (tt, conv z)) n tt mem a operands ;; Ok (snd s).
End Expr.

(** For a type which is closed under the operators (double, int, std::complex...), there is no conversion. Otherwise, for narrow
    integral types, the formula converts to the pixel type after each operator, and the lambda only when it returns. *)
Definition narrowFormula (t : itype) := evalFormula (widthOp t).
Definition narrowGenerate (t : itype) := generateFormula (promotedOp t) (convert t).
