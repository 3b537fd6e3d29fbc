(** Model of what a transform plan does for any logical shape, whether FFTW can plan it or not
    (LitlTransforms/LitlTransforms/Dft.h: 34-39, 146-200; DftPlan.h: 107-109, 218-221; DftMemory.h: 74-78). *)
From Verif Require Import Res VecModel DftModel.

Section Shape.
Context {V : Type}.
(** Whether FFTW's planner gives a plan of transform [t] of given dimensions; it otherwise returns NULL (FFTW's manual, Using Plans). *)
Variable planner : transform -> list Z -> bool.
(** What the plans of FFTW compute. *)
Variable fft : transform -> list Z -> list V -> list V.

(** createPlan (DftMemory.h: 74-78) and allocateFftwPlan (Dft.h: 146-200): the dimensions of the FFTW plan, or None for NULL, which is not tested.
    Simplification: the planner depends on the transform and dimensions only. *)
Definition fftwPlan (t : transform) (shape : list Z) : res (option (list Z)) :=
  dims <- planDims t shape ;; Ok (if planner t dims then Some dims else None).

(** transform() (DftPlan.h: 218-221) of a plan with buffers [inp] and [out]: the output buffer. FFTW reads the first elements of the input and
    writes the first ones of the output; its behaviour is undefined if the buffers have less elements, or if the plan is NULL.
    Simplification: buffers are distinct (see FlatDftModel for in-place plans); what is left in the input is not told (see [planTransform]). *)
Definition runTransform (t : transform) (shape : list Z) (inp out : list V) : res (list V) :=
  p <- fftwPlan t shape ;;
  match p with
  | None => UB
  | Some dims =>
      if (fftwIn t dims <=? Z.of_nat (length inp)) && (fftwOut t dims <=? Z.of_nat (length out))
      then Ok (fft t dims (firstn (Z.to_nat (fftwIn t dims)) inp) ++ skipn (Z.to_nat (fftwOut t dims)) out)
      else UB
  end.
End Shape.
