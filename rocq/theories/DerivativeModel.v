(** Model of the derivation in Fourier domain (doc/dft.dox: 487-512, LitlDemo/tests/src/LitlDemoDft_test.cpp). *)
From Coq Require Import Reals.
From Verif Require Import Res DftModel FourierSpec.
Open Scope Z_scope.

(** The loops over the coefficients, with counter [k] (LitlDemoDft_test.cpp: 43-46, 78-81): multiplication by std::complex<double>(0, k). *)
Fixpoint timesFrequency (k : Z) (l : list C) : list C :=
  match l with
  | [] => []
  | e :: l' => cmul e (0%R, IZR k) :: timesFrequency (k + 1) l'
  end.

Section Derivative.
Variable fft : transform -> list Z -> list C -> list C.

(** concise_derivative_test (lines 58-86), for any input. *)
Definition conciseDerivative (n : Z) (values gi go g gi' go' g' : list C) : res (list C) :=
  out <- dftFunction fft scaleC RealDft false [n] values gi go g ;;
  dftFunction fft scaleC InverseRealDft true [n] (timesFrequency 0 out) gi' go' g'.

(** verbose_derivative_test (lines 15-56), for any input: plans for the direct and inverse transforms. The result is in direct.in(). *)
Definition verboseDerivative (n : Z) (values gi go gi' go' g g' : list C) (h : list (list C)) : res (list C * list (list C)) :=
  direct <- planNew RealDft [n] None None gi go h ;;
  inverse <- planInverse (fst direct) gi' go' (snd direct) ;;
  h1 <- copyTo values (pin (fst direct)) (snd inverse) ;;
  let h2 := planTransform fft (fst direct) g h1 in
  let h3 := write h2 (pout (fst direct)) (timesFrequency 0 (content h2 (pout (fst direct)))) in
  h4 <- planNormalize scaleC (fst inverse) (planTransform fft (fst inverse) g' h3) ;;
  Ok (content h4 (pin (fst direct)), h4).
End Derivative.
