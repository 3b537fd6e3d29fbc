(** The unit tests of the library whose inputs and expected outputs are explicit, evaluated on the model.
    These are tests of the model, not properties: they tie the definitions to outputs which the authors wrote down.
    Random inputs are replaced with ramps. Each example cites its test case.
    Two tests contradict the code at this commit; what the model computes is shown, and proved in general by the theorems cited. *)
From Coq Require Import QArith Ascii String.
From Verif Require Import Res VecModel BoxModel RasterModel SubrasterModel ContainerModel ArithModel TypesModel DistModel SamplingModel BallModel
  LineKernelModel SeparableModel KernelModel MedianModel InterpModel PipelineModel ChronoModel DftModel Conv2dModel SeqModel TextModel OptionsModel.
Open Scope list_scope.
Open Scope Z_scope.

Definition ramp (front : Z) (n : nat) : list Z := map (fun i => front + Z.of_nat i) (seq 0 n).

(** * LitlContainer *)

(** DataContainer_test.cpp: stream_insertion_test. *)
Definition decimal (z : Z) : list ascii := lit (toString z).
Example stream_insertion_test :
  map (fun n => cprint decimal (ramp 0 n)) (seq 0 10) =
  map (fun s => Ok (lit s)) ["[]"; "[0]"; "[0, 1]"; "[0, 1, 2]"; "[0, 1, 2, 3]"; "[0, 1, 2, 3, 4]"; "[0, 1, 2, 3, 4, 5]"; "[0, 1, 2, 3, 4, 5, 6]";
    "[0, 1, 2 ... 5, 6, 7]"; "[0, 1, 2 ... 6, 7, 8]"]%string.
Proof. vm_compute. reflexivity. Qed.

(** DataDistribution_test.cpp: histogram_test (bins are doubled). *)
Example histogram_test : histogramSorted Z.ltb (map (Z.mul 2) (ramp 0 10)) [-20; -1; 0; 3; 8; 18; 24] = Ok [0; 0; 2; 2; 5; 1].
Proof. vm_compute. reflexivity. Qed.

(** Arithmetic_test.cpp: arithmetic_test, on other values. The result is after the operands. *)
Example arithmetic_test :
  let mem := [3; -4; 5; 2; 3; -2] in
  new2 opAdd 3 mem 0 3 = Ok (mem ++ [5; -1; 3]) /\ new2 opSub 3 mem 0 3 = Ok (mem ++ [1; -7; 7]) /\
  new2 opMul 3 mem 0 3 = Ok (mem ++ [6; -12; -10]) /\ new2 opDiv 3 mem 0 3 = Ok (mem ++ [1; -1; -2]) /\
  newRef opDiv 3 [3; -4; 5; 2] 0 3 = Ok [3; -4; 5; 2; 1; -2; 2].
Proof. vm_compute. repeat split. Qed.

(** * LitlRaster *)

(** Raster_test.cpp: index_test. *)
Example index_test :
  rindex 4 [14; 15; 92; 65] [3; 58; 97; 93] = Ok (3 + 14 * (58 + 15 * (97 + 92 * 93))) /\
  rindex (-1) [14; 15; 92; 65] [3; 58; 97; 93] = rindex 4 [14; 15; 92; 65] [3; 58; 97; 93].
Proof. vm_compute. split; reflexivity. Qed.

(** Raster_test.cpp: subscript_bounds_test, width 4 and height 3. *)
Definition bounds_raster : raster Z := mkRaster [4; 3] (ramp 10 12).
Example subscript_bounds_test :
  ratSet 2 bounds_raster [1; -1] 1 = Ok (mkRaster [4; 3] (ramp 10 9 ++ [1; 20; 21])) /\
  rat 2 bounds_raster [0; 0] = zget (rdata bounds_raster) 0 /\ rat 2 bounds_raster [-1; 0] = zget (rdata bounds_raster) 3 /\
  rat 2 bounds_raster [-4; 0] = zget (rdata bounds_raster) 0 /\ rat 2 bounds_raster [0; -1] = zget (rdata bounds_raster) 8 /\
  rat 2 bounds_raster [-1; -1] = zget (rdata bounds_raster) 11 /\
  rat 2 bounds_raster [4; 0] = Throw EOutOfBounds /\ rat 2 bounds_raster [-5; 0] = Throw EOutOfBounds /\
  rat 2 bounds_raster [0; 3] = Throw EOutOfBounds /\ rat 2 bounds_raster [0; -4] = Throw EOutOfBounds.
Proof. vm_compute. repeat split. Qed.

(** Raster_test.cpp: slicing_test, shape 5 x 3 x 4. *)
Example slicing_test :
  slice 3 3 [5; 3; 4] (mkBox [0; 0; 1] [4; 2; 2]) = Ok (mkView [5; 3; 2] 15) /\
  slice 3 2 [5; 3; 4] (mkBox [0; 0; 1] [4; 2; 1]) = Ok (mkView [5; 3] 15) /\
  slice 3 2 [5; 3; 4] (mkBox [0; 1; 1] [4; 2; 1]) = Ok (mkView [5; 2] 20) /\
  slice 3 1 [5; 3; 4] (mkBox [1; 1; 1] [3; 1; 1]) = Ok (mkView [3] 21) /\
  isContiguous 3 [5; 3; 4] (mkBox [1; 1; 1] [2; 2; 2]) = Ok false /\
  (exists e, slice 3 3 [5; 3; 4] (mkBox [1; 1; 1] [2; 2; 2]) = Throw e).
Proof. vm_compute. repeat split. eexists. reflexivity. Qed.

(** Raster_test.cpp: sectionning_test, shape 8 x 9 x 12. *)
Example sectionning_test :
  section2 3 [8; 9; 12] 3 5 = Ok (mkView [8; 9; 3] (3 * 72)) /\ section1 3 [8; 9; 12] 3 = Ok (mkView [8; 9] (3 * 72)) /\
  section1 2 [8; 9] 6 = Ok (mkView [8] (6 * 8)) /\ section1 1 [8] 2 = Ok (mkView [] 2).
Proof. vm_compute. repeat split. Qed.

(** Subraster_test.cpp: singleton_subraster_test. *)
Example singleton_subraster_test :
  subSize (mkBox [1; 2; 3] [1; 2; 3]) = 1 /\
  subGet 3 (mkRaster [3; 4; 5] (ramp 0 60)) (mkBox [1; 2; 3] [1; 2; 3]) [0; 0; 0] = rget 3 (mkRaster [3; 4; 5] (ramp 0 60)) [1; 2; 3].
Proof. vm_compute. split; reflexivity. Qed.

(** SubrasterIterator_test.cpp: inner_cube_iterator_test. *)
Example inner_cube_iterator_test :
  match boxForeach 100 (mkBox [1; 1; 1] [2; 3; 4]), subForeach 100 3 [4; 5; 6] (mkBox [1; 1; 1] [2; 3; 4]) with
  | Some (Ok ps), Some (Ok is_) => length ps = 24%nat /\ mapRes (rget 3 (mkRaster [4; 5; 6] (ramp 0 120))) ps = mapRes (zget (ramp 0 120)) is_
  | _, _ => False
  end.
Proof. vm_compute. split; reflexivity. Qed.

(** BoxIterator_test.cpp: domain_is_screened_in_order_test. *)
Example domain_is_screened_in_order_test :
  match rdomain 5 [2; 3; 4; 5; 6] with
  | Ok d => match boxForeach 1000 d with Some (Ok ps) => mapRes (rindex 5 [2; 3; 4; 5; 6]) ps = Ok (ramp 0 720) | _ => False end
  | _ => False
  end.
Proof. vm_compute. reflexivity. Qed.

(** BoxIterator_test.cpp: box_is_screened_in_order_test. *)
Fixpoint increasing (current : Z) (l : list Z) : bool :=
  match l with [] => true | x :: l' => (current <? x) && increasing x l' end.
Example box_is_screened_in_order_test :
  match boxForeach 1000 (mkBox [1; 1; 1; 1] [1; 2; 3; 4]) with
  | Some (Ok ps) =>
      match mapRes (rindex 4 [3; 4; 5; 6]) ps with
      | Ok is_ => increasing 0 is_ = true /\ Z.of_nat (length is_) = boxSize (mkBox [1; 1; 1; 1] [1; 2; 3; 4])
      | _ => False
      end
  | _ => False
  end.
Proof. vm_compute. split; reflexivity. Qed.

(** Box_test.cpp: ctors_test, shift_test. *)
Example box_ctors_test : boxShape (mkBox (vone 7) [2; 8; 6; 1; 9; 8; 9]) = [2; 8; 6; 1; 9; 8; 9] /\
  bback (fromShape (vone 7) [2; 8; 6; 1; 9; 8; 9]) = [2; 8; 6; 1; 9; 8; 9].
Proof. vm_compute. split; reflexivity. Qed.
Example box_shift_test : let region := mkBox [1; 2; 3] [4; 5; 6] in
  let shifted := boxShift region (vsubs (boxShape region) 1) in boxShape shifted = boxShape region /\ bfront shifted = bback region.
Proof. vm_compute. split; reflexivity. Qed.

(** Box_test.cpp: surrounding_test: the box of 4 x 3 positions grown by 5 x 3. *)
Definition positionIn (l : list (list Z)) (p : list Z) : bool := existsb (veqb p) l.
Example surrounding_test :
  let central := fromShape [1; 1] [4; 3] in let margin := mkBox [-3; -2] [2; 1] in
  match surround central margin, boxForeach 100 (boxGrow central margin), boxForeach 100 central with
  | Ok chunks, Some (Ok all), Some (Ok inner) =>
      let outer := flat_map (fun b => match boxForeach 100 b with Some (Ok ps) => ps | _ => [] end) chunks in
      Z.of_nat (length all) = boxSize (boxGrow central margin) /\
      forallb (positionIn all) (inner ++ outer) = true /\ forallb (positionIn (inner ++ outer)) all = true
  | _, _, _ => False
  end.
Proof. vm_compute. repeat split. Qed.

(** Vector_test.cpp: arithmetics_test. *)
Example vector_arithmetics_test :
  vadd [0; 1; 2; 3] [0; 1; 2; 3] = [0; 2; 4; 6] /\ vsub [0; 2; 4; 6] [0; 1; 2; 3] = [0; 1; 2; 3] /\
  newRef opMul 4 [0; 1; 2; 3; 2] 0 4 = Ok [0; 1; 2; 3; 2; 0; 2; 4; 6] /\ newRef opDiv 4 [0; 2; 4; 6; 2] 0 4 = Ok [0; 2; 4; 6; 2; 0; 1; 2; 3] /\
  vadds [0; 1; 2; 3] 1 = [1; 2; 3; 4] /\ vsubs [1; 2; 3; 4] 1 = [0; 1; 2; 3].
Proof. vm_compute. repeat split. Qed.

(** Ball_test.cpp: properties_test. *)
Example ball_properties_test : let b := mkBall (23 # 10) [1; 2; 3] in
  ballLength b = 5 /\ ballBox b = fromCenter 2 [1; 2; 3].
Proof. vm_compute. split; reflexivity. Qed.

(** BallIterator_test.cpp: l1_test and l2_test. *)
Definition l1 (p : list Z) : Z := match p with [x; y; z] => Z.abs (x - 1) + Z.abs (y - 2) + Z.abs (z - 3) | _ => -1 end.
Definition l2 (p : list Z) : Z := match p with [x; y; z] => (x - 1) * (x - 1) + (y - 2) * (y - 2) + (z - 3) * (z - 3) | _ => -1 end.
Example ball_iterator_test :
  match boxForeach 200 (fromCenter 2 [1; 2; 3]) with
  | Some (Ok ps) => ballForeach 200 1 (mkBall 2 [1; 2; 3]) = Some (Ok (filter (fun p => l1 p <=? 2) ps)) /\
                    ballForeach 200 2 (mkBall 2 [1; 2; 3]) = Some (Ok (filter (fun p => l2 p <=? 4) ps))
  | _ => False
  end.
Proof. vm_compute. split; reflexivity. Qed.

(** Sampling_test.cpp: index_sampling_test. *)
Example index_sampling_test :
  map (fun s => (ssize s, sforeach 10 s)) [mkSampling 0 1 1; mkSampling (-1) 0 1; mkSampling 0 1 2; mkSampling 1 6 2] =
  [(Ok 2, Some (Ok [0; 1])); (Ok 2, Some (Ok [-1; 0])); (Ok 1, Some (Ok [0])); (Ok 3, Some (Ok [1; 3; 5]))].
Proof. vm_compute. reflexivity. Qed.

(** Sampling_test.cpp: data_sample_test compares size() to the number of samples, and iterates over the samples.
    At this commit, size() is that of the data, and the iteration is bounded by it (C29): e.g. testDataSamples(30, 1, 6, 2, 3). *)
Example data_sample_contradicted : let d := dsMake 0 30 (mkSampling 1 6 2) 3 in
  dsCount d = Ok 3 /\ dSize d = 30 /\ dsForeach 30 (ramp 0 30) d = Some UB.
Proof. vm_compute. repeat split. Qed.

(** * LitlTransforms *)

(** Convolution_test.cpp: the kernels, hence the outputs, are doubled. standard_convolve1d_test. *)
Example standard_convolve1d_test :
  correlate 50 (mkLkernel [1; 2; 3] 1) (ramp 1 11) (dsMake 0 11 (mkSampling 0 indexInf 1) 1) (repeat 0 11) (dsMake 0 11 (mkSampling 0 indexInf 1) 1) =
  Some (Ok (map (Z.mul 2) [4; 7; 10; 13; 16; 19; 22; 25; 28; 31; 16])).
Proof. vm_compute. reflexivity. Qed.

(** steped_convolve1d_test and strided_convolve1d_test. *)
Definition transposePad (stride : nat) (l : list Z) : list Z := flat_map (fun x => x :: repeat 0 (stride - 1)) l.
Definition steppedExpected : list Z := [2; 4; 17; 8; 52; 12; 88; 16; 124; 20; 130; 24].
Example steped_convolve1d_test :
  correlate 50 (mkLkernel [1; 2; 3; 4; 2] 3) (ramp 1 14) (dsMake 0 14 (mkSampling 1 indexInf 3) 1)
    (map (Z.mul 2) (ramp 1 12)) (dsMake 0 12 (mkSampling 2 indexInf 2) 1) = Some (Ok steppedExpected).
Proof. vm_compute. reflexivity. Qed.
Example strided_convolve1d_test :
  correlate 50 (mkLkernel [1; 2; 3; 4; 2] 3) (transposePad 2 (ramp 1 14)) (dsMake 0 14 (mkSampling 1 indexInf 3) 2)
    (transposePad 3 (map (Z.mul 2) (ramp 1 12))) (dsMake 0 12 (mkSampling 2 indexInf 2) 3) = Some (Ok (transposePad 3 steppedExpected)).
Proof. vm_compute. reflexivity. Qed.

(** convolve1d_along_test: the sum of the kernel times the value, but at the borders. *)
Definition alongExpected (axis : nat) : list Z :=
  flat_map (fun z => flat_map (fun y => map (fun x =>
    let i := nth axis [x; y; z] 0 in let length := nth axis [4; 3; 5] 0 in
    60 - (if i =? 0 then 10 else 0) - (if i =? length - 1 then 30 else 0)) (ramp 0 4)) (ramp 0 3)) (ramp 0 5).
Example convolve1d_along_test :
  map (fun axis => correlateAlong 100 3 (mkLkernel [1; 2; 3] 1) (Z.of_nat axis) (mkRaster [4; 3; 5] (repeat 10 60))) [0; 1; 2]%nat =
  map (fun axis => Some (Ok (mkRaster [4; 3; 5] (alongExpected axis)))) [0; 1; 2]%nat.
Proof. vm_compute. reflexivity. Qed.

(** SeparableKernel_test.cpp: sum_kernel_test, make_sobel_test, associativity_commutativity_test. *)
Example sum_kernel_test : sapply 100 3 (salong (mkLkernel [1; 1; 1] 1) [0; 1; 2]) (mkRaster [3; 3; 3] (repeat 1 27)) =
  Some (Ok (mkRaster [3; 3; 3] [8; 12; 8; 12; 18; 12; 8; 12; 8; 12; 18; 12; 18; 27; 18; 12; 18; 12; 8; 12; 8; 12; 18; 12; 8; 12; 8])).
Proof. vm_compute. reflexivity. Qed.
Example make_sobel_test :
  sapply 100 3 (sobel 1 0 [1]) (mkRaster [3; 3; 3] (repeat 1 27)) =
    Some (Ok (mkRaster [3; 3; 3] (concat (repeat [-3; 0; 3; -4; 0; 4; -3; 0; 3] 3)))) /\
  sapply 100 3 (sobel 1 1 [0]) (mkRaster [3; 3; 3] (repeat 1 27)) =
    Some (Ok (mkRaster [3; 3; 3] (concat (repeat [-3; -4; -3; 0; 0; 0; 3; 4; 3] 3)))).
Proof. vm_compute. split; reflexivity. Qed.
Example associativity_commutativity_test :
  let a := salong (mkLkernel [1; 0; -1] 1) [0] in let b := salong (mkLkernel [1; 2; 3] 1) [1] in let r := mkRaster [3; 3; 3] (ramp 0 27) in
  (exists d, sapply 100 3 (scombine a b) r = Some (Ok d)) /\ sapply 100 3 (scombine b a) r = sapply 100 3 (scombine a b) r.
Proof. vm_compute. split; [eexists|]; reflexivity. Qed.

(** Kernel_test.cpp: coverage_test. *)
Example coverage_test :
  match kernelize 2 (mkRaster [3; 3] (repeat 1 9)) with
  | Ok k => kernelApply 100 2 k (mkRaster [4; 3] (repeat 1 12)) (constantAt 2 0 (mkRaster [4; 3] (repeat 1 12))) =
            Some (Ok (mkRaster [4; 3] [4; 6; 6; 4; 6; 9; 9; 6; 4; 6; 6; 4]))
  | _ => False
  end.
Proof. vm_compute. reflexivity. Qed.

(** Interpolation_test.cpp. *)
Example constant_nn_test : let r := mkRaster [2; 2; 2] (repeat 1 8) in
  constantAt 3 0 r [-1; -1; -1] = Ok 0 /\ nearestInterp (rget 3 r) [1 # 2; 1 # 2; 1 # 2] = Ok 1 /\
  nearestInterp (constantAt 3 0 r) [1 # 2; 1 # 2; 1 # 2] = Ok 1 /\ rindex 3 [2; 2; 2] [-1; -1; -1] = Ok (-7).
Proof. vm_compute. repeat split. Qed.
Example periodic_test : let r := mkRaster [2; 2; 2] (ramp 1 8) in
  periodicAt 3 r [-1; -1; -1] = Ok 8 /\ periodicAt 3 r [2; 3; 4] = rget 3 r [0; 1; 0].
Proof. vm_compute. split; reflexivity. Qed.
Definition qraster (shape : list Z) (n : nat) : raster Q := mkRaster shape (map inject_Z (ramp 1 n)).
Definition qvalue (r : res Q) (q : Q) : Prop := match r with Ok v => (v == q)%Q | _ => False end.
Example linear_test : qvalue (linearAt (rget 3 (qraster [2; 2; 2] 8)) [1 # 2; 1 # 2; 1 # 2]) (9 # 2).
Proof. vm_compute. reflexivity. Qed.
Example cubic_test : qvalue (cubicAt (rget 3 (qraster [4; 4; 4] 64)) [3 # 2; 3 # 2; 3 # 2]) (65 # 2).
Proof. vm_compute. reflexivity. Qed.

(** LitlDemo/tests/src/LitlDemoInterpolation_test.cpp: extrapolate_interpolate_test. *)
Example extrapolate_interpolate_test : let r := mkRaster [2; 2] (ramp 1 4) in
  constantAt 2 0 r [-1; -1] = Ok 0 /\ nearestAt 2 r [-1; -1] = Ok 1 /\ nearestInterp (rget 2 r) [1 # 2; 1 # 2] = cat (rdata r) (-1) /\
  qvalue (linearAt (constantAt 2 0%Q (qraster [2; 2] 4)) [1 # 2; 1 # 2]) (5 # 2).
Proof. vm_compute. repeat split. Qed.

(** LitlDemo/tests/src/LitlDemoBasics_test.cpp: rasterIota and element_access_test. *)
Example element_access_test : let r := mkRaster [4; 3; 2] (ramp 0 24) in
  rget 3 r [2; 1; 0] = Ok 6 /\ zget (rdata r) 6 = Ok 6 /\ rget 3 r [2; 2; 0] = Ok 10 /\ rat 3 r [-2; -1; 0] = Ok 10.
Proof. vm_compute. repeat split. Qed.

(** SeparableKernel_test.cpp: composition_test expects [1; 0; -1; 2; 0; -2; 1; 0; -1]:
    compose() mirrors the kernel at this commit (C38). *)
Example composition_contradicted :
  match compose 100 (sobel 1 0 [1]) with Some (Ok (_, values)) => values = rev [1; 0; -1; 2; 0; -2; 1; 0; -1] | _ => False end.
Proof. vm_compute. reflexivity. Qed.

(** Dft_test.cpp: shapes of the buffers. *)
Example dft_shapes_test : dftInShape RealDft [5; 6] = Ok [5; 6] /\ dftOutShape RealDft [5; 6] = Ok [3; 6] /\
  dftInShape InverseRealDft [5; 6] = Ok [3; 6] /\ dftOutShape InverseRealDft [5; 6] = Ok [5; 6] /\
  dftInShape ComplexDft [3; 6] = Ok [3; 6] /\ dftOutShape InverseComplexDft [3; 6] = Ok [3; 6].
Proof. vm_compute. repeat split. Qed.

(** * LitlTypes *)

(** Exceptions_test.cpp: message_test: the output holds the prefix, and then the message. *)
Example message_test : exists between, what (litlError "MESSAGE!") = ("Litl" ++ between ++ "MESSAGE!")%string.
Proof. exists " error: "%string. vm_compute. reflexivity. Qed.

(** * LitlRun *)

(** StepperPipeline_test.cpp: back_and_forth_test. The state is m_value and the values of the four steps;
    steps 0, 1, 2, 3 are Step0, Step1a, Step1b, Step2. *)
Definition dag (s : nat) : list nat := match s with O => [] | 3%nat => [1; 2]%nat | _ => [0%nat] end.
Definition dagEvaluate (s : nat) (d : Z * list Z) : (Z * list Z) * option Q := ((fst d + 1, replace (snd d) s (fst d + 1)), Some 1%Q).
Definition dagGet (s : nat) (d : Z * list Z) : (Z * list Z) * option Z := (d, nth_error (snd d) s).
Definition dagNew : @pipe (Z * list Z) := mkPipe (0, [0; 0; 0; 0]) [] [].
Definition dagRun (ss : list nat) := option_map (fun r => (snd (data (fst r)), snd r)) (gets dag dagEvaluate dagGet 5 ss dagNew).
Example back_and_forth_test :
  map (milliseconds dagNew) [0; 1; 2; 3]%nat = [-1; -1; -1; -1]%Q /\
  dagRun [1]%nat = Some ([1; 2; 0; 0], [Some 2]) /\
  dagRun [1; 0]%nat = Some ([1; 2; 0; 0], [Some 2; Some 1]) /\
  dagRun [1; 0; 3]%nat = Some ([1; 2; 3; 4], [Some 2; Some 1; Some 4]).
Proof. vm_compute. repeat split. Qed.
Example all_in_one_test : dagRun [3]%nat = Some ([1; 2; 3; 4], [Some 4]).
Proof. vm_compute. reflexivity. Qed.

(** Chronometer_test.cpp: one_inc_test and two_incs_test, with an offset of 1000 and waits of 10 and 100. *)
Example chronometer_test :
  let c0 := cnew 1000 in
  let c1 := performAll 1 c0 [Start 5; Stop 15] in
  let c2 := performAll 1 c1 [Start 20; Stop 120] in
  elapsed c0 = 1000 /\ running c0 = false /\ ccount c0 = 0 /\
  running (performAll 1 c0 [Start 5]) = true /\ running c1 = false /\ ccount c1 = 1 /\ clast c1 = Ok 10 /\ elapsed c1 = 1010 /\
  ChronoModel.cmin c1 = Ok 10 /\ ChronoModel.cmax c1 = Ok 10 /\
  ccount c2 = 2 /\ container c2 = [10; 100] /\ elapsed c2 = 1110 /\ ChronoModel.cmin c2 = Ok 10 /\ ChronoModel.cmax c2 = Ok 100.
Proof. vm_compute. repeat split. Qed.

(** ProgramOptions_test.cpp. Tokens are digits; flags have the default value 0 and the implicit value 1. *)
Open Scope string_scope.
Definition digit (s : string) : option Z := match s with "0" => Some 0 | "1" => Some 1 | "2" => Some 2 | "3" => Some 3 | _ => None end.
Definition opt (name : string) (default implicit : option Z) : @option_desc Z := mkDesc name default implicit digit.
Definition testOptions : @options Z :=
  declare (opt "flag-short" (Some 0) (Some 1)) (declare (opt "flag" (Some 0) (Some 1)) (declare (opt "named-default" (Some 0) None)
    (declare (opt "named-short" None None) (declare (opt "named" None None)
      (declarePositional (opt "positional-default" (Some 0) None) (declarePositional (opt "positional" None None) newOptions)))))).
Example options_positional_test :
  let once := fst (parse testOptions [Positional "1"]) in let twice := fst (parse once [Positional "1"; Positional "2"]) in
  as_ once "positional" = Some 1 /\ as_ once "positional-default" = Some 0 /\
  as_ twice "positional" = Some 1 /\ as_ twice "positional-default" = Some 2.
Proof. vm_compute. repeat split. Qed.
Example options_named_test :
  let once := fst (parse testOptions [Given "named" ["1"]; Given "named-short" ["2"]]) in let twice := fst (parse once [Given "named-default" ["3"]]) in
  as_ once "named" = Some 1 /\ as_ once "named-short" = Some 2 /\ as_ once "named-default" = Some 0 /\ as_ twice "named-default" = Some 3.
Proof. vm_compute. repeat split. Qed.
Example options_flag_test :
  let once := fst (parse testOptions []) in let twice := fst (parse once [Given "flag" []]) in let thrice := fst (parse twice [Given "flag-short" []]) in
  as_ once "flag" = Some 0 /\ as_ once "flag-short" = Some 0 /\ as_ twice "flag" = Some 1 /\ as_ thrice "flag-short" = Some 1.
Proof. vm_compute. repeat split. Qed.
Example options_bad_test : snd (parse testOptions [Given "bad" ["0"]]) = true /\ snd (parse testOptions [Given "named" []]) = true.
Proof. vm_compute. split; reflexivity. Qed.
