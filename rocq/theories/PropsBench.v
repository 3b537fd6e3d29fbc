(** C58: the ways of iterating over rasters. *)
From Verif Require Import Res BenchModel BenchProofs.

(** C58. Nested loops over coordinates in both orders, iterations over positions, indices and values, operators and generate()
    give the same raster, whatever it contained, for non-empty rasters... *)
Theorem C58_same_partial : forall A (op : A -> A -> A) w h d da db dc, 0 < w -> 0 < h -> 0 < d ->
  Z.of_nat (length da) = w * h * d -> length db = length da -> length dc = length da ->
  let sum := map (fun p => op (fst p) (snd p)) (combine da db) in
  loopOverXyz op w h d da db dc = Ok sum /\
  loopOverZyx op w h d da db dc = Ok sum /\
  (exists enough, forall fuel, (enough <= fuel)%nat ->
    iterateOverPositions op w h d da db fuel dc = Some (Ok sum) /\ iterateOverPositionsOptimized op w h d da db fuel dc = Some (Ok sum)) /\
  loopOverIndices op da db dc = Ok sum /\
  iterateOverValues op da db dc = Ok sum /\
  callOperator op da db dc = Ok sum /\
  callGenerate op da db dc = Ok sum.
Proof. exact @bench_props. Qed.
Print Assumptions C58_same_partial.
Example C58_same_met : loopOverXyz Z.add 3 1 2 [1; 2; 3; 4; 5; 6] [10; 20; 30; 40; 50; 60] [0; 0; 0; 0; 0; 0] = Ok [11; 22; 33; 44; 55; 66] /\
  iterateOverPositions Z.add 3 1 2 [1; 2; 3; 4; 5; 6] [10; 20; 30; 40; 50; 60] 7 [0; 0; 0; 0; 0; 0] = Some (Ok [11; 22; 33; 44; 55; 66]).
Proof. split; reflexivity. Qed.

(** ... but iterations over the positions of empty rasters never end. *)
Theorem C58_empty_refuted : forall A (op : A -> A -> A), 
  loopOverXyz op 0 0 0 [] [] [] = Ok [] /\ loopOverZyx op 0 0 0 [] [] [] = Ok [] /\
  loopOverIndices op [] [] [] = Ok [] /\ iterateOverValues op [] [] [] = Ok [] /\ callOperator op [] [] [] = Ok [] /\ callGenerate op [] [] [] = Ok [] /\
  forall fuel, iterateOverPositions op 0 0 0 [] [] fuel [] = None /\ iterateOverPositionsOptimized op 0 0 0 [] [] fuel [] = None.
Proof. exact @bench_empty. Qed.
Print Assumptions C58_empty_refuted.
