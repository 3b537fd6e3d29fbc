(** C47 and C48: noises. *)
From Coq Require Import QArith.
From Verif Require Import Res ArithModel ArithSpec RandomModel RandomSpec RandomProofs.
Open Scope Z_scope.

(** C47. Containers of positive values: the noisy value depends on the index, the seed and the value only; nothing else is changed. *)
Theorem C47_apply_partial : forall T E (engine : Z -> E) (poisson : T -> E -> E * T) positive mean seed st0 now n mem a,
  Allocated mem a n -> stableNew positive mean seed = Ok st0 ->
  (forall i x, 0 <= i < Z.of_nat n -> zget mem (a + i) = Ok x -> positive x = true) ->
  exists st' mem', apply (stableApply engine poisson positive now) n st0 mem a [] = Ok (st', mem') /\ Frame mem mem' a n /\
    forall i x, 0 <= i < Z.of_nat n -> zget mem (a + i) = Ok x -> zget mem' (a + i) = Ok (snd (poisson x (engine (seedAt seed (Z.to_nat i))))).
Proof. exact @stable_apply. Qed.
Print Assumptions C47_apply_partial.
Example C47_apply_met : exists st, apply (stableApply (fun s => s) (fun m e => (e, m + e mod 10)) (fun m => 0 <? m) (fun _ => 0)) 2 (1, O) [0; 100; 200; 0] 1 [] = Ok (st, [0; 101; 204; 0]) /\
  Allocated [0; 100; 200; 0] 1 2 /\ stableNew (fun m => 0 <? m) 5 0 = Ok (1, O).
Proof. eexists. split; [vm_compute; reflexivity|]. split; [|reflexivity]. split; cbn; lia. Qed.

(** Locality: whatever the other values, the sizes, the means and the clocks. *)
Theorem C47_local_partial : forall T E (engine : Z -> E) (poisson : T -> E -> E * T) positive seed mean mean' st0 st0' now now' n n' mem mem' a a' st1 st1' out out',
  Allocated mem a n -> Allocated mem' a' n' ->
  stableNew positive mean seed = Ok st0 -> stableNew positive mean' seed = Ok st0' ->
  (forall i x, 0 <= i < Z.of_nat n -> zget mem (a + i) = Ok x -> positive x = true) ->
  (forall i x, 0 <= i < Z.of_nat n' -> zget mem' (a' + i) = Ok x -> positive x = true) ->
  apply (stableApply engine poisson positive now) n st0 mem a [] = Ok (st1, out) ->
  apply (stableApply engine poisson positive now') n' st0' mem' a' [] = Ok (st1', out') ->
  forall i, 0 <= i < Z.of_nat n -> i < Z.of_nat n' -> zget mem (a + i) = zget mem' (a' + i) -> zget out (a + i) = zget out' (a' + i).
Proof. exact @stable_local. Qed.
Print Assumptions C47_local_partial.
Example C47_local_met : exists st st' x y z, 
  apply (stableApply (fun s => s) (fun m e => (e, m + e mod 10)) (fun m => 0 <? m) (fun _ => 0)) 2 (1, O) [100; 200] 0 [] = Ok (st, [x; y]) /\
  apply (stableApply (fun s => s) (fun m e => (e, m + e mod 10)) (fun m => 0 <? m) (fun _ => 9)) 2 (1, O) [150; 200] 0 [] = Ok (st', [z; y]) /\ x <> z.
Proof. do 5 eexists. split; [vm_compute; reflexivity|]. split; [vm_compute; reflexivity|]. discriminate. Qed.

(** The seeds are never that which stands for the current time. *)
Theorem C47_seeds : forall seed i, 0 <= seedAt seed i < 2147483647.
Proof. exact seed_range. Qed.
Print Assumptions C47_seeds.
Example C47_seeds_met : seedAt 0 1 = 182605794.
Proof. reflexivity. Qed.

(** Pixels have distinct seeds, whatever the global seed, in containers of less than 2^31 - 2 elements. *)
Theorem C47_distinct_seeds : forall seed i j, (i < j)%nat -> Z.of_nat j < Z.of_nat i + 2147483646 -> seedAt seed i <> seedAt seed j.
Proof. exact seedAt_distinct. Qed.
Print Assumptions C47_distinct_seeds.
Example C47_distinct_met : seedAt 7 0 = 337897 /\ seedAt 7 1 = 1278240558 /\ seedAt 7 2 = 449829614.
Proof. repeat split. Qed.

(** Values which are not positive, and the default mean, break the precondition of the standard distribution. *)
Theorem C47_zero_refuted : forall (E : Type) engine (poisson : Z -> E -> E * Z) now st, stableNew (fun m => 0 <? m) 0 0 = UB /\
  stableApply engine poisson (fun m => 0 <? m) now st [0] = UB.
Proof. exact stable_zero. Qed.
Print Assumptions C47_zero_refuted.

(** In contrast, the other Poisson noise is not local. *)
Theorem C47_contrast : exists (poisson : Z -> Z -> Z * Z) out out' st st',
  apply (poissonApply poisson (fun m => 0 <? m)) 2 7 [1; 5] 0 [] = Ok (st, out) /\
  apply (poissonApply poisson (fun m => 0 <? m)) 2 7 [2; 5] 0 [] = Ok (st', out') /\ zget out 1 <> zget out' 1.
Proof. exact poisson_not_local. Qed.
Print Assumptions C47_contrast.

(** C48. If the sum of the probabilities is less than one (up to the tolerance), they are those given, and the input is kept with the remaining one. *)
Theorem C48_low_partial : forall m, Forall (fun vp => 0 <= snd vp)%Q m -> (sumOfProbabilities m + tolerance m < 1)%Q ->
  exists ps, impulseDistribution m = Some ps /\ Forall2 Qeq ps (map snd m ++ [(1 - sumOfProbabilities m)%Q]).
Proof. exact impulse_low. Qed.
Print Assumptions C48_low_partial.
Example C48_low_met : exists ps, impulseDistribution [(0, (1 # 10)%Q); (255, (2 # 10)%Q)] = Some ps /\ Forall2 Qeq ps [(1 # 10)%Q; (2 # 10)%Q; (7 # 10)%Q].
Proof. eexists. split; [vm_compute; reflexivity|]. repeat apply Forall2_cons; try apply Forall2_nil; reflexivity. Qed.

(** Otherwise they are normalized, and the input is never kept. *)
Theorem C48_high : forall m, Forall (fun vp => 0 <= snd vp)%Q m -> Z.of_nat (length m) < 2 ^ 52 -> (1 <= sumOfProbabilities m + tolerance m)%Q ->
  (0 < sumOfProbabilities m)%Q /\ impulseDistribution m = Some (map (fun vp => snd vp / sumOfProbabilities m)%Q m).
Proof. exact impulse_high. Qed.
Print Assumptions C48_high.
Example C48_high_met : let m := [(0, (1 # 2)%Q); (255, 1%Q)] in (1 <= sumOfProbabilities m + tolerance m)%Q.
Proof. vm_compute. discriminate. Qed.

(** Between both, the probabilities are those given up to the tolerance. *)
Theorem C48_close : forall m v p, Forall (fun vp => 0 <= snd vp)%Q m -> Z.of_nat (length m) < 2 ^ 52 ->
  (1 <= sumOfProbabilities m + tolerance m)%Q -> (sumOfProbabilities m <= 1)%Q -> In (v, p) m -> (0 <= p / sumOfProbabilities m - p <= tolerance m)%Q.
Proof. exact impulse_close. Qed.
Print Assumptions C48_close.
Example C48_close_met : let m := [(0, (1 # 2)%Q); (255, (1 # 2)%Q)] in (sumOfProbabilities m <= 1)%Q.
Proof. vm_compute. discriminate. Qed.

(** The output is the value of the drawn index or the input. *)
Theorem C48_output : forall m ps index x, impulseDistribution m = Some ps -> (index < length ps)%nat ->
  (exists v p, nth_error m index = Some (v, p) /\ impulseApply m index x = v) \/
  (index = length m /\ length ps = S (length m) /\ impulseApply m index x = x).
Proof. exact impulse_output. Qed.
Print Assumptions C48_output.
Example C48_output_met : impulseApply [(0, (1 # 10)%Q); (255, (2 # 10)%Q)] 1 42 = 255 /\ impulseApply [(0, (1 # 10)%Q); (255, (2 # 10)%Q)] 2 42 = 42.
Proof. split; reflexivity. Qed.

Theorem C48_refuted : exists m, Forall (fun vp => 0 <= snd vp)%Q m /\ (sumOfProbabilities m < 1)%Q /\
  exists ps, impulseDistribution m = Some ps /\ forall index x, (index < length ps)%nat -> impulseApply m index x = 7.
Proof. exact impulse_refuted. Qed.
Print Assumptions C48_refuted.

(** Salt and pepper: if they are equal, the probability of pepper is ignored. *)
Theorem C48_salt_pepper : forall pS pP s p, saltAndPepper pS pP s p = if s <? p then [(s, pS); (p, pP)] else if s =? p then [(s, pS)] else [(p, pP); (s, pS)].
Proof. exact salt_pepper. Qed.
Print Assumptions C48_salt_pepper.
Example C48_salt_pepper_met : saltAndPepper (1 # 10) (2 # 10) 255 0 = [(0, (2 # 10)%Q); (255, (1 # 10)%Q)].
Proof. reflexivity. Qed.
