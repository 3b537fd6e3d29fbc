(** What a user needs to know about the samplings of the sparse correlation with Kernel1d (C63). *)
From Verif Require Import Res SamplingModel.

(** The samples front, front + step, ... up to back of a line of [size] elements suit a kernel of [length] values and of origin [o] when:
    the line is long enough for the kernel, the step is not too long for the line, no sample before the forward border is after back,
    and no sample is in the [step - 2] indices before the forward border. *)
Definition Suits (length o size : Z) (s : sampling) : Prop :=
  let forward := length - o - 1 in
  0 <= o < length /\ length <= size < 2 ^ 61 /\ 0 <= sfront s <= sback s /\ sback s < size /\ 1 <= sstep s <= size - forward /\
  forall n, 0 <= n -> let i := sfront s + n * sstep s in
    (i < o \/ i <= size - forward - sstep s -> i <= sback s) /\
    (o <= i <= sback s -> ~ size - forward - sstep s < i < size - forward - 1).

(** The number of samples. *)
Definition count (s : sampling) : Z := (sback s - sfront s) / sstep s + 1.
