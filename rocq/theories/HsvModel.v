(** Model of the conversion of colors to hue, saturation and value of the demonstration, with values of type double. *)
From Flocq Require Import IEEE754.BinarySingleNaN.
From Verif Require Import Res FloatModel QuantileModel.
Open Scope Z_scope.

(** Comparison x >= y (LitlDemo/tests/src/LitlDemoChannels_test.cpp: 82): false if any is NaN. *)
Definition dgeb (x y : double) : bool := match Bcompare x y with Some Gt | Some Eq => true | _ => false end.

(** std::min and std::max of an initializer list of three values (LitlDemoChannels_test.cpp: 52-53): the first smallest or greatest value. *)
Definition dmin3 (a b c : double) : double := let m := if dltb b a then b else a in if dltb c m then c else m.
Definition dmax3 (a b c : double) : double := let m := if dltb a b then b else a in if dltb m c then c else m.

(** Hsv (LitlDemo/tests/src/LitlDemoChannels_test.cpp: 28-38), of which [None] is an uninitialised member. *)
Record dhsv := mkDhsv { dhsvH : option double; dhsvS : option double; dhsvV : option double }.

(** normalization * rgb.r, and the same for the other components (LitlDemoChannels_test.cpp: 45-48), which are of type unsigned char. *)
Definition dchannel (c : Z) : double := dmul (ddiv (dofZ 1) (dofZ 255)) (dofZ c).

(** dr, dg and db (LitlDemoChannels_test.cpp: 68-70). *)
Definition dhueTerm (max delta c : double) : double := ddiv (dadd (dmul (dofZ 60) (dsub max c)) (dmul (dofZ 180) delta)) delta.

(** The hue, brought back to one turn (LitlDemoChannels_test.cpp: 80-84). *)
Definition dturn (h : double) : double :=
  if dltb h (dofZ 0) then dadd h (dofZ 360) else if dgeb h (dofZ 360) then dsub h (dofZ 360) else h.

(** rgbToHsv (LitlDemoChannels_test.cpp: 43-87). *)
Definition drgbToHsv (cr cg cb : Z) : dhsv :=
  let r := dchannel cr in let g := dchannel cg in let b := dchannel cb in
  let min := dmin3 r g b in let max := dmax3 r g b in let delta := dsub max min in
  if deqb max (dofZ 0) then mkDhsv None None None
  else if deqb delta (dofZ 0) then mkDhsv None None (Some max)
  else
    let s := ddiv delta max in
    let dr := dhueTerm max delta r in let dg := dhueTerm max delta g in let db := dhueTerm max delta b in
    let h := if deqb r max then dsub db dg
             else if deqb g max then dsub (dadd (dofZ 120) dr) db
             else dsub (dadd (dofZ 240) dg) dr in
    mkDhsv (Some (dturn h)) (Some s) (Some max).
