(** Model of the processing of images with several channels, as documented
    (doc/channels.dox, LitlDemo/tests/src/LitlDemoChannels_test.cpp). *)
From Coq Require Import QArith.
From Verif Require Import Res VecModel BoxModel RasterModel ArithModel TypesModel.
Open Scope Z_scope.

(** Writing the values one after the other at address [a] (LitlDemoChannels_test.cpp: 89-94). *)
Fixpoint zsetN {A} (out : list A) (a : Z) (ys : list A) : res (list A) :=
  match ys with
  | [] => Ok out
  | y :: ys' => o <- zset out a y ;; zsetN o (a + 1) ys'
  end.

(** Channels along the first axis: for (inIt = in.begin(); inIt != in.end(); inIt += c, outIt += d) g(inIt, outIt), where g reads [c] values
    and writes [d] values (LitlDemoChannels_test.cpp: 143-148, 89-94). *)
Fixpoint blockLoop {A B} (fuel : nat) (c d : Z) (g : list A -> list B) (it ot : Z) (data : list A) (out : list B) : option (res (list B)) :=
  match fuel with
  | O => None
  | S fuel' =>
      if it =? Z.of_nat (length data) then Some (Ok out)
      else match (xs <- zgetN (Z.to_nat c) data it ;; zsetN out ot (g xs)) with
           | Ok o => blockLoop fuel' c d g (it + c) (ot + d) data o
           | r => Some r
           end
  end.
Definition mapChannels {A B} (fuel : nat) (c d : Z) (g : list A -> list B) (inp : raster A) (out : raster B) : option (res (raster B)) :=
  match blockLoop fuel c d g 0 0 (rdata inp) (rdata out) with
  | Some r => Some (o <- r ;; Ok (mkRaster (rshape out) o))
  | None => None
  end.

(** std::inner_product(weights.begin(), weights.end(), it, zero), whatever the arithmetic of the pixels. *)
Section Accumulate.
Context {A : Type}.
Variables (zero : A) (add mul : A -> A -> A).
Fixpoint innerProduct (acc : A) (ws xs : list A) : A :=
  match ws, xs with
  | w :: ws', x :: xs' => innerProduct (add acc (mul w x)) ws' xs'
  | _, _ => acc
  end.

(** for (imageIt = image.begin(); imageIt != image.end(); ++imageIt, cubeIt += n) *imageIt = inner_product(weights, cubeIt)
    (LitlDemoChannels_test.cpp: 197-202). *)
Fixpoint weightedLoop (fuel : nat) (n : Z) (ws : list A) (it ot : Z) (data image : list A) : option (res (list A)) :=
  match fuel with
  | O => None
  | S fuel' =>
      if ot =? Z.of_nat (length image) then Some (Ok image)
      else match (xs <- zgetN (length ws) data it ;; zset image ot (innerProduct zero ws xs)) with
           | Ok o => weightedLoop fuel' n ws (it + n) (ot + 1) data o
           | r => Some r
           end
  end.
Definition weightedSum (fuel : nat) (n : Z) (ws : list A) (cube image : raster A) : option (res (raster A)) :=
  match weightedLoop fuel n ws 0 0 (rdata cube) (rdata image) with
  | Some r => Some (o <- r ;; Ok (mkRaster (rshape image) o))
  | None => None
  end.
End Accumulate.

(** Channels along the last axis: r = rgb.section(k), and then an in-place pixel-wise operation on r, e.g. r.fill(64) or r *= a
    (LitlDemoChannels_test.cpp: 162-177). The view shares the memory of the image. *)
Definition updateSection {A} (f : A -> A) (n k : Z) (r : raster A) : res (raster A) :=
  v <- section1 n (rshape r) k ;;
  d <- transform1 (fun x => Ok (f x)) (Z.to_nat (shapeSize (vshape v))) (rdata r) (voffset v) ;;
  Ok (mkRaster (rshape r) d).

(** rgbToHsv (LitlDemoChannels_test.cpp: 43-87). [None] is the value of an uninitialised member.
    Simplification: exact rationals. *)
Record hsv := mkHsv { hsvH : option Q; hsvS : option Q; hsvV : option Q }.
Definition qmax3 (a b c : Q) : Q := let m := if qltb a b then b else a in if qltb m c then c else m.
Definition qmin3 (a b c : Q) : Q := let m := if qltb b a then b else a in if qltb c m then c else m.
Definition rgbToHsv (cr cg cb : Z) : hsv :=
  let norm := (1 / 255)%Q in
  let r := (norm * inject_Z cr)%Q in let g := (norm * inject_Z cg)%Q in let b := (norm * inject_Z cb)%Q in
  let min := qmin3 r g b in let max := qmax3 r g b in let delta := (max - min)%Q in
  if Qeq_bool max 0 then mkHsv None None None
  else if Qeq_bool delta 0 then mkHsv None None (Some max)
  else
    let dr := ((60 * (max - r) + 180 * delta) / delta)%Q in
    let dg := ((60 * (max - g) + 180 * delta) / delta)%Q in
    let db := ((60 * (max - b) + 180 * delta) / delta)%Q in
    let h := if Qeq_bool r max then (db - dg)%Q else if Qeq_bool g max then (120 + dr - db)%Q else (240 + dg - dr)%Q in
    let h' := if qltb h 0 then (h + 360)%Q else if Qle_bool 360 h then (h - 360)%Q else h in
    mkHsv (Some h') (Some (delta / max)%Q) (Some max).
