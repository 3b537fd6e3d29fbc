(** Model of the ways to update each pixel of a raster which the documentation says equivalent
    (doc/primer.dox: 175-190, LitlDemo/tests/src/LitlDemoBasics_test.cpp: 105-142). *)
From Verif Require Import Res VecModel BoxModel RasterModel ArithModel.

Section Traverse.
Context {A : Type}.
Variable f : A -> A. (* what is done to a pixel, e.g. e *= 2 *)

(** raster[p] = f(raster[p]) (impl/Raster.hpp: 103-111). *)
Definition updateAt (n : Z) (r : raster A) (p : list Z) : res (raster A) := a <- rget n r p ;; rset n r p (f a).

(** for (Index x = i; x < i + k; ++x) body(x) *)
Fixpoint forRange {S} (k : nat) (i : Z) (body : Z -> S -> res S) (s : S) : res S :=
  match k with
  | O => Ok s
  | Datatypes.S k' => s' <- body i s ;; forRange k' (i + 1) body s'
  end.

(** One loop per axis, the last axis being the outermost loop (LitlDemoBasics_test.cpp: 107-113).
    Generalised to any dimension: [lens] are the lengths along the remaining axes, from the last to the first one, and
    [pos] the coordinates along the axes which are already looped over. *)
Fixpoint nestedLoops (n : Z) (lens pos : list Z) (r : raster A) : res (raster A) :=
  match lens with
  | [] => updateAt n r pos
  | l :: lens' => forRange (Z.to_nat l) 0 (fun x r' => nestedLoops n lens' (x :: pos) r') r
  end.
Definition byPosition (n : Z) (r : raster A) : res (raster A) := nestedLoops n (rev (rshape r)) [] r.

(** for (const auto& p : raster.domain()) (LitlDemoBasics_test.cpp: 116-118): the visited positions do not depend on the pixels. *)
Fixpoint updateAll (n : Z) (r : raster A) (ps : list (list Z)) : res (raster A) :=
  match ps with
  | [] => Ok r
  | p :: ps' => r' <- updateAt n r p ;; updateAll n r' ps'
  end.
Definition byDomain (fuel : nat) (n : Z) (r : raster A) : option (res (raster A)) :=
  match rdomain n (rshape r) with
  | Ok b => match boxForeach fuel b with
            | Some (Ok ps) => Some (updateAll n r ps)
            | Some (Throw e) => Some (Throw e)
            | Some UB => Some UB
            | None => None
            end
  | Throw e => Some (Throw e)
  | UB => Some UB
  end.

(** for (std::size_t i = 0; i < raster.size(); ++i) raster[i] = f(raster[i]) (LitlDemoBasics_test.cpp: 121-123).
    size() is the one of the container. *)
Fixpoint indexLoopFrom (fuel : nat) (i : Z) (data : list A) : option (res (list A)) :=
  match fuel with
  | O => None
  | S fuel' =>
      if i <? Z.of_nat (length data) then
        match (a <- zget data i ;; zset data i (f a)) with
        | Ok d => indexLoopFrom fuel' (i + 1) d
        | r => Some r
        end
      else Some (Ok data)
  end.
Definition byIndex (fuel : nat) (r : raster A) : option (res (raster A)) :=
  match indexLoopFrom fuel 0 (rdata r) with
  | Some d => Some (d' <- d ;; Ok (mkRaster (rshape r) d'))
  | None => None
  end.

(** for (auto it = raster.begin(); it != raster.end(); ++it) *it = f( *it), and the range for loop
    (LitlDemoBasics_test.cpp: 126-133). *)
Fixpoint iteratorLoopFrom (fuel : nat) (it e : Z) (data : list A) : option (res (list A)) :=
  match fuel with
  | O => None
  | S fuel' =>
      if it =? e then Some (Ok data)
      else match (a <- zget data it ;; zset data it (f a)) with
           | Ok d => iteratorLoopFrom fuel' (it + 1) e d
           | r => Some r
           end
  end.
Definition byIterator (fuel : nat) (r : raster A) : option (res (raster A)) :=
  match iteratorLoopFrom fuel 0 (Z.of_nat (length (rdata r))) (rdata r) with
  | Some d => Some (d' <- d ;; Ok (mkRaster (rshape r) d'))
  | None => None
  end.

(** std::transform(raster.cbegin(), raster.cend(), raster.begin(), f), raster *= 2 and raster.apply(f)
    (LitlDemoBasics_test.cpp: 136-141, Arithmetic.h: 28-38). *)
Definition byAlgorithm (r : raster A) : res (raster A) :=
  d <- transform1 (fun a => Ok (f a)) (length (rdata r)) (rdata r) 0 ;; Ok (mkRaster (rshape r) d).
End Traverse.
