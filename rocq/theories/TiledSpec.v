(** Specification of filters applied by regions. *)
From Verif Require Import Res Spec BoxModel RasterModel BoxSpec RasterSpec TypedMedianSpec.
Open Scope Z_scope.

(** No position is in two regions. *)
Definition Disjoint (regions : list box) : Prop :=
  forall i j a b p, i <> j -> nth_error regions i = Some a -> nth_error regions j = Some b -> InBox a p -> InBox b p -> False.

(** A position is in some of the regions. *)
Definition InSome (regions : list box) (p : list Z) : Prop := exists b, In b regions /\ InBox b p.

(** The filter can run on each region. *)
Definition RunnableOn {A B} (f b : list Z) (regions : list box) (X : list Z -> A) (ext : list Z -> res A) (out : raster B) : Prop :=
  regions <> [] /\ Forall (fun region => Runnable f b region X ext out) regions.
