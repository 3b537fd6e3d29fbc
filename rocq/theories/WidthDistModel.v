(** Model of the statistics of integers of bounded width (LitlContainer/LitlContainer/DataDistribution.h)
    and of the medians of such integers (LitlTransforms/LitlTransforms/MedianFilter.h).
    DistModel.v and MedianModel.v are about numbers. *)
From Coq Require Import QArith Qabs.
From Verif Require Import Res TypesModel SamplingModel DistModel WidthModel.
Open Scope Z_scope.

(** m_sum2 += v * v (DataDistribution.h: 52): the product is not converted to T before the addition. *)
Definition addSquare (t : itype) (s2 v : Z) : res Z := p <- promotedOp t Mul v v ;; z <- computed t (s2 + p) ;; Ok (convert t z).

(** The loop of the constructor (DataDistribution.h: 50-53), which is run whatever the statistics which are queried then:
    m_sum and m_sum2 are of type T. *)
Fixpoint sumsLoop (t : itype) (l : list Z) (s s2 : Z) : res (Z * Z) :=
  match l with
  | [] => Ok (s, s2)
  | v :: l' => s' <- widthOp t Add s v ;; s2' <- addSquare t s2 v ;; sumsLoop t l' s' s2'
  end.
Definition distSums (t : itype) (l : list Z) : res (Z * Z) := sumsLoop t l 0 0.

(** sum() (DataDistribution.h: 88-90), of a new distribution. *)
Definition sumWidth (t : itype) (l : list Z) : res Z := s <- distSums t l ;; Ok (fst s).

(** mean() (DataDistribution.h: 109-111), for types of at most 64 bits: the sum is converted to std::size_t.
    Simplification: the conversion of the quotient to double is left out. *)
Definition meanWidth (t : itype) (l : list Z) : res Z :=
  s <- sumWidth t l ;; if Z.of_nat (length l) =? 0 then UB else Ok (u64 s / Z.of_nat (length l)).

(** mad() (DataDistribution.h: 130-137): each deviation is converted from double to T, then a distribution is built from them.
    Simplification: the median and the differences are exact. *)
Inductive madWidthCall (t : itype) (o : evalOrder) (d : dist Q) : dist Q -> res Q -> Prop :=
| madw_ok d' m devs s d'' r : medianCall o d d' (Ok m) -> mapRes (fun e => scalarOf t (Qabs (e - m))) (dvalues d') = Ok devs ->
    distSums t devs = Ok s -> medianCall o (distMake qltb (map inject_Z devs)) d'' r -> madWidthCall t o d d' r
| madw_sums d' m devs : medianCall o d d' (Ok m) -> mapRes (fun e => scalarOf t (Qabs (e - m))) (dvalues d') = Ok devs ->
    distSums t devs = UB -> madWidthCall t o d d' UB
| madw_convert d' m : medianCall o d d' (Ok m) -> mapRes (fun e => scalarOf t (Qabs (e - m))) (dvalues d') = UB ->
    madWidthCall t o d d' UB
| madw_median d' : medianCall o d d' UB -> madWidthCall t o d d' UB.

(** What MedianFilter::median returns for an odd number of values whose middle one is [x],
    and for an even number of them where it reads [x] and [y] (MedianFilter.h: 87-91): T to U, and double to U.
    Simplification: .5 times the sum is exact (it is if T has at most 53 bits). *)
Definition medianOne (u : itype) (x : Z) : res Z := Ok (convert u x).
Definition medianTwo (t u : itype) (x y : Z) : res Z := z <- computed t (x + y) ;; scalarOf u (inject_Z z * (1 # 2))%Q.
