(** Model of the lifetimes of the DFT plans (LitlTransforms/LitlTransforms/DftPlan.h, DftMemory.h and Dft.h): the FFTW plans,
    the buffers of the DftPlan objects, and the addresses which FFTW reads and writes. The contents are in DftModel.
    The buffers are those of AlignedModel, with elements of 8 bytes: a complex number counts for two elements.
    Simplifications: the dimension is fixed (the shape of a moved plan is left as it is), and the std::unique_ptr frees the memory
    of the fftw_plan variable it points to, which is not modelled (unlike the FFTW plan itself). *)
From Verif Require Import Res VecModel DftModel AlignedModel.

(** A plan created by FFTW and not destroyed: addresses and numbers of bytes of its input and output. *)
Record fftw := mkFftw { fwIn : Z; fwInBytes : Z; fwOut : Z; fwOutBytes : Z }.

(** m_plan, a std::unique_ptr of fftw_plan (DftMemory.h: 22, DftPlan.h: 251): empty, pointer to a null fftw_plan
    (failure of FFTW), or pointer to an FFTW plan. *)
Inductive handle := Empty | Null | Handle (n : nat).

(** DftPlan: transform (a template parameter), m_shape, m_in and m_out (as buffers of the memory), m_plan (DftPlan.h: 236-251). *)
Record dplan := mkDplan { dtransform : transform; dshape : list Z; din : nat; dout : nat; dhandle : handle }.

(** The memory (which contains all the buffers, in or out of plans), the FFTW plans (None: destroyed by fftw_destroy_plan)
    and the DftPlan objects (None: destroyed). *)
Record pstate := mkPstate { mem : state; fftws : list (option fftw); plans : list (option dplan) }.

Definition pstart : pstate := mkPstate start [] [].
Definition planAt (s : pstate) (i : nat) (p : dplan) : Prop := nth_error (plans s) i = Some (Some p).

(** The number of elements of 8 bytes of InValue and OutValue (Dft.h: 66-71, 106-112, 132-136, 170-174): double and std::complex<double>. *)
Definition inWidth (t : transform) : Z := match t with RealDft => 1 | _ => 2 end.
Definition outWidth (t : transform) : Z := match t with InverseRealDft => 1 | _ => 2 end.

(** [n] bytes at address [p] are in an allocated block. *)
Definition inside (l : list (Z * Z)) (p n : Z) : bool := existsb (fun b => (fst b <=? p) && (p + n <=? fst b + snd b)) l.

(** FFTW's planner (createPlan, DftMemory.h: 74-78, and allocateFftwPlan, Dft.h: 146-200): it fails (always if some dimension is not positive),
    or overwrites the buffers (FFTW_MEASURE), which is undefined if they are not allocated, and returns a new plan. *)
Inductive planner (l : list (Z * Z)) (t : transform) (dims : list Z) (i o : Z) (fs : list (option fftw)) : res (handle * list (option fftw)) -> Prop :=
| planner_null : planner l t dims i o fs (Ok (Null, fs))
| planner_plan : Forall (fun d => 0 < d) dims ->
    planner l t dims i o fs
      (let ni := 8 * inWidth t * fftwIn t dims in
       let no := 8 * outWidth t * fftwOut t dims in
       if inside l i ni && inside l o no then Ok (Handle (length fs), fs ++ [Some (mkFftw i ni o no)]) else UB).

(** Constructor (DftPlan.h: 107-109), with data pointers [i] and [o], possibly null: construction of m_in, then of m_out, without alignment
    requirement (line 107), then of m_plan. *)
Inductive newPlan (s : pstate) (t : transform) (shape : list Z) (i o : Z) : res pstate -> Prop :=
| newPlan_shape : (dftInShape t shape = UB \/ dftOutShape t shape = UB \/ planDims t shape = UB) -> newPlan s t shape i o UB
| newPlan_memory inS outS dims r :
    dftInShape t shape = Ok inS -> dftOutShape t shape = Ok outS -> planDims t shape = Ok dims ->
    run 8 (mem s) [ONew (inWidth t * u64 (shapeSize inS)) i 0; ONew (outWidth t * u64 (shapeSize outS)) o 0] r ->
    (forall m, r <> Ok m) -> newPlan s t shape i o UB
| newPlan_ok inS outS dims m bi bo r :
    dftInShape t shape = Ok inS -> dftOutShape t shape = Ok outS -> planDims t shape = Ok dims ->
    run 8 (mem s) [ONew (inWidth t * u64 (shapeSize inS)) i 0; ONew (outWidth t * u64 (shapeSize outS)) o 0] (Ok m) ->
    alive m (length (bufs (mem s))) bi -> alive m (S (length (bufs (mem s)))) bo ->
    planner (live m) t dims (bdata bi) (bdata bo) (fftws s) r ->
    newPlan s t shape i o
      (x <- r ;; Ok (mkPstate m (snd x) (plans s ++ [Some (mkDplan t shape (length (bufs (mem s))) (S (length (bufs (mem s)))) (fst x))]))).

(** fftw_destroy_plan ( *plan) if there is one (DftMemory.h: 83-87); fftw_destroy_plan accepts null plans. *)
Definition destroyFftw (h : handle) (fs : list (option fftw)) : res (list (option fftw)) :=
  match h with
  | Handle n => match nth_error fs n with Some (Some _) => Ok (replace fs n None) | _ => UB end
  | _ => Ok fs
  end.

(** fftw_execute ( *m_plan) (DftPlan.h: 218-221): undefined if m_plan is empty or null, if the FFTW plan is destroyed, or if its data are. *)
Definition execute (l : list (Z * Z)) (h : handle) (fs : list (option fftw)) : res unit :=
  match h with
  | Handle n =>
      match nth_error fs n with
      | Some (Some f) => if inside l (fwIn f) (fwInBytes f) && inside l (fwOut f) (fwOutBytes f) then Ok tt else UB
      | _ => UB
      end
  | _ => UB
  end.

(** The public operations. [PBuffer o] is any operation on aligned rasters, including the buffers of plans: in() and out() give access
    to them (DftPlan.h: 172-185, 194-206), but only plans destroy them. [PAccess k] reads or writes all the elements of a raster,
    as does normalize() (DftPlan.h: 226-230). *)
Inductive pop :=
| PNew (t : transform) (shape : list Z) (i o : Z)
| PInverse (i : nat)
| PCompose (i : nat) (t : transform) (shape : list Z)
| PMove (i : nat)
| PMoveAssign (i j : nat)
| PTransform (i : nat)
| PDestroy (i : nat)
| PBuffer (o : op)
| PAccess (k : nat).

(** Buffer [k] belongs to a plan in scope. *)
Definition PlanBuffer (s : pstate) (k : nat) : Prop := exists i p, planAt s i p /\ (din p = k \/ dout p = k).

Inductive pstep (s : pstate) : pop -> res pstate -> Prop :=
| pstep_new t shape i o r : newPlan s t shape i o r -> pstep s (PNew t shape i o) r
| pstep_inverse i p bi bo r : (* DftPlan.h: 136-138 *)
    planAt s i p -> alive (mem s) (din p) bi -> alive (mem s) (dout p) bo ->
    newPlan s (inverseTransform (dtransform p)) (dshape p) (bdata bo) (bdata bi) r -> pstep s (PInverse i) r
| pstep_compose i p bo t shape r : (* DftPlan.h: 152-155 *)
    planAt s i p -> alive (mem s) (dout p) bo -> newPlan s t shape (bdata bo) 0 r -> pstep s (PCompose i t shape) r
| pstep_move i p r : (* LITL_DEFAULT_MOVABLE (DftPlan.h: 112): member-wise *)
    planAt s i p -> run 8 (mem s) [OMove (din p); OMove (dout p)] r ->
    pstep s (PMove i)
      (m <- r ;;
       Ok (mkPstate m (fftws s)
            (replace (plans s) i (Some (mkDplan (dtransform p) (dshape p) (din p) (dout p) Empty)) ++
             [Some (mkDplan (dtransform p) (dshape p) (length (bufs (mem s))) (S (length (bufs (mem s)))) (dhandle p))])))
| pstep_move_assign_self i p : planAt s i p -> pstep s (PMoveAssign i i) (Ok s)
| pstep_move_assign i j p q r : (* the former FFTW plan of i is not destroyed: std::unique_ptr deletes the fftw_plan variable only *)
    i <> j -> planAt s i p -> planAt s j q -> dtransform p = dtransform q ->
    run 8 (mem s) [OMoveAssign (din p) (din q); OMoveAssign (dout p) (dout q)] r ->
    pstep s (PMoveAssign i j)
      (m <- r ;;
       Ok (mkPstate m (fftws s)
            (replace (replace (plans s) i (Some (mkDplan (dtransform p) (dshape q) (din p) (dout p) (dhandle q))))
               j (Some (mkDplan (dtransform q) (dshape q) (din q) (dout q) Empty)))))
| pstep_transform i p : planAt s i p ->
    pstep s (PTransform i) (_ <- execute (live (mem s)) (dhandle p) (fftws s) ;; Ok s)
| pstep_destroy i p r : (* ~DftPlan (DftPlan.h: 120-122), then the members in reverse order *)
    planAt s i p -> run 8 (mem s) [ODestroy (dout p); ODestroy (din p)] r ->
    pstep s (PDestroy i)
      (fs <- destroyFftw (dhandle p) (fftws s) ;; m <- r ;; Ok (mkPstate m fs (replace (plans s) i None)))
| pstep_buffer o r : (forall k, o = ODestroy k -> ~ PlanBuffer s k) -> step 8 (mem s) o r ->
    pstep s (PBuffer o) (m <- r ;; Ok (mkPstate m (fftws s) (plans s)))
| pstep_access k b : alive (mem s) k b ->
    pstep s (PAccess k) (if (bsize b =? 0) || inside (live (mem s)) (bdata b) (8 * bsize b) then Ok s else UB).

(** Histories: the outcome of a sequence of operations. *)
Inductive prun (s : pstate) : list pop -> res pstate -> Prop :=
| prun_nil : prun s [] (Ok s)
| prun_ok o s' ops r : pstep s o (Ok s') -> prun s' ops r -> prun s (o :: ops) r
| prun_stop o ops r : pstep s o r -> (forall s', r <> Ok s') -> prun s (o :: ops) r.

(** complexDft, realDft (Dft.h: 223-229, 247-253) and, normalized, inverseComplexDft, inverseRealDft (lines 235-241, 259-265):
    construction of the plan, filling of the input, transform, move of the output to the returned raster, destruction of the plan. *)
Definition functionBody (t : transform) (normalized : bool) (shape : list Z) (s : pstate) : list pop :=
  let i := length (plans s) in
  let k := length (bufs (mem s)) in
  [PNew t shape 0 0; PAccess k; PTransform i] ++ (if normalized then [PAccess (S k)] else []) ++ [PBuffer (OMove (S k)); PDestroy i].
