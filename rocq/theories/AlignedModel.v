(** Model of AlignedBuffer (LitlContainer/LitlContainer/AlignedBuffer.h). Addresses and sizes are 64-bit; 0 is the
    null pointer. The contents of the blocks, and the copies of elements (lines 132 and 155), are in AlignedDataModel. *)
From Verif Require Import Res.

(** isAligned(ptr, as) (lines 22-30). *)
Definition isAligned (ptr as_ : Z) : res bool :=
  if ptr =? 0 then Throw ENullPtr
  else if as_ =? 1 then Ok true
  else if as_ =? 0 then UB (* modulo zero *)
  else Ok (ptr mod as_ =? 0).

(** alignment(ptr) (lines 37-46): loop with fuel. *)
Fixpoint alignLoop (fuel : nat) (ptr as_ : Z) : option (res Z) :=
  match fuel with
  | O => None
  | S fuel' =>
      if as_ =? 0 then Some UB (* modulo zero, after overflow of the shift *)
      else if ptr mod as_ =? 0 then alignLoop fuel' ptr (u64 (as_ * 2))
      else Some (Ok (as_ / 2))
  end.
Definition alignment (fuel : nat) (ptr : Z) : option (res Z) :=
  if ptr =? 0 then Some (Throw ENullPtr) else alignLoop fuel ptr 2.

(** alignAs(data, align) (lines 259-269). *)
Definition alignAs (data align : Z) : Z :=
  if align =? 2 ^ 64 - 1 then 64
  else if align =? 0 then (if data =? 0 then 64 else 1)
  else align.

(** sizeof(T) * m_size + m_as - 1 and the aligned data pointer (lines 121-122, 153-154). *)
Definition blockSize (elt size as_ : Z) : Z := u64 (elt * size + as_ - 1).
Definition alignUp (p as_ : Z) : Z := Z.land (u64 (p + (as_ - 1))) (u64 (Z.lnot (as_ - 1))).

(** m_size, m_as, m_container, m_data (lines 271-292). *)
Record buffer := mkBuffer { bsize : Z; bas : Z; bcont : Z; bdata : Z }.

(** The allocated blocks (address and size), the buffers (None: destroyed) and the addresses the user got from
    release() and has not freed yet. *)
Record state := mkState { live : list (Z * Z); bufs : list (option buffer); user : list Z }.

(** std::malloc(size): the null pointer, or any block apart from the allocated ones; the address one past the end
    of a block is not null. *)
Definition Fresh (l : list (Z * Z)) (size p : Z) : Prop :=
  0 < p /\ p + Z.max 1 size < 2 ^ 64 /\
  forall q n, In (q, n) l -> p + Z.max 1 size <= q \/ q + Z.max 1 n <= p.
Inductive malloc (l : list (Z * Z)) (size : Z) : Z -> list (Z * Z) -> Prop :=
| malloc_null : malloc l size 0 l
| malloc_block p : Fresh l size p -> malloc l size p ((p, size) :: l).

(** std::free(p) for a non-null pointer: undefined if [p] is not an allocated block. *)
Definition free (l : list (Z * Z)) (p : Z) : res (list (Z * Z)) :=
  if existsb (fun b => fst b =? p) l then Ok (filter (fun b => negb (fst b =? p)) l) else UB.

(** Constructor (lines 116-124), with sizeof(T) = [elt]. *)
Inductive construct (elt : Z) (l : list (Z * Z)) (size data align : Z) : res (buffer * list (Z * Z)) -> Prop :=
| construct_shared : data <> 0 ->
    construct elt l size data align
      (b <- isAligned data (alignAs data align) ;;
       if b then Ok (mkBuffer size (alignAs data align) 0 data, l) else Throw EAlignment)
| construct_owning p l' : data = 0 -> malloc l (blockSize elt size (alignAs data align)) p l' ->
    construct elt l size data align
      (Ok (mkBuffer size (alignAs data align) p (alignUp p (alignAs data align)), l')).

(** owns() (lines 208-210). *)
Definition owns (b : buffer) : bool := negb (bcont b =? 0).

(** reset() (lines 248-256). *)
Definition resetBuf (l : list (Z * Z)) (b : buffer) : res (buffer * list (Z * Z)) :=
  l' <- (if owns b then free l (bcont b) else Ok l) ;; Ok (mkBuffer 0 1 0 0, l').

(** release() (lines 236-240). *)
Definition releaseBuf (b : buffer) : Z * buffer := (bcont b, mkBuffer (bsize b) (bas b) 0 (bdata b)).

(** The public operations. [ONew], [OCopy] and [OMove] construct a new buffer, [OUserFree] is the user freeing
    a block obtained from release(). *)
Inductive op :=
| ONew (size data align : Z)
| OCopy (i : nat)
| OMove (i : nat)
| OCopyAssign (i j : nat)   (* buffer i = buffer j *)
| OMoveAssign (i j : nat)   (* buffer i = std::move(buffer j) *)
| ORelease (i : nat)
| OReset (i : nat)
| ODestroy (i : nat)
| OUserFree (p : Z).

Definition alive (s : state) (i : nat) (b : buffer) : Prop := nth_error (bufs s) i = Some (Some b).

(** One operation. A throwing constructor leaves the state unchanged (no buffer is created). Operations on
    destroyed buffers are not histories of a C++ program: there is no step. *)
Inductive step (elt : Z) (s : state) : op -> res state -> Prop :=
| step_new size data align r :
    construct elt (live s) size data align r ->
    step elt s (ONew size data align)
      (match r with
       | Ok (b, l') => Ok (mkState l' (bufs s ++ [Some b]) (user s))
       | Throw _ => Ok s
       | UB => UB
       end)
| step_copy i b r : (* lines 129-135 *)
    alive s i b ->
    construct elt (live s) (bsize b) (if owns b then 0 else bdata b) (bas b) r ->
    step elt s (OCopy i)
      (match r with
       | Ok (b', l') => Ok (mkState l' (bufs s ++ [Some b']) (user s))
       | Throw _ => Ok s
       | UB => UB
       end)
| step_move i b : (* lines 140-143: the pointer returned by release() is dropped *)
    alive s i b ->
    step elt s (OMove i)
      (r <- resetBuf (live s) (snd (releaseBuf b)) ;;
       Ok (mkState (snd r) (replace (bufs s) i (Some (fst r)) ++ [Some (mkBuffer (bsize b) (bas b) 0 (bdata b))]) (user s)))
| step_copy_assign_self i b : alive s i b -> step elt s (OCopyAssign i i) (Ok s)
| step_copy_assign_owner i j b c p l' : (* lines 148-162 *)
    i <> j -> alive s i b -> alive s j c -> owns c = true ->
    malloc (live s) (blockSize elt (bsize c) (bas c)) p l' ->
    step elt s (OCopyAssign i j)
      (Ok (mkState l' (replace (bufs s) i (Some (mkBuffer (bsize c) (bas c) p (alignUp p (bas c))))) (user s)))
| step_copy_assign_shared i j b c :
    i <> j -> alive s i b -> alive s j c -> owns c = false ->
    step elt s (OCopyAssign i j)
      (Ok (mkState (live s) (replace (bufs s) i (Some (mkBuffer (bsize c) (bas c) (bcont c) (bdata c)))) (user s)))
| step_move_assign_self i b : alive s i b -> step elt s (OMoveAssign i i) (Ok s)
| step_move_assign i j b c : (* lines 167-178 *)
    i <> j -> alive s i b -> alive s j c ->
    step elt s (OMoveAssign i j)
      (r <- resetBuf (live s) (snd (releaseBuf c)) ;;
       Ok (mkState (snd r) (replace (replace (bufs s) i (Some c)) j (Some (fst r))) (user s)))
| step_release i b :
    alive s i b ->
    step elt s (ORelease i)
      (Ok (mkState (live s) (replace (bufs s) i (Some (snd (releaseBuf b))))
         (if owns b then fst (releaseBuf b) :: user s else user s)))
| step_reset i b :
    alive s i b ->
    step elt s (OReset i)
      (r <- resetBuf (live s) b ;; Ok (mkState (snd r) (replace (bufs s) i (Some (fst r))) (user s)))
| step_destroy i b : (* lines 185-187 *)
    alive s i b ->
    step elt s (ODestroy i)
      (r <- resetBuf (live s) b ;; Ok (mkState (snd r) (replace (bufs s) i None) (user s)))
| step_user_free p :
    In p (user s) ->
    step elt s (OUserFree p)
      (l <- free (live s) p ;; Ok (mkState l (bufs s) (remove Z.eq_dec p (user s)))).

(** Histories: the outcome of a sequence of operations. *)
Inductive run (elt : Z) (s : state) : list op -> res state -> Prop :=
| run_nil : run elt s [] (Ok s)
| run_ok o s' ops r : step elt s o (Ok s') -> run elt s' ops r -> run elt s (o :: ops) r
| run_stop o ops r : step elt s o r -> (forall s', r <> Ok s') -> run elt s (o :: ops) r.

Definition start : state := mkState [] [] [].
