(** Model of fc_vec.rs on raw memory: one heap block per vector, one cell per element slot. *)
From Verif Require Export Base.
From Coq Require Export ZArith.
Open Scope nat_scope.

(** A block from [alloc::alloc]: [Live cells] or already deallocated.  A cell is [None] until something is
    written to it; reading it leaves its bits in place ([ptr::read] copies), so a stale copy can be read again:
    nothing in the model stops a double use, the theorems do. *)
Inductive block (T : Type) : Type :=
| Live (cells : list (option T))
| Freed.
Arguments Live {T} cells.
Arguments Freed {T}.

Section Raw.
Context {T : Type}.

(** [ptr::read(buf.add(i))]: undefined out of the block, after deallocation, or for an uninitialised cell. *)
Definition ptr_read (b : block T) (i : nat) : res T :=
  match b with
  | Freed => UB
  | Live cs => match nth_error cs i with Some (Some x) => Ok x | _ => UB end
  end.

(** [ptr::write(buf.add(i), x)]. *)
Definition ptr_write (b : block T) (i : nat) (x : T) : res (block T) :=
  match b with
  | Freed => UB
  | Live cs => if i <? length cs then Ok (Live (set_nth i (Some x) cs)) else UB
  end.

(** [ptr::copy(buf.add(src), buf.add(dst), n)]: a memmove of [n] cells, initialised or not. *)
Definition ptr_copy (b : block T) (src dst n : nat) : res (block T) :=
  match b with
  | Freed => UB
  | Live cs =>
    if (src + n <=? length cs) && (dst + n <=? length cs)
    then Ok (Live (firstn dst cs ++ firstn n (skipn src cs) ++ skipn (dst + n) cs))
    else UB
  end.

(** [ptr::swap(buf.add(i), buf.add(j))]. *)
Definition ptr_swap (b : block T) (i j : nat) : res (block T) :=
  match b with
  | Freed => UB
  | Live cs =>
    match nth_error cs i, nth_error cs j with
    | Some x, Some y => Ok (Live (set_nth j x (set_nth i y cs)))
    | _, _ => UB
    end
  end.

(** [alloc::dealloc]. *)
Definition dealloc (b : block T) : res (block T) :=
  match b with Live _ => Ok Freed | Freed => UB end.

(** [isize::MAX]: [Layout::array] fails beyond it. *)
Definition max_size : Z := (2 ^ 63 - 1)%Z.

(** [Layout::array::<T>(cap).unwrap()] and [alloc::alloc] (fc_vec.rs 129-134) for elements of [size] bytes:
    allocating zero bytes is undefined behaviour (std::alloc::GlobalAlloc::alloc).  Alignment padding is zero for
    arrays; running out of memory aborts and is not modelled. *)
Definition alloc_array (size cap : nat) : res (block T) :=
  if (max_size <? Z.of_nat size * Z.of_nat cap)%Z then Panic
  else if size * cap =? 0 then UB
  else Ok (Live (repeat None cap)).
End Raw.

Section Vec.
Context {T : Type} (size : nat) (cap : nat).

(** [struct FCVec] (fc_vec.rs 13-16); the capacity is that of the [Alloc] in use (116-119). *)
Record vec := { buf : block T; len : nat }.

(** [Alloc::new_vec] (fc_vec.rs 128-138). *)
Definition new_vec : res vec := let* b := alloc_array size cap in Ok {| buf := b; len := 0 |}.

(** [Deref::deref] (fc_vec.rs 39-45), [iter] (27-29), indexing: [from_raw_parts(buf, len)] must see [len]
    initialised cells. *)
Fixpoint slice_from (b : block T) (i n : nat) : res (list T) :=
  match n with
  | 0 => Ok []
  | S n => let* x := ptr_read b i in let* r := slice_from b (S i) n in Ok (x :: r)
  end.
(** [FCVec::deref] (fc_vec.rs 39-45). *)
Definition vec_slice (v : vec) : res (list T) := slice_from (buf v) 0 (len v).

(** [FCVecRefMut::push] (fc_vec.rs 214-222), [FCVecContainer::push] (493-495). *)
Definition vec_push (v : vec) (x : T) : res vec :=
  if len v =? cap then Panic
  else let* b := ptr_write (buf v) (len v) x in Ok {| buf := b; len := len v + 1 |}.

(** [FCVecRefMut::try_push] (fc_vec.rs 226-235). *)
Definition vec_try_push (v : vec) (x : T) : res (option T * vec) :=
  if len v =? cap then Ok (Some x, v)
  else let* b := ptr_write (buf v) (len v) x in Ok (None, {| buf := b; len := len v + 1 |}).

(** [FCVecRefMut::insert] (fc_vec.rs 244-259). *)
Definition vec_insert (v : vec) (i : nat) (x : T) : res vec :=
  if len v <? i then Panic
  else if len v =? cap then Panic
  else
    let* b := ptr_copy (buf v) i (i + 1) (len v - i) in
    let* b := ptr_write b i x in
    Ok {| buf := b; len := len v + 1 |}.

(** [FCVecRefMut::remove] (fc_vec.rs 267-284). *)
Definition vec_remove (v : vec) (i : nat) : res (T * vec) :=
  if len v <=? i then Panic
  else
    let* x := ptr_read (buf v) i in
    let* b := ptr_copy (buf v) (i + 1) i (len v - i - 1) in
    Ok (x, {| buf := b; len := len v - 1 |}).

(** [FCVecRefMut::swap_remove] (fc_vec.rs 292-302). *)
Definition vec_swap_remove (v : vec) (i : nat) : res (T * vec) :=
  if len v <=? i then Panic
  else
    let* x := ptr_read (buf v) i in
    let* b := ptr_copy (buf v) (len v - 1) i 1 in
    Ok (x, {| buf := b; len := len v - 1 |}).

(** [FCVecRefMut::swap] (fc_vec.rs 309-316). *)
Definition vec_swap (v : vec) (i j : nat) : res vec :=
  if (len v <=? i) || (len v <=? j) then Panic
  else let* b := ptr_swap (buf v) i j in Ok {| buf := b; len := len v |}.

(** [FCVecRefMut::pop] (fc_vec.rs 320-328). *)
Definition vec_pop (v : vec) : res (option T * vec) :=
  if len v =? 0 then Ok (None, v)
  else
    let* x := ptr_read (buf v) (len v - 1) in
    Ok (Some x, {| buf := buf v; len := len v - 1 |}).

(** [FCVecRefMut::drop] (fc_vec.rs 332-338): the elements dropped, in order, and the block. *)
Fixpoint drop_loop (fuel : nat) (v : vec) : res (list T * vec) :=
  let* (o, v) := vec_pop v in
  match o with
  | None => Ok ([], v)
  | Some x =>
    match fuel with
    | 0 => OutOfFuel
    | S fuel => let* (d, v) := drop_loop fuel v in Ok (x :: d, v)
    end
  end.
(** [FCVecRefMut::drop] (fc_vec.rs 332-338). *)
Definition vec_drop (v : vec) : res (list T * block T) :=
  let* (d, v) := drop_loop (len v) v in
  let* b := dealloc (buf v) in
  Ok (d, b).

(** [Alloc::clone] (fc_vec.rs 168-180) of a slice of elements cloned to equal values. *)
Fixpoint push_all (v : vec) (l : list T) : res vec :=
  match l with
  | [] => Ok v
  | x :: r => let* v := vec_push v x in push_all v r
  end.
(** [Alloc::clone] (fc_vec.rs 168-180). *)
Definition vec_clone (l : list T) : res vec :=
  if cap <? length l then Panic else let* v := new_vec in push_all v l.

(** ** [IntoIter] (fc_vec.rs 498-550), with addresses: element [i] of a block at address [base] lies at
    [base + i * size]. *)
Record into_iter := { ibuf : block T; ibase : nat; istart : nat; iend : nat }.

(** [FCVecContainer::into_iter] (fc_vec.rs 433-452). *)
Definition vec_into_iter (base : nat) (v : vec) : into_iter :=
  {| ibuf := buf v; ibase := base; istart := base; iend := base + len v * size |}.

(** [ptr::read(p)]: the cell at address [p] (for zero-sized elements all cells have the same address). *)
Definition read_at (it : into_iter) (p : nat) : res T := ptr_read (ibuf it) ((p - ibase it) / size).

(** [IntoIter::next] (fc_vec.rs 508-518). *)
Definition iter_next_front (it : into_iter) : res (option T * into_iter) :=
  if istart it =? iend it then Ok (None, it)
  else
    let* x := read_at it (istart it) in
    Ok (Some x, {| ibuf := ibuf it; ibase := ibase it; istart := istart it + size; iend := iend it |}).

(** [IntoIter::size_hint] (fc_vec.rs 520-523): division by zero panics. *)
Definition iter_size_hint (it : into_iter) : res nat :=
  if size =? 0 then Panic else Ok ((iend it - istart it) / size).

(** [IntoIter::next_back] (fc_vec.rs 527-537). *)
Definition iter_next_back (it : into_iter) : res (option T * into_iter) :=
  if istart it =? iend it then Ok (None, it)
  else
    let it := {| ibuf := ibuf it; ibase := ibase it; istart := istart it; iend := iend it - size |} in
    let* x := read_at it (iend it) in
    Ok (Some x, it).

(** [<IntoIter as Drop>::drop] (fc_vec.rs 540-549): the elements dropped and the block. *)
Fixpoint exhaust (fuel : nat) (it : into_iter) : res (list T * into_iter) :=
  let* (o, it) := iter_next_front it in
  match o with
  | None => Ok ([], it)
  | Some x =>
    match fuel with
    | 0 => OutOfFuel
    | S fuel => let* (d, it) := exhaust fuel it in Ok (x :: d, it)
    end
  end.
(** [<IntoIter as Drop>::drop] (fc_vec.rs 540-549). *)
Definition iter_drop (it : into_iter) : res (list T * block T) :=
  let* (d, it) := exhaust (iend it - istart it) it in
  let* b := dealloc (ibuf it) in
  Ok (d, b).
End Vec.
Arguments vec : clear implicits.
Arguments into_iter : clear implicits.

(** ** Histories of a vector *)
Inductive vop (T : Type) : Type :=
| VPush (x : T)
| VTryPush (x : T)
| VInsert (i : nat) (x : T)
| VRemove (i : nat)
| VSwapRemove (i : nat)
| VSwap (i j : nat)
| VPop
| VRead.                         (* look at all elements *)
Arguments VPush {T} x. Arguments VTryPush {T} x. Arguments VInsert {T} i x. Arguments VRemove {T} i.
Arguments VSwapRemove {T} i. Arguments VSwap {T} i j. Arguments VPop {T}. Arguments VRead {T}.

(** What a call returns: the elements handed out. *)
Definition vec_step {T} (cap : nat) (v : vec T) (o : vop T) : res (list T * vec T) :=
  let opt (o : option T) := match o with Some x => [x] | None => [] end in
  match o with
  | VPush x => let* v := vec_push cap v x in Ok ([], v)
  | VTryPush x => let* (o, v) := vec_try_push cap v x in Ok (opt o, v)
  | VInsert i x => let* v := vec_insert cap v i x in Ok ([], v)
  | VRemove i => let* (x, v) := vec_remove v i in Ok ([x], v)
  | VSwapRemove i => let* (x, v) := vec_swap_remove v i in Ok ([x], v)
  | VSwap i j => let* v := vec_swap v i j in Ok ([], v)
  | VPop => let* (o, v) := vec_pop v in Ok (opt o, v)
  | VRead => let* l := vec_slice v in Ok (l, v)
  end.
(** Any number of calls; of the model only, no code line. *)
Fixpoint vec_run {T} (cap : nat) (v : vec T) (os : list (vop T)) : res (list (list T) * vec T) :=
  match os with
  | [] => Ok ([], v)
  | o :: os => let* (x, v) := vec_step cap v o in let* (xs, v) := vec_run cap v os in Ok (x :: xs, v)
  end.

(** Consuming the vector from both ends ([true]: [next], [false]: [next_back]). *)
Fixpoint iter_run {T} (size : nat) (it : into_iter T) (ds : list bool) : res (list (option T) * into_iter T) :=
  match ds with
  | [] => Ok ([], it)
  | d :: ds =>
    let* (o, it) := if d then iter_next_front size it else iter_next_back size it in
    let* (os, it) := iter_run size it ds in Ok (o :: os, it)
  end.
