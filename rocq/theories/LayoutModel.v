(** Memory layouts: what is asked of the allocator and with which layout it is given back (fc_vec.rs, rc_mut.rs,
    iter_stack.rs).  Sizes and alignments are in bytes. *)
From Verif Require Export Base.
From Coq Require Export ZArith.
Open Scope nat_scope.

(** [std::alloc::Layout]. *)
Record layout := { l_size : nat; l_align : nat }.

(** Equality of layouts; of the model only, no code line. *)
Definition layout_eqb (a b : layout) : bool := (l_size a =? l_size b) && (l_align a =? l_align b).

(** [Layout::from_size_align] of [core]: the size, rounded up to the alignment, must not exceed [isize::MAX]. *)
Definition from_size_align (size align : nat) : res layout :=
  if (Z.of_nat size <=? 2 ^ 63 - 1 - (Z.of_nat align - 1))%Z then Ok {| l_size := size; l_align := align |} else Panic.

(** [Layout::padding_needed_for] of [core]. *)
Definition padding_needed_for (l : layout) (align : nat) : nat := (align - l_size l mod align) mod align.

(** [Layout::array::<T>(n).unwrap()] of [core] for elements of size [esz] and alignment [eal]. *)
Definition array_layout (esz eal n : nat) : res layout := from_size_align (esz * n) eal.

(** [Layout::extend(next).unwrap().0] of [core]. *)
Definition extend (l next : layout) : res layout :=
  from_size_align (l_size l + padding_needed_for l (l_align next) + l_size next) (Nat.max (l_align l) (l_align next)).

(** [Layout::pad_to_align] of [core]. *)
Definition pad_to_align (l : layout) : layout :=
  {| l_size := l_size l + padding_needed_for l (l_align l); l_align := l_align l |}.

(** [RcMutAlloc::box_layout] (rc_mut.rs 26-32); [Layout::new::<RcMutBox<()>>()] is one byte, the [Cell<bool>]. *)
Definition box_layout (l : layout) : res layout :=
  let* e := extend {| l_size := 1; l_align := 1 |} l in Ok (pad_to_align e).

(** [Layout::for_value] of [core] (rc_mut.rs 201) on [RcMutBox<[E]>] with [n] elements, [repr(C)] (rc_mut.rs 9-13): what the
    compiler computes.  Field [shared] is at 0, field [value] at the next multiple of its alignment, the end is rounded up. *)
Definition round_up (x align : nat) : nat := (x + align - 1) / align * align.
(** See [round_up]. *)
Definition for_value_layout (esz eal n : nat) : layout :=
  {| l_size := round_up (round_up 1 eal + esz * n) (Nat.max 1 eal); l_align := Nat.max 1 eal |}.

(** ** Blocks of memory *)

(** A block requested with a layout, or already given back. *)
Inductive lblock := LLive (l : layout) | LFreed.
(** All blocks ever requested; of the model only. *)
Definition lheap := list lblock.

(** [alloc::alloc]: undefined for zero bytes. *)
Definition lalloc (l : layout) (h : lheap) : res (lheap * nat) :=
  if l_size l =? 0 then UB else Ok (h ++ [LLive l], length h).
(** [alloc::dealloc]: undefined unless the block is allocated and the layout is the one it was requested with. *)
Definition ldealloc (p : nat) (l : layout) (h : lheap) : res lheap :=
  match nth_error h p with
  | Some (LLive l') => if layout_eqb l l' then Ok (set_nth p LFreed h) else UB
  | _ => UB
  end.

(** What the crate owns.  [HVec]: a node's vector of [cap] elements (fc_vec.rs 13-16).  [HBox]: a box of [n] entries shared
    by an [RcMutAlloc] and an [RcMut] (rc_mut.rs 9-13; who gives it back is C29).  [HStack]: the boxed stack of an iterator
    (iter_stack.rs 16-42), [None] if it has no memory. *)
Inductive handle :=
| HVec (esz eal cap p : nat)
| HBox (esz eal n p : nat)
| HStack (esz eal n : nat) (p : option nat).

(** Requests and returns. *)
Inductive lop :=
| LNewVec (esz eal cap : nat)
| LNewBox (esz eal n : nat)
| LNewStack (esz eal n extra : nat)    (* [extra]: what [Vec::with_capacity] reserved beyond what it was asked for *)
| LEmptyStack (esz eal : nat)
| LDrop (i : nat) (by_ref : bool).     (* by an [RcMut], or by anything else *)

(** [Vec::with_capacity] (iter_stack.rs 25, "at least capacity elements"; no memory for zero bytes), filled, [Vec::leak]
    (39). *)
Definition new_stack (esz eal n extra : nat) (h : lheap) : res (handle * lheap) :=
  if esz * (n + extra) =? 0 then Ok (HStack esz eal n None, h)
  else
    let* l := array_layout esz eal (n + extra) in
    let* (h, p) := lalloc l h in Ok (HStack esz eal n (Some p), h).

(** One request or return.  [Alloc::new_vec] (fc_vec.rs 129-139); [allocate_for_layout] (rc_mut.rs 34-41) with
    [IterStackAllocHelper::layout] (iter_stack.rs 73-76) or [SliceAllocHelper::layout] (rc_mut.rs 103-106);
    [IterStack::new_box] (iter_stack.rs 155-161); [IterStack::empty_box] (150-153): a dangling pointer. *)
Definition lstep (hs : list (option handle)) (h : lheap) (o : lop) : res (list (option handle) * lheap) :=
  match o with
  | LNewVec esz eal cap =>
    let* l := array_layout esz eal cap in let* (h, p) := lalloc l h in Ok (hs ++ [Some (HVec esz eal cap p)], h)
  | LNewBox esz eal n =>
    let* l := array_layout esz eal n in let* l := box_layout l in
    let* (h, p) := lalloc l h in Ok (hs ++ [Some (HBox esz eal n p)], h)
  | LNewStack esz eal n extra => let* (x, h) := new_stack esz eal n extra h in Ok (hs ++ [Some x], h)
  | LEmptyStack esz eal => Ok (hs ++ [Some (HStack esz eal 0 None)], h)
  | LDrop i by_ref =>
    match nth_error hs i with
    | Some (Some x) =>
      let* h :=
        match x with
        | HVec esz eal cap p => let* l := array_layout esz eal cap in ldealloc p l h     (* fc_vec.rs 336-337, 545-547 *)
        | HBox esz eal n p =>
          if by_ref then ldealloc p (for_value_layout esz eal n) h                       (* rc_mut.rs 201-202 *)
          else let* l := array_layout esz eal n in let* l := box_layout l in ldealloc p l h   (* rc_mut.rs 186 *)
        | HStack esz eal n p =>                        (* [Box::drop]: the layout of the value; nothing for zero bytes *)
          if esz * n =? 0 then Ok h
          else match p with Some p => ldealloc p {| l_size := esz * n; l_align := eal |} h | None => UB end
        end in
      Ok (set_nth i None hs, h)
    | _ => Ok (hs, h)                                  (* already dropped: not expressible in safe Rust *)
    end
  end.

(** Any number of requests and returns; of the model only. *)
Fixpoint lrun (hs : list (option handle)) (h : lheap) (os : list lop) : res (list (option handle) * lheap) :=
  match os with
  | [] => Ok (hs, h)
  | o :: os => let* (hs, h) := lstep hs h o in lrun hs h os
  end.
