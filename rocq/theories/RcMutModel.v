(** Model of rc_mut.rs on a heap, and of a left join whose right-hand iterators live in it (left_join.rs 53-63,
    205-226; iter.rs 144-156). *)
From Verif Require Export LeftJoinModel.

(** ** Boxes *)

(** [struct RcMutBox] (rc_mut.rs 9-13): the [shared] cell and the value ([None] while uninitialised); or
    deallocated.  Every box of one allocator has the same layout, so layouts are left to LayoutModel.v. *)
Inductive rbox (V : Type) : Type :=
| RLive (shared : bool) (value : option V)
| RFreed.
Arguments RLive {V} shared value.
Arguments RFreed {V}.

Section Heap.
Context {V : Type}.
(** The heap: all boxes ever allocated (rc_mut.rs 60-66). *)
Definition rc_mem : Type := list (rbox V).

(** [allocate_for_layout] and writing [shared] (rc_mut.rs 34-41, 68-72, 158-165): a box at a fresh address. *)
Definition rc_alloc (h : rc_mem) : rc_mem * nat := (h ++ [RLive false None], length h).

(** Access to the [shared] cell: undefined if the box is gone. *)
Definition get_shared (h : rc_mem) (p : nat) : res bool :=
  match nth_error h p with Some (RLive s _) => Ok s | _ => UB end.
(** [shared.set(..)] (rc_mut.rs 91-92, 179-182, 198). *)
Definition set_shared (h : rc_mem) (p : nat) (s : bool) : res rc_mem :=
  match nth_error h p with Some (RLive _ v) => Ok (set_nth p (RLive s v) h) | _ => UB end.
(** [Cell::replace]. *)
Definition replace_shared (h : rc_mem) (p : nat) (s : bool) : res (bool * rc_mem) :=
  let* old := get_shared h p in let* h := set_shared h p s in Ok (old, h).

(** Reading the value ([Deref], rc_mut.rs 203-208): undefined if uninitialised. *)
Definition read_value (h : rc_mem) (p : nat) : res V :=
  match nth_error h p with Some (RLive _ (Some v)) => Ok v | _ => UB end.
(** Writing the value ([DerefMut], rc_mut.rs 211-214; [ptr::write] of the initialiser, 87-90). *)
Definition write_value (h : rc_mem) (p : nat) (v : V) : res rc_mem :=
  match nth_error h p with Some (RLive s _) => Ok (set_nth p (RLive s (Some v)) h) | _ => UB end.
(** [alloc::dealloc]. *)
Definition free_box (h : rc_mem) (p : nat) : res rc_mem :=
  match nth_error h p with Some (RLive _ _) => Ok (set_nth p RFreed h) | _ => UB end.

(** [<RcMutAlloc as Drop>::drop] (rc_mut.rs 168-184). *)
Definition alloc_drop (h : rc_mem) (a : nat) : res rc_mem :=
  let* (s, h) := replace_shared h a false in
  if s then Ok h else free_box h a.

(** [RcMutAlloc::make_mut_init_raw] (rc_mut.rs 81-95): the heap, and the box that both the allocator and the new
    [RcMut] point to.  [*self = self.clone()] allocates first and then drops the old allocator. *)
Definition make_mut (h : rc_mem) (a : nat) (v : V) : res (rc_mem * nat) :=
  let* s := get_shared h a in
  let* (h, a) :=
    if s then let (h, p) := rc_alloc h in let* h := alloc_drop h a in Ok (h, p) else Ok (h, a) in
  let* h := set_shared h a true in
  let* h := write_value h a v in
  Ok (h, a).

(** [<RcMut as Drop>::drop] (rc_mut.rs 190-200): the value dropped in place, if any, and the heap. *)
Definition rcmut_drop (h : rc_mem) (p : nat) : res (option V * rc_mem) :=
  let* (s, h) := replace_shared h p false in
  if s then Ok (None, h)
  else let* v := read_value h p in let* h := free_box h p in Ok (Some v, h).
End Heap.
Arguments rc_mem : clear implicits.

(** ** Any use of one allocator and its references
    References are numbered in the order of their creation.  A call on a reference that does not exist or was
    dropped, or on the dropped allocator, cannot be written in safe Rust; here it does nothing. *)
Inductive rc_op (V : Type) : Type :=
| RMake (v : V)                   (* allocator: a new reference, initialised with [v] *)
| RRead (i : nat)                 (* look at the value of reference [i] *)
| RWrite (i : nat) (v : V)        (* overwrite it *)
| RDrop (i : nat)                 (* drop reference [i] *)
| RDropAlloc.                     (* drop the allocator *)
Arguments RMake {V} v. Arguments RRead {V} i. Arguments RWrite {V} i v. Arguments RDrop {V} i. Arguments RDropAlloc {V}.

(** An allocator (rc_mut.rs 21-24), its references (172-174) and the heap. *)
Record rc_state (V : Type) := { rc_heap : rc_mem V; rc_owner : option nat; rc_refs : list (option nat) }.
Arguments rc_heap {V}. Arguments rc_owner {V}. Arguments rc_refs {V}.

(** [RcMutAlloc::new_for_layout] (rc_mut.rs 68-72). *)
Definition rc_init {V : Type} : rc_state V :=
  let (h, p) := rc_alloc [] in {| rc_heap := h; rc_owner := Some p; rc_refs := [] |}.

(** Of the model only; no code line. *)
Definition alive {X : Type} (l : list (option X)) (i : nat) : option X :=
  match nth_error l i with Some (Some x) => Some x | _ => None end.

(** One call of rc_mut.rs by its user. *)
Definition rc_step {V : Type} (s : rc_state V) (o : rc_op V) : res (option V * rc_state V) :=
  match o with
  | RMake v =>
    match rc_owner s with
    | None => Ok (None, s)
    | Some a =>
      let* (h, p) := make_mut (rc_heap s) a v in
      Ok (None, {| rc_heap := h; rc_owner := Some p; rc_refs := rc_refs s ++ [Some p] |})
    end
  | RRead i =>
    match alive (rc_refs s) i with
    | None => Ok (None, s)
    | Some p => let* v := read_value (rc_heap s) p in Ok (Some v, s)
    end
  | RWrite i v =>
    match alive (rc_refs s) i with
    | None => Ok (None, s)
    | Some p =>
      let* h := write_value (rc_heap s) p v in
      Ok (None, {| rc_heap := h; rc_owner := rc_owner s; rc_refs := rc_refs s |})
    end
  | RDrop i =>
    match alive (rc_refs s) i with
    | None => Ok (None, s)
    | Some p =>
      let* (_, h) := rcmut_drop (rc_heap s) p in
      Ok (None, {| rc_heap := h; rc_owner := rc_owner s; rc_refs := set_nth i None (rc_refs s) |})
    end
  | RDropAlloc =>
    match rc_owner s with
    | None => Ok (None, s)
    | Some a =>
      let* h := alloc_drop (rc_heap s) a in
      Ok (None, {| rc_heap := h; rc_owner := None; rc_refs := rc_refs s |})
    end
  end.
(** Any number of calls; of the model only. *)
Fixpoint rc_run {V : Type} (s : rc_state V) (os : list (rc_op V)) : res (list (option V) * rc_state V) :=
  match os with
  | [] => Ok ([], s)
  | o :: os => let* (x, s) := rc_step s o in let* (xs, s) := rc_run s os in Ok (x :: xs, s)
  end.

(** ** A left join with its right-hand iterators *)
Section LeftJoinHeap.
Context {B0 B1 K0 K1 V0 V1 Q0 Q1 : Type} (brw0 : K0 -> Q0) (brw1 : K1 -> Q1) (qb0 : Q0 -> B0)
  (f : JoinFilter B0 B1 Q0 Q1).

(** What the user of a left join can do (left_join.rs 53-63, 160-251). *)
Inductive lj_op : Type :=
| JNext                           (* [next] of the join *)
| JInner (i : nat)                (* [next] of the [i]-th right-hand iterator handed out *)
| JDropInner (i : nat)            (* drop it *)
| JDrop.                          (* drop the join *)
Inductive lj_out : Type :=
| OutLeft (e : option (K0 * V0))
| OutRight (e : option (K1 * V1))
| OutNothing.

(** The join owns its two stacks and the allocator; a right-hand iterator is a [FilterIter] of an [RcMut] and a
    [JoiningFilter] for the left key. *)
Record lj_state := {
  lj_join : option (@left_join_iter B0 B1 K0 K1 V0 V1 * nat);
  lj_heap : rc_mem (@tree_stack B1 K1 V1);
  lj_inners : list (option (nat * K0))
}.

(** [LeftJoinIter::new] (left_join.rs 108-139). *)
Definition lj_new (a : rtree B0 K0 V0) (b : rtree B1 K1 V1) : res lj_state :=
  let* it := rtree_left_join a b in
  let (h, p) := rc_alloc [] in
  Ok {| lj_join := Some (it, p); lj_heap := h; lj_inners := [] |}.

(** One such call. *)
Definition lj_step (s : lj_state) (o : lj_op) : res (lj_out * lj_state) :=
  match o with
  | JNext =>
    match lj_join s with
    | None => Ok (OutNothing, s)
    | Some (it, a) =>
      let* (r, it) := left_join_next f it in
      match r with
      | None => Ok (OutLeft None, {| lj_join := Some (it, a); lj_heap := lj_heap s; lj_inners := lj_inners s |})
      | Some (e, stack) =>
        let* (h, p) := make_mut (lj_heap s) a stack in
        Ok (OutLeft (Some e),
            {| lj_join := Some (it, p); lj_heap := h; lj_inners := lj_inners s ++ [Some (p, fst e)] |})
      end
    end
  | JInner i =>
    match alive (lj_inners s) i with
    | None => Ok (OutNothing, s)
    | Some (p, k) =>
      let* st := read_value (lj_heap s) p in
      let* (r, st) := iter_next_with brw1 (joining_filter qb0 f (brw0 k)) st in
      let* h := write_value (lj_heap s) p st in
      Ok (OutRight r, {| lj_join := lj_join s; lj_heap := h; lj_inners := lj_inners s |})
    end
  | JDropInner i =>
    match alive (lj_inners s) i with
    | None => Ok (OutNothing, s)
    | Some (p, _) =>
      let* (_, h) := rcmut_drop (lj_heap s) p in
      Ok (OutNothing, {| lj_join := lj_join s; lj_heap := h; lj_inners := set_nth i None (lj_inners s) |})
    end
  | JDrop =>
    match lj_join s with
    | None => Ok (OutNothing, s)
    | Some (_, a) =>
      let* h := alloc_drop (lj_heap s) a in
      Ok (OutNothing, {| lj_join := None; lj_heap := h; lj_inners := lj_inners s |})
    end
  end.
(** Any number of calls; of the model only. *)
Fixpoint lj_run (s : lj_state) (os : list lj_op) : res (list lj_out * lj_state) :=
  match os with
  | [] => Ok ([], s)
  | o :: os => let* (x, s) := lj_step s o in let* (xs, s) := lj_run s os in Ok (x :: xs, s)
  end.
End LeftJoinHeap.
Arguments lj_state : clear implicits.
