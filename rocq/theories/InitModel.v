(** Model of the memory that iterator stacks are built in (iter_stack.rs 58-62, 84-145, 198-219, 299-310): slots that may not
    have been written yet, and the guard that writes them.  The callbacks are functions that answer or panic; their own state is
    left out (those of the crate have none). *)
From Verif Require Export LeftJoinModel.

(** [MaybeUninit<Entry<Leaf, Inner>>] (iter_stack.rs 61-62): nothing, or the field that was written. *)
Inductive cell (L I : Type) : Type :=
| Uninit
| Written (s : slot L I).
Arguments Uninit {L I}.
Arguments Written {L I} s.

Section Init.
Context {L I : Type}.
(** [MaybeUninitIterStack] (iter_stack.rs 61-62). *)
Definition memory : Type := list (cell L I).

(** [struct Guard] (iter_stack.rs 89-92). *)
Record guard : Type := { g_target : memory; g_i : nat }.

(** [Guard::push] (iter_stack.rs 99-106). *)
Definition guard_push (g : guard) (e : slot L I) : res guard :=
  if g_i g <? length (g_target g)
  then Ok {| g_target := set_nth (g_i g) (Written e) (g_target g); g_i := g_i g + 1 |}
  else Panic.

(** [self.target.0[i].assume_init_drop()] (iter_stack.rs 126): undefined for a slot that was not written; [Entry] is a union of
    [ManuallyDrop]s without [Drop], so no destructor runs.  The answer lists the destructors that ran. *)
Definition assume_init_drop (m : memory) (i : nat) : res (list (L + I)) :=
  match nth_error m i with
  | None => Panic
  | Some Uninit => UB
  | Some (Written _) => Ok []
  end.
(** [Guard::drop] (iter_stack.rs 122-130), a loop over [is]. *)
Fixpoint guard_drop_loop (m : memory) (is : list nat) : res (list (L + I)) :=
  match is with
  | [] => Ok []
  | i :: is => let* d := assume_init_drop m i in let* ds := guard_drop_loop m is in Ok (d ++ ds)
  end.
(** [Guard::drop] (iter_stack.rs 122-130). *)
Definition guard_drop (g : guard) : res (list (L + I)) := guard_drop_loop (g_target g) (seq 0 (g_i g)).

(** The cast to [&mut IterStack] (iter_stack.rs 118): a reference to slots that were not written is undefined. *)
Fixpoint assume_init (m : memory) : res (iter_stack L I) :=
  match m with
  | [] => Ok []
  | Uninit :: _ => UB
  | Written s :: m => let* r := assume_init m in Ok (s :: r)
  end.

(** How building ends: the stack, or [None] when it panics; the memory it leaves; the destructors that ran. *)
Definition built : Type := (option (iter_stack L I) * memory * list (L + I))%type.

(** A panic while the guard is alive drops the guard (iter_stack.rs 122-130). *)
Definition guard_unwind (g : guard) : res built := let* d := guard_drop g in Ok (None, g_target g, d).

(** [Guard::finish] (iter_stack.rs 108-119); the guard is dropped after [i] was set to 0. *)
Definition guard_finish (g : guard) : res built :=
  if g_i g =? length (g_target g) then
    let g := {| g_target := g_target g; g_i := 0 |} in
    let* s := assume_init (g_target g) in
    let* d := guard_drop g in
    Ok (Some s, g_target g, d)
  else guard_unwind g.

(** [for i in 1.._guard.len()] (iter_stack.rs 137-141). *)
Fixpoint init_loop (inner : nat -> res I) (is : list nat) (g : guard) : res built :=
  match is with
  | [] => guard_finish g
  | i :: is =>
    match inner i with
    | Ok x =>
      match guard_push g (SInner x) with
      | Ok g => init_loop inner is g
      | Panic => guard_unwind g
      | UB => UB
      | OutOfFuel => OutOfFuel
      end
    | Panic => guard_unwind g
    | UB => UB
    | OutOfFuel => OutOfFuel
    end
  end.

(** [IterStack::init_into] (iter_stack.rs 84-145). *)
Definition init_into (target : memory) (leaf : res L) (inner : nat -> res I) : res built :=
  let g := {| g_target := target; g_i := 0 |} in
  if 0 <? length target then
    match leaf with
    | Ok x =>
      match guard_push g (SLeaf x) with
      | Ok g => init_loop inner (seq 1 (length target - 1)) g
      | Panic => guard_unwind g
      | UB => UB
      | OutOfFuel => OutOfFuel
      end
    | Panic => guard_unwind g
    | UB => UB
    | OutOfFuel => OutOfFuel
    end
  else guard_finish g.

(** [<IterStack as Drop>::drop] (iter_stack.rs 299-310): the destructors that run, in order. *)
Definition stack_drop (s : iter_stack L I) : res (list (L + I)) :=
  let* d := match s with [] => Ok [] | _ => let* x := stack_leaf s in Ok [inl x] end in
  let* ds :=
    (fix loop (is : list nat) : res (list (L + I)) :=
       match is with
       | [] => Ok []
       | i :: is => let* y := stack_inner s i in let* ds := loop is in Ok (inr y :: ds)
       end) (seq 1 (length s - 1)) in
  Ok (d ++ ds).
End Init.
Arguments memory : clear implicits.
Arguments guard : clear implicits.
Arguments built : clear implicits.

(** [IterStack::map_into] (iter_stack.rs 198-219). *)
Definition map_into {L I L1 I1 : Type} (s : iter_stack L I) (map_leaf : L -> res L1) (map_inner : I -> nat -> res I1)
    (target : memory L1 I1) : res (built L1 I1) :=
  if length target =? length s then
    init_into target (let* x := stack_leaf s in map_leaf x) (fun i => let* x := stack_inner s i in map_inner x i)
  else Ok (None, target, []).

(** The memory requested for a right-hand iterator (left_join.rs 127-130): [root_right.level() + 2] slots, not yet written. *)
Definition right_block {B1 K1 V1 : Type} (root1 : rtree B1 K1 V1) : memory (list (K1 * V1)) (list (node B1 K1 V1)) :=
  repeat Uninit (fst root1 + 2).

(** Building the right-hand iterator (left_join.rs 208-219). *)
Definition build_right {B1 K1 V1 : Type} (right : @rw_stack B1 K1 V1) (target : memory (list (K1 * V1)) (list (node B1 K1 V1)))
  : res (built (list (K1 * V1)) (list (node B1 K1 V1))) :=
  map_into right rw_remainder (fun inner _ => rw_remainder inner) target.
