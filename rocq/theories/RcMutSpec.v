(** What is expected of references that never share memory: each has its own value.  No heap here. *)
From Verif Require Export RcMutModel IterSpec.

(** An allocator (present or dropped) and the values of the references handed out ([None]: dropped). *)
Definition own_step {V : Type} (s : bool * list (option V)) (o : rc_op V) : option V * (bool * list (option V)) :=
  let (owner, vals) := s in
  match o with
  | RMake v => (None, (owner, if owner then vals ++ [Some v] else vals))
  | RRead i => (alive vals i, s)
  | RWrite i v => (None, (owner, match alive vals i with None => vals | Some _ => set_nth i (Some v) vals end))
  | RDrop i => (None, (owner, match alive vals i with None => vals | Some _ => set_nth i None vals end))
  | RDropAlloc => (None, (false, vals))
  end.
Fixpoint own_run {V : Type} (s : bool * list (option V)) (os : list (rc_op V))
  : list (option V) * (bool * list (option V)) :=
  match os with
  | [] => ([], s)
  | o :: os => let (x, s) := own_step s o in let (xs, s) := own_run s os in (x :: xs, s)
  end.

(** The state of the memory: how many boxes are allocated and not freed. *)
Definition live_boxes {V : Type} (h : rc_mem V) : nat :=
  length (filter (fun b => match b with RLive _ _ => true | RFreed => false end) h).
(** How many references exist. *)
Definition live_refs {X : Type} (l : list (option X)) : nat :=
  length (filter (fun o => match o with Some _ => true | None => false end) l).

(** A left join used in any order: the left entries still to come ([None]: join dropped) and, for every
    right-hand iterator, the entries it has still to yield ([None]: dropped).  [matches e] are the right entries
    that match [e], in their tree's iteration order. *)
Section LeftJoinSpec.
Context {K0 K1 V0 V1 : Type} (matches : K0 * V0 -> list (K1 * V1)).
Definition ljs_step (s : option (list (K0 * V0)) * list (option (list (K1 * V1)))) (o : lj_op)
  : @lj_out K0 K1 V0 V1 * (option (list (K0 * V0)) * list (option (list (K1 * V1)))) :=
  let (left, inners) := s in
  match o with
  | JNext =>
    match left with
    | None => (OutNothing, s)
    | Some [] => (OutLeft None, s)
    | Some (e :: rest) => (OutLeft (Some e), (Some rest, inners ++ [Some (matches e)]))
    end
  | JInner i =>
    match alive inners i with
    | None => (OutNothing, s)
    | Some l => (OutRight (hd_error l), (left, set_nth i (Some (tl l)) inners))
    end
  | JDropInner i =>
    (OutNothing, (left, match alive inners i with None => inners | Some _ => set_nth i None inners end))
  | JDrop => (OutNothing, (None, inners))
  end.
Fixpoint ljs_run (s : option (list (K0 * V0)) * list (option (list (K1 * V1)))) (os : list lj_op)
  : list (@lj_out K0 K1 V0 V1) * (option (list (K0 * V0)) * list (option (list (K1 * V1)))) :=
  match os with
  | [] => ([], s)
  | o :: os => let (x, s) := ljs_step s o in let (xs, s) := ljs_run s os in (x :: xs, s)
  end.
End LeftJoinSpec.
