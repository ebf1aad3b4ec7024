(** Dropping a tree when destructors panic.  CrashModel.v lets every call of user code panic but the destructors; here the
    destructors that run while a tree is dropped (of its keys, its values and its bounds) may panic as well.  A destructor
    that panics has still destroyed its object (the compiler destroys its fields).  A panic in a destructor that runs
    because of another panic aborts the process.  Not modelled: panics of the destructors that run inside other calls. *)
From Verif Require Export CrashModel.

(** How the drop of something ends; of the model only, no code line. *)
Inductive fin := Done | Unwinding | Aborted.

Section Dtor.
Context {B K V : Type}.
Notation xnode := (xnode B K V).
Notation D := (D K V).
Notation xthing := (xthing K V).
(** [crash n]: the [n]th call of user code or of a destructor panics.  [bdrop]: the bounds type has a destructor. *)
Variable (crash : nat -> bool) (bdrop : bool).

(** The destructor of a key, a value or bounds runs, and may panic at its end (user code, no code line). *)
Definition dtor (x : xthing) : D fin :=
  let$ _ := xdestroy x in
  fun s => Some (if crash (x_calls s) then Unwinding else Done,
                 {| x_next := x_next s; x_made := x_made s; x_gone := x_gone s; x_calls := S (x_calls s) |}).

(** [m1; m2]: a panic in [m1] skips [m2] (statements of a function, no code line). *)
Definition andthen (m1 m2 : D fin) : D fin :=
  let$ f := m1 in match f with Done => m2 | _ => dret f end.

(** Two fields, or a [Drop::drop] and the fields: the compiler runs [m2] even if [m1] panics, and a second panic aborts
    (drop glue, no code line). *)
Definition glue (m1 m2 : D fin) : D fin :=
  let$ f := m1 in
  match f with
  | Done => m2
  | Unwinding => let$ f2 := m2 in match f2 with Done => dret Unwinding | _ => dret Aborted end
  | Aborted => dret Aborted
  end.

(** A loop that a panic ends (no code line). *)
Fixpoint each {A} (f : A -> D fin) (l : list A) : D fin :=
  match l with [] => dret Done | x :: r => andthen (f x) (each f r) end.

(** The compiler's destructor of a [(Key, Value)] (no code line). *)
Definition p_drop_kv (kv : K * V) : D fin := glue (dtor (XKey (fst kv))) (dtor (XVal (snd kv))).
(** The compiler's destructor of a bare [Node] (node.rs 80-83): its bounds; the vector lies in a [ManuallyDrop] (45-48). *)
Definition p_drop_bare (n : xnode) : D fin := if bdrop then dtor (XBnd (x_bid n)) else dret Done.

(** [FCVecRefMut::drop] (fc_vec.rs 332-338): the elements are popped from the end, each destroyed at the end of its
    iteration; a panic there leaves the loop and skips the deallocation. *)
Definition p_drop_vec {T} (drop_elem : T -> D fin) (id : nat) (l : list T) : D fin :=
  andthen (each drop_elem (rev l)) (let$ _ := xdestroy (XBuf id) in dret Done).

(** [NodeRefMut::drop] (node.rs 625-634) and [InnerNodeChildrenRefMut::drop] (1295-1304): a panic in one child leaves the
    loop over the children and skips the vector; none of the types on the way has a destructor. *)
Fixpoint p_drop_node (level : nat) (n : xnode) {struct level} : D fin :=
  match level with
  | S l =>
    let$ cs := xread_inner bdrop n in
    andthen (each (p_drop_node l) cs) (p_drop_vec p_drop_bare (x_id n) cs)
  | 0 =>
    let$ es := xread_leaf n in
    p_drop_vec p_drop_kv (x_id n) es
  end.

(** [<NodeContainer as Drop>::drop] (node.rs 936-942), then its fields (706-710): the bounds of the root. *)
Definition p_drop_container (c : xcontainer B K V) : D fin :=
  glue (p_drop_node (fst c) (snd c)) (p_drop_bare (snd c)).
End Dtor.

Section DtorProgram.
Context {B K V : Type}.
Variable (crash : nat -> bool) (bdrop : bool) (P : Params B K).

(** One call, as [xstep] in CrashModel.v, but dropping a tree (lib.rs 88-91, node.rs 936-942) may panic; the tree is gone
    then too.  [None] in place of the outcome: the process was aborted. *)
Definition zstep (F : xforest B K V) (o : mop B K V)
  : D K V (option (option (list (xthing K V)) * xforest B K V)) :=
  match o with
  | MDrop i =>
    match xtree_at F i with
    | Some (_, t) =>
      let$ f := p_drop_container crash bdrop t in
      match f with
      | Done => dret (Some (Some [], set_nth i None F))
      | Unwinding => dret (Some (None, set_nth i None F))
      | Aborted => dret None
      end
    | None => dret (Some (Some [], F))
    end
  | _ =>
    let$ r := xstep crash bdrop P F o in
    match r with
    | inl (x, F) => dret (Some (Some x, F))
    | inr F => dret (Some (None, F))
    end
  end.

(** A whole program that catches every panic: for every call what the caller got back, or [None] if it panicked; the trees
    at the end, or [None] if the process was aborted. *)
Fixpoint zrun (F : xforest B K V) (os : list (mop B K V))
  : D K V (list (option (list (xthing K V))) * option (xforest B K V)) :=
  match os with
  | [] => dret ([], Some F)
  | o :: os =>
    let$ r := zstep F o in
    match r with
    | Some (x, F) => let$ (xs, F) := zrun F os in dret (x :: xs, F)
    | None => dret ([], None)
    end
  end.
End DtorProgram.
