(** Model of join.rs and of [JoinFilter] (filter.rs 173-198). *)
From Verif Require Export IterModel.

(** [trait JoinFilter] (filter.rs 173-198), on the borrowed forms of the keys. *)
Record JoinFilter (B0 B1 Q0 Q1 : Type) := {
  jtest_bounds : B0 -> B1 -> bool;
  jtest_key : Q0 -> Q1 -> bool
}.
Arguments jtest_bounds {B0 B1 Q0 Q1}. Arguments jtest_key {B0 B1 Q0 Q1}.

(** [RewindableIter] (join.rs 10-37): a slice and an index. *)
Record rewindable (T : Type) := { rw_slice : list T; rw_i : nat }.
Arguments rw_slice {T}. Arguments rw_i {T}.

Section Product.
Context {T0 T1 : Type}.

(** [RewindableIter::new] (join.rs 16-18; left_join.rs 26-28). *)
Definition rw_new {T} (slice : list T) : rewindable T := {| rw_slice := slice; rw_i := 0 |}.

(** [RewindableIter::get] (join.rs 20-26). *)
Definition rw_get {T} (r : rewindable T) : option T :=
  if rw_i r <? length (rw_slice r) then nth_error (rw_slice r) (rw_i r) else None.

(** [RewindableIter::advance] (join.rs 28-36): the flag says that it wrapped around. *)
Definition rw_advance {T} (r : rewindable T) : bool * rewindable T :=
  if length (rw_slice r) <=? rw_i r + 1
  then (true, {| rw_slice := rw_slice r; rw_i := 0 |})
  else (false, {| rw_slice := rw_slice r; rw_i := rw_i r + 1 |}).

(** [ProductIter] (join.rs 39-45). *)
Definition product : Type := (rewindable T0 * list T1)%type.
(** [ProductIter::new] (join.rs 41-45). *)
Definition product_new (s0 : list T0) (s1 : list T1) : product := (rw_new s0, s1).

(** [<ProductIter as Iterator>::next] (join.rs 47-61). *)
Definition product_next (p : product) : option (T0 * T1) * product :=
  match rw_get (fst p) with
  | Some x0 =>
    match snd p with
    | x1 :: rest =>
      let (wrapped, r) := rw_advance (fst p) in
      (Some (x0, x1), (r, if wrapped then rest else snd p))
    | [] => (None, p)
    end
  | None => (None, p)
  end.

(** [Iterator::find] on it: [next] until the predicate holds. *)
Fixpoint product_find (g : T0 -> T1 -> bool) (fuel : nat) (p : product) : res (option (T0 * T1) * product) :=
  match product_next p with
  | (None, p) => Ok (None, p)
  | (Some x, p) =>
    if g (fst x) (snd x) then Ok (Some x, p)
    else match fuel with 0 => OutOfFuel | S fuel => product_find g fuel p end
  end.

(** Number of calls of [next] that can succeed. *)
Definition product_size (p : product) : nat := length (rw_slice (fst p)) * length (snd p).
End Product.
Arguments product : clear implicits.

Section Join.
Context {B0 B1 K0 K1 V0 V1 Q0 Q1 : Type} (brw0 : K0 -> Q0) (brw1 : K1 -> Q1) (f : JoinFilter B0 B1 Q0 Q1).
Notation node0 := (node B0 K0 V0).
Notation node1 := (node B1 K1 V1).

(** [JoinIterStack] (join.rs 63-66). *)
Definition join_stack : Type := iter_stack (product (K0 * V0) (K1 * V1)) (product node0 node1).

(** [struct JoinIter] (join.rs 73-82): the stack and the two paddings (the filter is a parameter). *)
Definition join_iter : Type := (join_stack * (nat * nat))%type.

(** [JoinIter::start_join] (join.rs 98-121); a [NodeRef] is a node and its level. *)
Definition start_join (n0 : nat * node0) (n1 : nat * node1) (s : join_stack) : res join_stack :=
  let* ch0 := children_at (fst n0) (snd n0) in
  let* ch1 := children_at (fst n1) (snd n1) in
  match ch0, ch1 with
  | CLeaf es0, CLeaf es1 => stack_set_leaf s (product_new es0 es1)
  | _, _ =>
    let height := Nat.max (fst n0) (fst n1) in
    if height =? 0 then Panic (* [NonZeroUsize::new(..).unwrap()] *)
    else
      stack_set_inner s height
        (product_new (match ch0 with CInner cs => cs | CLeaf _ => [snd n0] end)
                     (match ch1 with CInner cs => cs | CLeaf _ => [snd n1] end))
  end.

(** [JoinIter::new] (join.rs 123-151). *)
Definition join_new (root0 : rtree B0 K0 V0) (root1 : rtree B1 K1 V1) : res join_iter :=
  if negb (jtest_bounds f (node_bounds (snd root0)) (node_bounds (snd root1))) then Ok (stack_empty, (0, 0))
  else
    let height := Nat.max (fst root0) (fst root1) in
    let stack := stack_new (product_new [] []) (repeat (product_new [] []) height) in
    let* stack := start_join root0 root1 stack in
    Ok (stack, (height - fst root0, height - fst root1)).

(** Loop bound of [join_loop]. *)
Definition pair_size (p : node0 * node1) : nat := node_size (fst p) * node_size (snd p).
(** Of the model only (loop bound). *)
Definition product_fuel (p : product node0 node1) : nat :=
  list_sum (map node_size (rw_slice (fst p))) * list_sum (map node_size (snd p)).
(** Of the model only (loop bound). *)
Definition join_slot_size (s : slot (product (K0 * V0) (K1 * V1)) (product node0 node1)) : nat :=
  match s with SLeaf _ => 0 | SInner p => product_fuel p end.
(** Of the model only (loop bound). *)
Definition join_fuel (s : join_stack) : nat := 2 * list_sum (map join_slot_size s) + length s.

(** [JoinIter::next] (join.rs 154-203): the [while] loop. *)
Fixpoint join_loop (fuel level : nat) (it : join_iter) : res (option ((K0 * V0) * (K1 * V1)) * join_iter) :=
  let '(s, (pad0, pad1)) := it in
  if level <? length s then
    match fuel with
    | 0 => OutOfFuel
    | S fuel =>
      match level with
      | S l =>
        let* p := stack_inner s (S l) in
        let* (o, p) := product_find (fun n0 n1 => jtest_bounds f (node_bounds n0) (node_bounds n1)) (product_size p) p in
        let* s := stack_set_inner s (S l) p in
        match o with
        | Some (n0, n1) =>
          let* s := start_join (l - pad0, n0) (l - pad1, n1) s in
          join_loop fuel l (s, (pad0, pad1))
        | None => join_loop fuel (S l + 1) (s, (pad0, pad1))
        end
      | 0 =>
        let* p := stack_leaf s in
        let* (o, p) := product_find (fun e0 e1 => jtest_key f (brw0 (fst e0)) (brw1 (fst e1))) (product_size p) p in
        let* s := stack_set_leaf s p in
        match o with
        | Some x => Ok (Some x, (s, (pad0, pad1)))
        | None => join_loop fuel 1 (s, (pad0, pad1))
        end
      end
    end
  else Ok (None, it).

(** [JoinIter::next] (join.rs 154-203). *)
Definition join_next (it : join_iter) : res (option ((K0 * V0) * (K1 * V1)) * join_iter) :=
  join_loop (join_fuel (fst it)) 0 it.
End Join.

(** [RTree::join] (lib.rs 262-276). *)
Definition rtree_join {B0 B1 K0 K1 V0 V1 Q0 Q1 : Type} (a : rtree B0 K0 V0) (b : rtree B1 K1 V1)
  (f : JoinFilter B0 B1 Q0 Q1) : res join_iter := join_new f a b.
