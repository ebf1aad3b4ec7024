(** Model of left_join.rs, of [InnerIterStack] (iter_stack.rs 311-382) and of [JoiningFilter] (filter.rs 200-237).
    The right-hand stack handed to the caller is modelled by its value; where its memory comes from is
    modelled in RcMutModel.v. *)
From Verif Require Export JoinModel.

(** ** Sub-stacks *)

(** [&mut stack[level..]] and [&mut stack[level..level + 1]] (iter_stack.rs 248-284): [g] changes the sub-slice in
    place; the range panics when it is out of bounds. *)
Definition on_sub {X A : Type} (s : list X) (level : nat) (whole : bool) (g : list X -> res (A * list X))
  : res (A * list X) :=
  let upto := if whole then length s else level + 1 in
  if (upto <? level) || (length s <? upto) then Panic
  else
    let* (a, mid) := g (firstn (upto - level) (skipn level s)) in
    Ok (a, firstn level s ++ mid ++ skipn upto s).

Section InnerStack.
Context {L I T : Type} (take : I -> res (option T * I)) (expand : T -> res I).

(** [InnerIterStack::next] and [InnerIterStack::find] (iter_stack.rs 322-366); [take] is [iter.next()] respectively
    [iter.find(&mut predicate)], [expand] is [get_children]. *)
Fixpoint inner_search (fuel i : nat) (s : iter_stack L I) : res (option T * iter_stack L I) :=
  if i <? length s then
    match fuel with
    | 0 => OutOfFuel
    | S fuel =>
      let* it := stack_inner s i in
      let* (o, it) := take it in
      let* s := stack_set_inner s i it in
      match o with
      | Some child =>
        match i with
        | 0 => Ok (Some child, s)
        | S i =>
          let* it := expand child in
          let* s := stack_set_inner s i it in
          inner_search fuel i s
        end
      | None => inner_search fuel (i + 1) s
      end
    end
  else Ok (None, s).
End InnerStack.

(** ** [RewindableIter] (left_join.rs 20-50); the constructor is [rw_new] *)
Section Rewindable.
Context {T : Type}.

(** [RewindableIter::rewind] (left_join.rs 30-32). *)
Definition rw_rewind (r : rewindable T) : rewindable T := {| rw_slice := rw_slice r; rw_i := 0 |}.

(** [RewindableIter::remainder_iter] (left_join.rs 34-36). *)
Definition rw_remainder (r : rewindable T) : res (list T) :=
  if length (rw_slice r) <? rw_i r then Panic else Ok (skipn (rw_i r) (rw_slice r)).

(** [<RewindableIter as Iterator>::next] (left_join.rs 39-50). *)
Definition rw_next (r : rewindable T) : option T * rewindable T :=
  if rw_i r <? length (rw_slice r)
  then (nth_error (rw_slice r) (rw_i r), {| rw_slice := rw_slice r; rw_i := rw_i r + 1 |})
  else (None, r).

(** [Iterator::find] on it; it answers after at most as many calls of [next] as the slice is long, plus one. *)
Fixpoint rw_find_loop (g : T -> bool) (fuel : nat) (r : rewindable T) : res (option T * rewindable T) :=
  match rw_next r with
  | (None, r) => Ok (None, r)
  | (Some x, r) =>
    if g x then Ok (Some x, r)
    else match fuel with 0 => OutOfFuel | S fuel => rw_find_loop g fuel r end
  end.
(** [Iterator::find] of [core] on a [RewindableIter] (left_join.rs 194-197). *)
Definition rw_find (g : T -> bool) (r : rewindable T) : res (option T * rewindable T) :=
  rw_find_loop g (length (rw_slice r)) r.

(** [rewind] (left_join.rs 92-100). *)
Fixpoint rewind_inner {L : Type} (s : iter_stack L (rewindable T)) : res (iter_stack L (rewindable T)) :=
  match s with
  | [] => Ok []
  | SLeaf _ :: _ => UB
  | SInner r :: s =>
    match s with
    | [] => Ok [SInner (rw_rewind r)]
    | _ => let* s := rewind_inner s in Ok (SInner (rw_new []) :: s)
    end
  end.
End Rewindable.

(** ** [JoiningFilter] (filter.rs 200-237) *)
Definition joining_filter {B0 B1 Q0 Q1 : Type} (qb0 : Q0 -> B0) (f : JoinFilter B0 B1 Q0 Q1) (key : Q0)
  : SpatialFilter B1 Q1 :=
  {| test_bounds := jtest_bounds f (qb0 key); test_key := jtest_key f key |}.

Section LeftJoin.
Context {B0 B1 K0 K1 V0 V1 Q0 Q1 : Type} (brw0 : K0 -> Q0) (f : JoinFilter B0 B1 Q0 Q1).
Notation node0 := (node B0 K0 V0).
Notation node1 := (node B1 K1 V1).

(** [RewindableTreeIter] (left_join.rs 17-18). *)
Definition rw_stack : Type := iter_stack (rewindable (K1 * V1)) (rewindable node1).

(** [struct LeftJoinIter] (left_join.rs 53-63): the two stacks (the filter is a parameter). *)
Definition left_join_iter : Type := (@tree_stack B0 K0 V0 * rw_stack)%type.

(** [iterate_left_children] (left_join.rs 65-75). *)
Definition iterate_left_children (s : @tree_stack B0 K0 V0) (n : node0) (level : nat) : res (@tree_stack B0 K0 V0) :=
  match level with
  | S _ => let* cs := read_inner (node_children n) in stack_set_inner s level cs
  | 0 => let* es := read_leaf (node_children n) in stack_set_leaf s es
  end.

(** [iterate_right_children] (left_join.rs 77-90). *)
Definition iterate_right_children (s : rw_stack) (n : option node1) (level : nat) : res rw_stack :=
  match level with
  | S _ =>
    let* cs := match n with None => Ok [] | Some n => read_inner (node_children n) end in
    stack_set_inner s level (rw_new cs)
  | 0 =>
    let* es := match n with None => Ok [] | Some n => read_leaf (node_children n) end in
    stack_set_leaf s (rw_new es)
  end.

(** [LeftJoinIter::new] (left_join.rs 108-139); the [unwrap]s are on a level plus one. *)
Definition left_join_new (root0 : rtree B0 K0 V0) (root1 : rtree B1 K1 V1) : res left_join_iter :=
  let left := stack_new [] (repeat [] (fst root0 + 1)) in
  let* left := stack_set_inner left (fst root0 + 1) [snd root0] in
  let right := stack_new (rw_new []) (repeat (rw_new []) (fst root1 + 1)) in
  let* right := stack_set_inner right (fst root1 + 1) (rw_new [snd root1]) in
  Ok (left, right).

(** [self.right.map_into(..)] (left_join.rs 209-219; iter_stack.rs 84-145, 198-219): the remainders of all levels. *)
Fixpoint remainder_inner (s : rw_stack) : res (@tree_stack B1 K1 V1) :=
  match s with
  | [] => Ok []
  | SLeaf _ :: _ => UB
  | SInner r :: s => let* x := rw_remainder r in let* s := remainder_inner s in Ok (SInner x :: s)
  end.
(** [self.right.map_into(..)] (left_join.rs 209-219). *)
Definition remainder_stack (s : rw_stack) : res (@tree_stack B1 K1 V1) :=
  match s with
  | [] => Ok []
  | SInner _ :: _ => UB
  | SLeaf r :: s => let* x := rw_remainder r in let* s := remainder_inner s in Ok (SLeaf x :: s)
  end.

(** [iter_left.next(..)]: [slice::Iter::next] and [inner_children]. *)
Definition left_take (cs : list node0) : res (option node0 * list node0) :=
  Ok (match cs with [] => (None, []) | c :: r => (Some c, r) end).
(** Next child of the left node (left_join.rs 177-186). *)
Definition left_search (s : @tree_stack B0 K0 V0) : res (option node0 * @tree_stack B0 K0 V0) :=
  inner_search left_take (fun n => read_inner (node_children n)) (stack_fuel s) 0 s.

(** [iter_right.find(..)]. *)
Definition rw_slot_size (s : slot (rewindable (K1 * V1)) (rewindable node1)) : nat :=
  match s with SLeaf _ => 0 | SInner r => list_sum (map node_size (skipn (rw_i r) (rw_slice r))) end.
(** Next right child (left_join.rs 187-197). *)
Definition right_search (g : node1 -> bool) (s : rw_stack) : res (option node1 * rw_stack) :=
  inner_search (rw_find g) (fun n => let* cs := read_inner (node_children n) in Ok (rw_new cs))
    (2 * list_sum (map rw_slot_size s) + length s) 0 s.

(** [LeftJoinIter::next] (left_join.rs 160-251): the [loop]. *)
Fixpoint left_join_loop (fuel level : nat) (it : left_join_iter)
  : res (option ((K0 * V0) * @tree_stack B1 K1 V1) * left_join_iter) :=
  match fuel with
  | 0 => OutOfFuel
  | S fuel =>
    let (left, right) := it in
    let min_height := Nat.min (length left) (length right) in
    let ascend (left : @tree_stack B0 K0 V0) (right : rw_stack) :=
      if level + 1 =? min_height then Ok (None, (left, right))
      else
        let* (_, right) :=
          on_sub right (level + 1) (level + 1 + 1 =? length left) (fun s => let* s := rewind_inner s in Ok (tt, s)) in
        left_join_loop fuel (level + 1) (left, right) in
    match level with
    | S l =>
      let* (node_left, left) := on_sub left (S l) (S l + 1 =? length right) left_search in
      match node_left with
      | Some node_left =>
        let* (node_right, right) :=
          on_sub right (S l) (S l + 1 =? length left)
            (right_search (fun n => jtest_bounds f (node_bounds node_left) (node_bounds n))) in
        let* left := iterate_left_children left node_left l in
        let* right := iterate_right_children right node_right l in
        left_join_loop fuel l (left, right)
      | None => ascend left right
      end
    | 0 =>
      let* es := stack_leaf left in
      match es with
      | e :: rest =>
        let* left := stack_set_leaf left rest in
        let* stack := remainder_stack right in
        Ok (Some (e, stack), (left, right))
      | [] => ascend left right
      end
    end
  end.

(** Of the model only (loop bound). *)
Definition left_join_fuel (it : left_join_iter) : nat :=
  2 * list_sum (map slot_size (fst it)) + length (fst it) + 1.

(** [LeftJoinIter::next] (left_join.rs 160-251). *)
Definition left_join_next (it : left_join_iter) : res (option ((K0 * V0) * @tree_stack B1 K1 V1) * left_join_iter) :=
  if Nat.min (length (fst it)) (length (snd it)) =? 0 then Ok (None, it)
  else left_join_loop (left_join_fuel it) 0 it.
End LeftJoin.

(** [RTree::left_join] (lib.rs 278-294). *)
Definition rtree_left_join {B0 B1 K0 K1 V0 V1 : Type} (a : rtree B0 K0 V0) (b : rtree B1 K1 V1)
  : res (@left_join_iter B0 B1 K0 K1 V0 V1) := left_join_new a b.
