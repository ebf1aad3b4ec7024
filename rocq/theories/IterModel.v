(** Model of iter_stack.rs and of the unordered iterators of iter.rs, and of the filters of filter.rs. *)
From Verif Require Export Model.

(** [trait SpatialFilter] (filter.rs 6-27), on the borrowed form [Q] of the key. *)
Record SpatialFilter (B Q : Type) := {
  test_bounds : B -> bool;
  test_key : Q -> bool
}.
Arguments test_bounds {B Q}. Arguments test_key {B Q}.

(** [NoFilter] (filter.rs 160-171). *)
Definition no_filter {B Q : Type} : SpatialFilter B Q :=
  {| test_bounds := fun _ => true; test_key := fun _ => true |}.

(** [IntersectsFilter] (filter.rs 32-53); the two functions are [space.intersects]. *)
Definition intersects_filter {B Q S : Type} (with_bounds : S -> B -> bool) (with_key : S -> Q -> bool) (space : S)
  : SpatialFilter B Q :=
  {| test_bounds := with_bounds space; test_key := with_key space |}.

(** [BoundedIntersectsFilter::new_bounded] (filter.rs 62-93). *)
Definition bounded_intersects_filter {B Q S : Type} (BO : BoundsOps B) (space_bounds : S -> B)
    (with_key : S -> Q -> bool) (space : S) : SpatialFilter B Q :=
  {| test_bounds := b_intersects BO (space_bounds space); test_key := with_key space |}.

(** [ContainsFilter] (filter.rs 98-120); [intersects] on bounds, [contains] on keys. *)
Definition contains_filter {B Q S : Type} (with_bounds : S -> B -> bool) (contains_key : S -> Q -> bool) (space : S)
  : SpatialFilter B Q :=
  {| test_bounds := with_bounds space; test_key := contains_key space |}.

(** [BoundedContainsFilter::new_bounded] (filter.rs 129-158). *)
Definition bounded_contains_filter {B Q S : Type} (BO : BoundsOps B) (space_bounds : S -> B)
    (contains_key : S -> Q -> bool) (space : S) : SpatialFilter B Q :=
  {| test_bounds := b_intersects BO (space_bounds space); test_key := contains_key space |}.

(** ** [IterStack] *)

(** [union Entry] (iter_stack.rs 11-14): the constructor records the field written. *)
Inductive slot (L I : Type) : Type :=
| SLeaf (x : L)
| SInner (x : I).
Arguments SLeaf {L I} x.
Arguments SInner {L I} x.

(** [struct IterStack] (iter_stack.rs 58-59). *)
Definition iter_stack (L I : Type) : Type := list (slot L I).

Section Stack.
Context {L I : Type}.

(** [VecIterStack::new], [IterStack::new_box] (iter_stack.rs 19-35, 152-158). *)
Definition stack_new (leaf : L) (inner : list I) : iter_stack L I := SLeaf leaf :: map SInner inner.

(** [IterStack::empty_box] (iter_stack.rs 147-150). *)
Definition stack_empty : iter_stack L I := [].

(** [IterStack::leaf], [leaf_mut] (iter_stack.rs 163-174): [self.0[0].leaf]. *)
Definition stack_leaf (s : iter_stack L I) : res L :=
  match nth_error s 0 with
  | Some (SLeaf x) => Ok x
  | Some (SInner _) => UB
  | None => Panic
  end.

(** [Index<NonZeroUsize>] (iter_stack.rs 233-245): [self.0[i].inner]. *)
Definition stack_inner (s : iter_stack L I) (i : nat) : res I :=
  match nth_error s i with
  | Some (SInner x) => Ok x
  | Some (SLeaf _) => UB
  | None => Panic
  end.

(** Assigning through [leaf_mut] / [IndexMut<NonZeroUsize>]: the old field is dropped as its type, so the
    wrong kind is [UB] too. *)
Definition stack_set_leaf (s : iter_stack L I) (x : L) : res (iter_stack L I) :=
  let* _ := stack_leaf s in Ok (set_nth 0 (SLeaf x) s).
(** Assigning through [IndexMut<NonZeroUsize>] (iter_stack.rs 242-246). *)
Definition stack_set_inner (s : iter_stack L I) (i : nat) (x : I) : res (iter_stack L I) :=
  let* _ := stack_inner s i in Ok (set_nth i (SInner x) s).
End Stack.

(** ** [Iter], [FilterIter], [IterMut], [FilterIterMut] *)
Section Iter.
Context {B K V Q : Type} (brw : K -> Q).
Notation node := (node B K V).

(** [TreeIter], [TreeIterMut] (iter.rs 19-20, 175-176): a slice iterator is the list of the elements still
    to come. *)
Definition tree_stack : Type := iter_stack (list (K * V)) (list node).

(** [Iter::new_empty], [IterMut::new_empty] (iter.rs 37-41, 183-187). *)
Definition iter_new_empty : tree_stack := stack_empty.

(** [Iter::new], [IterMut::new] (iter.rs 43-61, 189-208). *)
Definition iter_new (root : rtree B K V) : res tree_stack :=
  let stack := stack_new [] (repeat [] (fst root)) in
  let* ch := children_at (fst root) (snd root) in
  match ch with
  | CInner cs => stack_set_inner stack (fst root) cs
  | CLeaf es => stack_set_leaf stack es
  end.

(** Loop bound of [iter_loop]: twice the number of nodes still to come, plus the levels to go. *)
Fixpoint node_size (n : node) : nat :=
  match n with
  | Node _ (CLeaf _) => 1
  | Node _ (CInner cs) => 1 + list_sum (map node_size cs)
  end.
(** Of the model only (loop bound). *)
Definition slot_size (s : slot (list (K * V)) (list node)) : nat :=
  match s with SLeaf _ => 0 | SInner cs => list_sum (map node_size cs) end.
(** Of the model only (loop bound). *)
Definition stack_fuel (st : tree_stack) : nat := 2 * list_sum (map slot_size st) + length st.

(** [Iter::next], [IterMut::next] (iter.rs 64-103, 211-250): the [while] loop. *)
Fixpoint iter_loop (f : SpatialFilter B Q) (fuel level : nat) (st : tree_stack)
  : res (option (K * V) * tree_stack) :=
  if level <? length st then
    match fuel with
    | 0 => OutOfFuel
    | S fuel =>
      match level with
      | S l =>
        let* cs := stack_inner st (S l) in
        match find_rest (fun n => test_bounds f (node_bounds n)) cs with
        | Some (n, rest) =>
          let* st := stack_set_inner st (S l) rest in
          match l with
          | S _ =>
            let* cs := read_inner (node_children n) in
            let* st := stack_set_inner st l cs in
            iter_loop f fuel l st
          | 0 =>
            let* es := read_leaf (node_children n) in
            let* st := stack_set_leaf st es in
            iter_loop f fuel l st
          end
        | None =>
          let* st := stack_set_inner st (S l) [] in
          iter_loop f fuel (S l + 1) st
        end
      | 0 =>
        let* es := stack_leaf st in
        match find_rest (fun kv => test_key f (brw (fst kv))) es with
        | Some (e, rest) => let* st := stack_set_leaf st rest in Ok (Some e, st)
        | None => let* st := stack_set_leaf st [] in iter_loop f fuel 1 st
        end
      end
    end
  else Ok (None, st).

(** One call of [next]. *)
Definition iter_next_with (f : SpatialFilter B Q) (st : tree_stack) : res (option (K * V) * tree_stack) :=
  iter_loop f (stack_fuel st) 0 st.

(** [FilterIter::new], [FilterIterMut::new] (iter.rs 126-143, 273-290). *)
Definition filter_iter_new (root : rtree B K V) (f : SpatialFilter B Q) : res tree_stack :=
  if test_bounds f (node_bounds (snd root)) then iter_new root else Ok iter_new_empty.
End Iter.

(** [<Iter as Iterator>::next], [<IterMut as Iterator>::next] (iter.rs 105-115, 252-262): [NoFilter]. *)
Definition iter_next {B K V : Type} : tree_stack -> res (option (K * V) * @tree_stack B K V) :=
  iter_next_with (fun k => k) no_filter.

(** [RTree::iter], [RTree::iter_mut] (lib.rs 94-101); [IntoIterator] for [&RTree] and [&mut RTree] (lib.rs 410-432). *)
Definition rtree_iter {B K V : Type} (t : rtree B K V) : res (@tree_stack B K V) := iter_new t.

(** [RTree::filter_iter], [RTree::filter_iter_mut] (lib.rs 116-139). *)
Definition rtree_filter_iter {B K V Q : Type} (t : rtree B K V) (f : SpatialFilter B Q) : res (@tree_stack B K V) :=
  filter_iter_new t f.
