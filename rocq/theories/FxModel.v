(** The unordered iterators and joins once more, with user callbacks that have effects: a filter may keep state of its own
    (interior mutability), answer differently each time, and panic.  [W] is the state of all code outside the library; a
    callback maps it to an answer, or to a panic ([None]), and a new state.  A panic of a callback unwinds out of [next]
    and leaves the iterator as it is; the program may catch it and call [next] again. *)
From Verif Require Export LeftJoinModel.

(** What a call of [next] does: it returns [Some], returns [None], or unwinds. *)
Inductive outcome (A : Type) : Type :=
| Yield (a : A)
| Done
| Panicked.
Arguments Yield {A} a. Arguments Done {A}. Arguments Panicked {A}.

(** [trait SpatialFilter] (filter.rs 6-27). *)
Record FxFilter (W B Q : Type) := {
  fx_bounds : W -> B -> option bool * W;
  fx_key : W -> Q -> option bool * W
}.
Arguments fx_bounds {W B Q}. Arguments fx_key {W B Q}.

(** [trait JoinFilter] (filter.rs 173-198). *)
Record FxJoinFilter (W B0 B1 Q0 Q1 : Type) := {
  fxj_bounds : W -> B0 -> B1 -> option bool * W;
  fxj_key : W -> Q0 -> Q1 -> option bool * W
}.
Arguments fxj_bounds {W B0 B1 Q0 Q1}. Arguments fxj_key {W B0 B1 Q0 Q1}.

Section FxFind.
Context {W T : Type} (test : W -> T -> option bool * W).

(** [slice::Iter::find] (of [core]): [next] advances the iterator before the predicate is called, so an element whose
    test panics has been consumed. *)
Fixpoint fx_find (l : list T) (w : W) : outcome T * list T * W :=
  match l with
  | [] => (Done, [], w)
  | x :: r =>
    let (a, w) := test w x in
    match a with
    | Some true => (Yield x, r, w)
    | Some false => fx_find r w
    | None => (Panicked, r, w)
    end
  end.
End FxFind.

Section FxIter.
Context {W B K V Q : Type} (brw : K -> Q) (f : FxFilter W B Q).
Notation node := (node B K V).
Notation tree_stack := (@tree_stack B K V).

(** [Iter::next], [IterMut::next] (iter.rs 64-103, 211-250): the [while] loop. *)
Fixpoint fx_iter_loop (fuel level : nat) (st : tree_stack) (w : W) : res (outcome (K * V) * tree_stack * W) :=
  if level <? length st then
    match fuel with
    | 0 => OutOfFuel
    | S fuel =>
      match level with
      | S l =>
        let* cs := stack_inner st (S l) in
        let '(o, rest, w) := fx_find (fun w n => fx_bounds f w (node_bounds n)) cs w in
        let* st := stack_set_inner st (S l) rest in
        match o with
        | Yield n =>
          match l with
          | S _ =>
            let* cs := read_inner (node_children n) in
            let* st := stack_set_inner st l cs in
            fx_iter_loop fuel l st w
          | 0 =>
            let* es := read_leaf (node_children n) in
            let* st := stack_set_leaf st es in
            fx_iter_loop fuel l st w
          end
        | Done => fx_iter_loop fuel (S l + 1) st w
        | Panicked => Ok (Panicked, st, w)
        end
      | 0 =>
        let* es := stack_leaf st in
        let '(o, rest, w) := fx_find (fun w kv => fx_key f w (brw (fst kv))) es w in
        let* st := stack_set_leaf st rest in
        match o with
        | Yield e => Ok (Yield e, st, w)
        | Done => fx_iter_loop fuel 1 st w
        | Panicked => Ok (Panicked, st, w)
        end
      end
    end
  else Ok (Done, st, w).

(** [<FilterIter as Iterator>::next], [<FilterIterMut as Iterator>::next] (iter.rs 158-173, 305-320). *)
Definition fx_iter_next (st : tree_stack) (w : W) : res (outcome (K * V) * tree_stack * W) :=
  fx_iter_loop (stack_fuel st) 0 st w.

(** [FilterIter::new], [FilterIterMut::new] (iter.rs 126-143, 273-290), that is [RTree::filter_iter] and
    [RTree::filter_iter_mut] (lib.rs 116-139); [None]: the bounds test panicked and there is no iterator. *)
Definition fx_filter_iter (root : rtree B K V) (w : W) : res (option tree_stack * W) :=
  let (a, w) := fx_bounds f w (node_bounds (snd root)) in
  match a with
  | Some true => let* st := iter_new root in Ok (Some st, w)
  | Some false => Ok (Some iter_new_empty, w)
  | None => Ok (None, w)
  end.
End FxIter.

Section FxProduct.
Context {W T0 T1 : Type} (test : W -> T0 -> T1 -> option bool * W).

(** [Iterator::find] (of [core]) on a [ProductIter] (join.rs 47-61): [next] until the predicate holds or panics. *)
Fixpoint fx_product_find (fuel : nat) (p : product T0 T1) (w : W) : res (outcome (T0 * T1) * product T0 T1 * W) :=
  match product_next p with
  | (None, p) => Ok (Done, p, w)
  | (Some x, p) =>
    let (a, w) := test w (fst x) (snd x) in
    match a with
    | Some true => Ok (Yield x, p, w)
    | Some false => match fuel with 0 => OutOfFuel | S fuel => fx_product_find fuel p w end
    | None => Ok (Panicked, p, w)
    end
  end.
End FxProduct.

Section FxJoin.
Context {W B0 B1 K0 K1 V0 V1 Q0 Q1 : Type} (brw0 : K0 -> Q0) (brw1 : K1 -> Q1) (f : FxJoinFilter W B0 B1 Q0 Q1).
Notation join_iter := (@join_iter B0 B1 K0 K1 V0 V1).

(** [JoinIter::new] (join.rs 123-151), that is [RTree::join] (lib.rs 262-276); [None]: the bounds test panicked and there
    is no iterator. *)
Definition fx_join (root0 : rtree B0 K0 V0) (root1 : rtree B1 K1 V1) (w : W) : res (option join_iter * W) :=
  let (a, w) := fxj_bounds f w (node_bounds (snd root0)) (node_bounds (snd root1)) in
  match a with
  | Some false => Ok (Some (stack_empty, (0, 0)), w)
  | Some true =>
    let height := Nat.max (fst root0) (fst root1) in
    let stack := stack_new (product_new [] []) (repeat (product_new [] []) height) in
    let* stack := start_join root0 root1 stack in
    Ok (Some (stack, (height - fst root0, height - fst root1)), w)
  | None => Ok (None, w)
  end.

(** [JoinIter::next] (join.rs 154-203): the [while] loop. *)
Fixpoint fx_join_loop (fuel level : nat) (it : join_iter) (w : W)
  : res (outcome ((K0 * V0) * (K1 * V1)) * join_iter * W) :=
  let '(s, (pad0, pad1)) := it in
  if level <? length s then
    match fuel with
    | 0 => OutOfFuel
    | S fuel =>
      match level with
      | S l =>
        let* p := stack_inner s (S l) in
        let* (o, p, w) :=
          fx_product_find (fun w n0 n1 => fxj_bounds f w (node_bounds n0) (node_bounds n1)) (product_size p) p w in
        let* s := stack_set_inner s (S l) p in
        match o with
        | Yield (n0, n1) =>
          let* s := start_join (l - pad0, n0) (l - pad1, n1) s in
          fx_join_loop fuel l (s, (pad0, pad1)) w
        | Done => fx_join_loop fuel (S l + 1) (s, (pad0, pad1)) w
        | Panicked => Ok (Panicked, (s, (pad0, pad1)), w)
        end
      | 0 =>
        let* p := stack_leaf s in
        let* (o, p, w) :=
          fx_product_find (fun w e0 e1 => fxj_key f w (brw0 (fst e0)) (brw1 (fst e1))) (product_size p) p w in
        let* s := stack_set_leaf s p in
        match o with
        | Yield x => Ok (Yield x, (s, (pad0, pad1)), w)
        | Done => fx_join_loop fuel 1 (s, (pad0, pad1)) w
        | Panicked => Ok (Panicked, (s, (pad0, pad1)), w)
        end
      end
    end
  else Ok (Done, it, w).

(** [JoinIter::next] (join.rs 154-203). *)
Definition fx_join_next (it : join_iter) (w : W) : res (outcome ((K0 * V0) * (K1 * V1)) * join_iter * W) :=
  fx_join_loop (join_fuel (fst it)) 0 it w.
End FxJoin.
