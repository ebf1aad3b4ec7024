(** The ordered iterators a third time: the metric's [Ord] may have effects too, answer as it likes and panic, so that
    [std::collections::BinaryHeap] (iter.rs 345) keeps no order and may unwind. *)
From Verif Require Export FxSortedModel.

(** [BinaryHeap] (iter.rs 345-346) under such an [Ord].  [fh_push]: the boolean says that a comparison panicked.  [fh_pop]:
    [None], a comparison panicked; [Some None], the heap answered that it is empty.  [fh_items] lists what is in a heap. *)
Record FxHeap (W T : Type) := {
  fheap : Type;
  fh_new : fheap;
  fh_push : W -> T -> fheap -> bool * fheap * W;
  fh_pop : W -> fheap -> option (option T) * fheap * W;
  fh_items : fheap -> list T
}.
Arguments fheap {W T}. Arguments fh_new {W T}. Arguments fh_push {W T}. Arguments fh_pop {W T}. Arguments fh_items {W T}.

Section HeapSorted.
Context {W B K V M : Type} (H : FxHeap W (ranked B K V M)) (f : FxRanking W B K M).

(** The [for] loops of [next] (iter.rs 394-409, 468-482, 540-558, 618-636): each child is ranked, then pushed if it has a
    score; a panic of either leaves the loop.  The boolean says whether there was one. *)
Fixpoint fh_push_all {T} (score : W -> T -> option (option M) * W) (wrap : T -> item B K V) (level : nat) (l : list T)
    (h : fheap H) (w : W) : bool * fheap H * W :=
  match l with
  | [] => (false, h, w)
  | x :: r =>
    let (a, w) := score w x in
    match a with
    | None => (true, h, w)
    | Some None => fh_push_all score wrap level r h w
    | Some (Some m) =>
      let '(panicked, h, w) := fh_push H w ((m, level), wrap x) h in
      if panicked then (true, h, w) else fh_push_all score wrap level r h w
    end
  end.

(** [SortedIter::new], [SortedIterMut::new], [FilterSortedIter::new], [FilterSortedIterMut::new] (iter.rs 362-374, 434-448,
    505-520, 581-597); [None]: user code panicked and there is no iterator. *)
Definition fh_sorted_new (root : rtree B K V) (w : W) : option (fheap H) * W :=
  let (a, w) := fxr_bounds f w (node_bounds (snd root)) in
  match a with
  | None => (None, w)
  | Some None => (Some (fh_new H), w)
  | Some (Some m) =>
    let '(panicked, h, w) := fh_push H w ((m, fst root + 1), INode (snd root)) (fh_new H) in
    (if panicked then None else Some h, w)
  end.

(** [next] of the four ordered iterators (iter.rs 383-411, 457-486, 529-562, 607-640): the [while let] loop. *)
Fixpoint fh_sorted_loop (fuel : nat) (h : fheap H) (w : W) : res (outcome (K * V) * fheap H * W) :=
  match fh_pop H w h with
  | (None, h, w) => Ok (Panicked, h, w)
  | (Some None, h, w) => Ok (Done, h, w)
  | (Some (Some ((_, level), value)), h, w) =>
    match fuel with
    | 0 => OutOfFuel
    | S fuel =>
      match level with
      | 0 => let* e := item_entry value in Ok (Yield e, h, w)
      | 1 =>
        let* n := item_node value in
        let* es := read_leaf (node_children n) in
        let '(panicked, h, w) := fh_push_all (fun w e => fxr_key f w (fst e)) IEntry 0 es h w in
        if panicked then Ok (Panicked, h, w) else fh_sorted_loop fuel h w
      | S l =>
        let* n := item_node value in
        let* cs := read_inner (node_children n) in
        let '(panicked, h, w) := fh_push_all (fun w c => fxr_bounds f w (node_bounds c)) INode l cs h w in
        if panicked then Ok (Panicked, h, w) else fh_sorted_loop fuel h w
      end
    end
  end.

(** [next] of the four ordered iterators (iter.rs 383-411, 457-486, 529-562, 607-640). *)
Definition fh_sorted_next (h : fheap H) (w : W) : res (outcome (K * V) * fheap H * W) :=
  fh_sorted_loop (list_sum (map ranked_weight (fh_items H h))) h w.
End HeapSorted.
