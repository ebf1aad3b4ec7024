(** Model of the ordered iterators of iter.rs (305-641) and of ranking.rs' trait, over any priority queue. *)
From Verif Require Export IterModel.

(** [trait Ranking] (ranking.rs 14-40); [m_cmp] is [Ord::cmp] of its metric. *)
Record Ranking (B K M : Type) := {
  bounds_min : B -> M;
  rank_key : K -> M
}.
Arguments bounds_min {B K M}. Arguments rank_key {B K M}.

(** [std::collections::BinaryHeap<T>] with the order reversed ([Reverse], iter.rs 345): an abstract type of heaps.
    [h_items] lists what is in a heap, in any order. *)
Record PQueue (T : Type) := {
  heap : Type;
  h_new : heap;
  h_push : T -> heap -> heap;
  h_pop : heap -> option (T * heap);
  h_items : heap -> list T
}.
Arguments heap {T}. Arguments h_new {T}. Arguments h_push {T}. Arguments h_pop {T}. Arguments h_items {T}.

Section Sorted.
Context {B K V M : Type} (m_cmp : M -> M -> comparison).
Notation node := (node B K V).

(** [union SortedIterItem], [union SortedIterItemMut] (iter.rs 341-344, 413-416): the constructor records the
    field written. *)
Inductive item :=
| INode (n : node)
| IEntry (e : K * V).

(** [Ranked<Reverse<(Metric, usize)>, Item>] (iter.rs 305-346): the score is (metric, level). *)
Definition ranked : Type := ((M * nat) * item)%type.

(** [Ranked::cmp] (iter.rs 332-339) on the reversed order: lexicographic on (metric, level). *)
Definition score_cmp (a b : M * nat) : comparison :=
  match m_cmp (fst a) (fst b) with
  | Eq => Nat.compare (snd a) (snd b)
  | c => c
  end.
(** [Ranked::cmp] (iter.rs 332-339). *)
Definition ranked_cmp (a b : ranked) : comparison := score_cmp (fst a) (fst b).

(** Reading a field of the union. *)
Definition item_node (i : item) : res node := match i with INode n => Ok n | IEntry _ => UB end.
(** [item.entry] (iter.rs 341-344, 390): reading the union as the other kind is undefined. *)
Definition item_entry (i : item) : res (K * V) := match i with IEntry e => Ok e | INode _ => UB end.

(** Loop bound of [sorted_loop]: the nodes and entries still below the heap. *)
Fixpoint item_weight (n : node) : nat :=
  match n with
  | Node _ (CLeaf es) => 1 + length es
  | Node _ (CInner cs) => 1 + list_sum (map item_weight cs)
  end.
(** Of the model only (loop bound). *)
Definition ranked_weight (r : ranked) : nat :=
  match snd r with INode n => item_weight n | IEntry _ => 1 end.

Variable (PQ : PQueue ranked).

(** The [for] loops of [next]: pushing each child that has a score (iter.rs 397-411, 544-561). *)
Fixpoint push_all {T} (score : T -> option M) (wrap : T -> item) (level : nat) (l : list T) (h : heap PQ) : heap PQ :=
  match l with
  | [] => h
  | x :: r =>
    push_all score wrap level r
      (match score x with Some m => h_push PQ ((m, level), wrap x) h | None => h end)
  end.

Section Machine.
Variables (sb : B -> option M) (sk : K -> option M).

(** [FilterSortedIter::new] and its mut variant (iter.rs 505-520, 581-597): the root is pushed if it has a score. *)
Definition sorted_new (root : rtree B K V) : heap PQ :=
  match sb (node_bounds (snd root)) with
  | Some m => h_push PQ ((m, fst root + 1), INode (snd root)) (h_new PQ)
  | None => h_new PQ
  end.

(** [FilterSortedIter::next] and its mut variant (iter.rs 529-562, 607-640): the [while let] loop. *)
Fixpoint sorted_loop (fuel : nat) (h : heap PQ) : res (option (K * V) * heap PQ) :=
  match h_pop PQ h with
  | None => Ok (None, h)
  | Some (((_, level), value), h) =>
    match fuel with
    | 0 => OutOfFuel
    | S fuel =>
      match level with
      | 0 => let* e := item_entry value in Ok (Some e, h)
      | 1 =>
        let* n := item_node value in
        let* es := read_leaf (node_children n) in
        sorted_loop fuel (push_all (fun e => sk (fst e)) IEntry 0 es h)
      | S l =>
        let* n := item_node value in
        let* cs := read_inner (node_children n) in
        sorted_loop fuel (push_all (fun c => sb (node_bounds c)) INode l cs h)
      end
    end
  end.

(** [FilterSortedIter::next] (iter.rs 529-562). *)
Definition sorted_next (h : heap PQ) : res (option (K * V) * heap PQ) :=
  sorted_loop (list_sum (map ranked_weight (h_items PQ h))) h.
End Machine.

(** [SortedIter::new], [SortedIterMut::new] (iter.rs 362-374, 434-448), [SortedIter::next], [SortedIterMut::next]
    (iter.rs 383-411, 457-486): the same machine in which everything has a score.  [RTree::iter_asc_by], [iter_asc_by_mut]
    (lib.rs 202-218) call [new]. *)
Definition asc_new (r : Ranking B K M) (root : rtree B K V) : heap PQ :=
  sorted_new (fun b => Some (bounds_min r b)) root.
(** [SortedIter::next], [SortedIterMut::next] (iter.rs 383-411, 457-486). *)
Definition asc_next (r : Ranking B K M) (h : heap PQ) : res (option (K * V) * heap PQ) :=
  sorted_next (fun b => Some (bounds_min r b)) (fun k => Some (rank_key r k)) h.

(** [FilterSortedIter::new] (iter.rs 505-520) for a ranking with metric [Option<S>]; called by [RTree::filter_iter_asc_by],
    [filter_iter_asc_by_mut] (lib.rs 230-260). *)
Definition filter_asc_new (r : Ranking B K (option M)) (root : rtree B K V) : heap PQ := sorted_new (bounds_min r) root.
(** [FilterSortedIter::next] (iter.rs 529-562) for [Option] metrics. *)
Definition filter_asc_next (r : Ranking B K (option M)) (h : heap PQ) : res (option (K * V) * heap PQ) :=
  sorted_next (bounds_min r) (rank_key r) h.

(** [RTree::min_by], [min_by_mut] (lib.rs 146-162). *)
Definition rtree_min_by (r : Ranking B K M) (t : rtree B K V) : res (option (K * V)) :=
  let* (e, _) := asc_next r (asc_new r t) in Ok e.

(** [RTree::filter_min_by], [filter_min_by_mut] (lib.rs 173-196). *)
Definition rtree_filter_min_by (r : Ranking B K (option M)) (t : rtree B K V) : res (option (K * V)) :=
  let* (e, _) := filter_asc_next r (filter_asc_new r t) in Ok e.
End Sorted.
Arguments item : clear implicits.
Arguments ranked : clear implicits.
