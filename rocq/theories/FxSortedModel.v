(** The ordered iterators once more, with rankings that have effects: state of their own, answers that differ each time,
    panics.  [Ord::cmp] of the metric is still a function ([m_cmp]). *)
From Verif Require Export SortedModel FxModel.

(** [trait Ranking] (ranking.rs 14-40): [None] is a panic, [Some None] the metric [None] of a filtering ranking (lib.rs
    164-196). *)
Record FxRanking (W B K M : Type) := {
  fxr_bounds : W -> B -> option (option M) * W;
  fxr_key : W -> K -> option (option M) * W
}.
Arguments fxr_bounds {W B K M}. Arguments fxr_key {W B K M}.

Section FxSorted.
Context {W B K V M : Type} (PQ : PQueue (ranked B K V M)) (f : FxRanking W B K M).

(** The [for] loops of [next] (iter.rs 394-409, 468-482, 540-558, 618-636): each child is ranked, then pushed if it has a
    score.  A panic of the ranking leaves the loop: this child and those after it are not pushed.  The boolean says whether
    there was one. *)
Fixpoint fx_push_all {T} (score : W -> T -> option (option M) * W) (wrap : T -> item B K V) (level : nat) (l : list T)
    (h : heap PQ) (w : W) : bool * heap PQ * W :=
  match l with
  | [] => (false, h, w)
  | x :: r =>
    let (a, w) := score w x in
    match a with
    | None => (true, h, w)
    | Some None => fx_push_all score wrap level r h w
    | Some (Some m) => fx_push_all score wrap level r (h_push PQ ((m, level), wrap x) h) w
    end
  end.

(** [SortedIter::new], [SortedIterMut::new], [FilterSortedIter::new], [FilterSortedIterMut::new] (iter.rs 362-374, 434-448,
    505-520, 581-597); [None]: the ranking panicked and there is no iterator. *)
Definition fx_sorted_new (root : rtree B K V) (w : W) : option (heap PQ) * W :=
  let (a, w) := fxr_bounds f w (node_bounds (snd root)) in
  match a with
  | None => (None, w)
  | Some None => (Some (h_new PQ), w)
  | Some (Some m) => (Some (h_push PQ ((m, fst root + 1), INode (snd root)) (h_new PQ)), w)
  end.

(** [next] of the four ordered iterators (iter.rs 383-411, 457-486, 529-562, 607-640): the [while let] loop. *)
Fixpoint fx_sorted_loop (fuel : nat) (h : heap PQ) (w : W) : res (outcome (K * V) * heap PQ * W) :=
  match h_pop PQ h with
  | None => Ok (Done, h, w)
  | Some (((_, level), value), h) =>
    match fuel with
    | 0 => OutOfFuel
    | S fuel =>
      match level with
      | 0 => let* e := item_entry value in Ok (Yield e, h, w)
      | 1 =>
        let* n := item_node value in
        let* es := read_leaf (node_children n) in
        let '(panicked, h, w) := fx_push_all (fun w e => fxr_key f w (fst e)) IEntry 0 es h w in
        if panicked then Ok (Panicked, h, w) else fx_sorted_loop fuel h w
      | S l =>
        let* n := item_node value in
        let* cs := read_inner (node_children n) in
        let '(panicked, h, w) := fx_push_all (fun w c => fxr_bounds f w (node_bounds c)) INode l cs h w in
        if panicked then Ok (Panicked, h, w) else fx_sorted_loop fuel h w
      end
    end
  end.

(** [next] of the four ordered iterators (iter.rs 383-411, 457-486, 529-562, 607-640). *)
Definition fx_sorted_next (h : heap PQ) (w : W) : res (outcome (K * V) * heap PQ * W) :=
  fx_sorted_loop (list_sum (map ranked_weight (h_items PQ h))) h w.
End FxSorted.
