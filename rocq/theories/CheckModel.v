(** The insertions and removals of Model.v once more, with every call of [Bounds::union], [Volume::volume] and of the
    subtraction of volumes made explicit: calls are recorded, in order, and [volume] and the subtraction may panic (as they do
    in builds with debug assertions: integer overflow, NaN).  The asserting build differs from Model.v in nothing else. *)
From Verif Require Export Model.

(** One call of an operation of the bounds type.  [AUnion n]: [n] calls of [Bounds::union] in a row. *)
Inductive ask (B F : Type) : Type :=
| AVol (b : B)
| ASub (x y : F)
| AUnion (n : nat).
Arguments AVol {B F} b. Arguments ASub {B F} x y. Arguments AUnion {B F} n.

(** How many calls; of the model only. *)
Definition ask_cost {B F} (a : ask B F) : nat := match a with AUnion n => n | _ => 1 end.
(** How many calls in all; of the model only. *)
Definition cost {B F} (l : list (ask B F)) : nat := list_sum (map ask_cost l).

(** When [volume] and the subtraction of two volumes return instead of panicking (bounds.rs 135-146; [N64::sub]). *)
Record Checks {B : Type} (VO : VolumeOps B) := {
  vol_fits : B -> bool;
  sub_fits : N64 VO -> N64 VO -> bool
}.
Arguments vol_fits {B VO}. Arguments sub_fits {B VO}.

(** What was called, and the outcome; of the model only. *)
Definition C (A B F : Type) : Type := (list (ask B F) * res A)%type.

Section CMonad.
Context {B F : Type}.
Notation C A := (C A B F).

(** Return; of the model only. *)
Definition cret {A} (a : A) : C A := ([], Ok a).
(** A step that makes no such call (see Model.v). *)
Definition clift {A} (r : res A) : C A := ([], r).
(** Sequencing; of the model only. *)
Definition cbind {A A'} (m : C A) (k : A -> C A') : C A' :=
  match snd m with
  | Ok a => let r := k a in (fst m ++ fst r, snd r)
  | Panic => (fst m, Panic)
  | UB => (fst m, UB)
  | OutOfFuel => (fst m, OutOfFuel)
  end.
End CMonad.

Notation "'let^' p ':=' m 'in' k" := (cbind m (fun p => k))
  (at level 200, p pattern, m at level 100, k at level 200, right associativity).

Section CTree.
Context {B K V : Type}.
Variable (P : Params B K).
Let BO := bops P.
Let VO := vops P.
Let kb := key_bounds P.
Variable (CK : Checks VO).
Notation node := (node B K V).
Notation container := (container B K V).
Notation entry := (entry B K V).
Notation C A := (C A B (N64 VO)).

(** [Volume::volume] (bounds.rs 135-146). *)
Definition k_vol (b : B) : C (N64 VO) := ([AVol b], if vol_fits CK b then Ok (volume VO b) else Panic).
(** [N64::sub] (select.rs 21, split.rs 73). *)
Definition k_sub (x y : N64 VO) : C (N64 VO) := ([ASub x y], if sub_fits CK x y then Ok (n64_sub VO x y) else Panic).
(** [Bounds::union] (bounds.rs 99-104). *)
Definition k_union (a b : B) : C B := ([AUnion 1], Ok (b_union BO a b)).
(** [Bounds::union_all] (bounds.rs 106-112): one union for each element. *)
Definition k_union_all (l : list B) : C B := ([AUnion (length l)], Ok (b_union_all BO l)).

(** [volume_increase_of_min_bounds] (select.rs 17-22). *)
Definition k_increase (lhs rhs : B) : C (N64 VO) :=
  let^ u := k_union lhs rhs in
  let^ x := k_vol u in
  let^ y := k_vol lhs in
  k_sub x y.

(** The comparison closure of [select] (select.rs 38-50). *)
Definition k_select_cmp (bounds : B) (lhs rhs : nat * B) : C comparison :=
  let^ x := k_increase (snd lhs) bounds in
  let^ y := k_increase (snd rhs) bounds in
  match n64_cmp VO x y with
  | Eq =>
    let^ x := k_vol (snd lhs) in
    let^ y := k_vol (snd rhs) in
    cret (n64_cmp VO x y)
  | c => cret c
  end.

(** [Iterator::min_by] of [std] with a comparison that makes calls (select.rs 38). *)
Fixpoint k_min_by_from {T} (cmp : T -> T -> C comparison) (best : T) (l : list T) : C T :=
  match l with
  | [] => cret best
  | y :: r =>
    let^ c := cmp best y in
    k_min_by_from cmp (match c with Gt => y | _ => best end) r
  end.

(** [MinimalVolumeIncreaseSelector::select] (select.rs 30-51). *)
Definition k_select (cs : list B) (bounds : B) : C (option nat) :=
  match enumerate cs with
  | [] => cret None
  | x :: r => let^ y := k_min_by_from (k_select_cmp bounds) x r in cret (Some (fst y))
  end.

(** A loop over a slice that makes calls; of the model only. *)
Fixpoint k_fold {A S} (f : S -> A -> C S) (l : list A) (s : S) : C S :=
  match l with
  | [] => cret s
  | x :: r => let^ s := f s x in k_fold f r s
  end.

Section CSplit.
Context {T : Type} (bnd : T -> B).

(** First loop of [worst_combination] (split.rs 23-29). *)
Definition k_loop1 (ov : T) (s : N64 VO * nat) (iv : nat * T) : C (N64 VO * nat) :=
  let '(greatest, idx1) := s in
  let '(i, value) := iv in
  let^ u := k_union (bnd value) (bnd ov) in
  let^ vol := k_vol u in
  cret (if n64_gt P vol greatest then (vol, i) else (greatest, idx1)).

(** Body of the second loop of [worst_combination] (split.rs 33-42). *)
Definition k_loop2 (ov : T) (i : nat) (vi : T) (s : N64 VO * nat * nat) (jv : nat * T) : C (N64 VO * nat * nat) :=
  let '(greatest, idx1, idx2) := s in
  let '(j, vj) := jv in
  let^ u := k_union (bnd vj) (bnd ov) in
  let^ u := k_union (bnd vi) u in
  let^ vol := k_vol u in
  cret (if n64_gt P vol greatest then (vol, i, j) else (greatest, idx1, idx2)).

(** The two nested loops (split.rs 31-44). *)
Fixpoint k_outer (ov : T) (ivs : list (nat * T)) (s : N64 VO * nat * nat) : C (N64 VO * nat * nat) :=
  match ivs with
  | [] => cret s
  | (i, vi) :: rest =>
    let^ s := k_fold (k_loop2 ov i vi) rest s in
    k_outer ov rest s
  end.

(** [worst_combination] (split.rs 12-47). *)
Definition k_worst_combination (values : list T) (ov : T) : C (nat * nat) :=
  match values with
  | [] => clift Panic
  | _ =>
    let^ (g, i1) := k_fold (k_loop1 ov) (enumerate values) (n64_neg_inf VO, 0) in
    let^ (_, j1, j2) := k_outer ov (enumerate values) (g, i1, length values) in
    cret (j1, j2)
  end.

(** [seed_split_groups] (split.rs 52-63). *)
Definition k_seed_split_groups (values : list T) (ov : T) : C (list T * T) :=
  let^ (i1, i2) := k_worst_combination values ov in
  let^ values := clift (slice_swap 0 i1 values) in
  if i2 <? length values then
    match nth_error values i2 with
    | Some x => cret (set_nth i2 ov values, x)
    | None => clift Panic
    end
  else cret (values, ov).

(** The volumes the iterator of [best_candidate_for_group] goes through (split.rs 71-73). *)
Fixpoint k_increases (cs : list T) (bounds : B) (bounds_volume : N64 VO) : C (list (N64 VO)) :=
  match cs with
  | [] => cret []
  | v :: r =>
    let^ u := k_union (bnd v) bounds in
    let^ x := k_vol u in
    let^ y := k_sub x bounds_volume in
    let^ ys := k_increases r bounds bounds_volume in
    cret (y :: ys)
  end.

(** [best_candidate_for_group] (split.rs 65-76). *)
Definition k_best_candidate (cs : list T) (bounds : B) : C (option (nat * N64 VO)) :=
  let^ bounds_volume := k_vol bounds in
  let^ ys := k_increases cs bounds bounds_volume in
  cret (min_by (fun x y => n64_cmp VO (snd x) (snd y)) (enumerate ys)).

(** The distribution loop of [QuadraticSplitter::split] (split.rs 119-140). *)
Fixpoint k_split_loop (fuel cap min : nat) (values : list T) (g1 : nat) (group2 : list T) (b1 b2 : B)
  : C (B * B * list T * list T) :=
  if g1 <? length values then
    match fuel with
    | 0 => clift OutOfFuel
    | S fuel =>
      let remaining := skipn g1 values in
      let^ o1 := k_best_candidate remaining b1 in
      let^ (c1, v1) := clift (unwrap o1) in
      let^ o2 := k_best_candidate remaining b2 in
      let^ (c2, v2) := clift (unwrap o2) in
      let add_to_group_1 :=
        if n64_lt P v1 v2 then min <? length group2 + length remaining
        else g1 + length remaining - 1 =? min in
      if add_to_group_1 then
        let^ x := clift (unwrap (nth_error remaining c1)) in
        let^ b1 := k_union b1 (bnd x) in
        let^ values := clift (slice_swap (g1 + c1) g1 values) in
        k_split_loop fuel cap min values (g1 + 1) group2 b1 b2
      else
        let^ x := clift (unwrap (nth_error remaining c2)) in
        let^ b2 := k_union b2 (bnd x) in
        let^ (y, values) := clift (swap_remove (g1 + c2) values) in
        let^ group2 := clift (push cap group2 y) in
        k_split_loop fuel cap min values g1 group2 b1 b2
    end
  else cret (b1, b2, values, group2).

(** [QuadraticSplitter::split] (split.rs 97-143). *)
Definition k_split (cap min : nat) (values : list T) (ov : T) : C (B * B * list T * list T) :=
  if length values <? 1 then clift Panic
  else
    let^ (values, seed2) := k_seed_split_groups values ov in
    let^ group2 := clift (push cap [] seed2) in
    let^ v0 := clift (unwrap (nth_error values 0)) in
    let^ w0 := clift (unwrap (nth_error group2 0)) in
    k_split_loop (length values) cap min values 1 group2 (bnd v0) (bnd w0).
End CSplit.

Variable (cfg : config).
Let cap := max_children cfg.
Let minc := min_children cfg.

(** [NodeRefMut::self_insert] (node.rs 351-409). *)
Definition k_self_insert (level : nat) (n : node) (e : entry) : C (node * option container) :=
  let eb := entry_bounds P e in
  let^ ch := clift (children_at level n) in
  match ch, e with
  | CInner cs, EInner (elevel, enode) =>
    if negb (level - 1 =? elevel) then clift Panic
    else
      match try_push cap cs enode with
      | inr overflow =>
        let^ (b1, b2, g1, g2) := k_split node_bounds cap minc cs overflow in
        cret (Node b1 (CInner g1), Some (level, Node b2 (CInner g2)))
      | inl cs => let^ b := k_union (node_bounds n) eb in cret (Node b (CInner cs), None)
      end
  | CLeaf es, ELeaf kv =>
    match try_push cap es kv with
    | inr overflow =>
      let^ (b1, b2, g1, g2) := k_split (fun kv => kb (fst kv)) cap minc es overflow in
      cret (Node b1 (CLeaf g1), Some (level, Node b2 (CLeaf g2)))
    | inl es => let^ b := k_union (node_bounds n) eb in cret (Node b (CLeaf es), None)
    end
  | CInner _, ELeaf _ => clift Panic
  | CLeaf _, EInner _ => clift Panic
  end.

(** [NodeRefMut::insert] (node.rs 411-438). *)
Fixpoint k_node_insert (level : nat) (n : node) (e : entry) {struct level} : C (node * option container) :=
  let eb := entry_bounds P e in
  if negb (target_level e =? level) then
    match level with
    | 0 => clift Panic
    | S l =>
      let^ cs := clift (read_inner (node_children n)) in
      let^ o := k_select (map node_bounds cs) eb in
      let^ i := clift (unwrap o) in
      let^ child := clift (unwrap (nth_error cs i)) in
      let^ (child, new_child) := k_node_insert l child e in
      let cs := set_nth i child cs in
      match new_child with
      | Some new_child =>
        let^ b := k_union_all (map node_bounds cs) in
        k_self_insert (S l) (Node b (CInner cs)) (EInner new_child)
      | None => let^ b := k_union (node_bounds n) eb in cret (Node b (CInner cs), None)
      end
    end
  else k_self_insert level n e.

(** [NodeRefMut::insert_unique] (node.rs 440-513); looking up makes none of the recorded calls. *)
Fixpoint k_node_insert_unique (level : nat) (n : node) (k : K) (v : V) {struct level}
  : C (option V * node * option container) :=
  let eb := kb k in
  let plain_insert :=
    let^ (n, sibling) := k_node_insert level n (ELeaf (k, v)) in cret (None, n, sibling) in
  match level with
  | S l =>
    let^ cs := clift (read_inner (node_children n)) in
    match filter (fun ic => b_contains BO (node_bounds (snd ic)) (kb k)) (enumerate cs) with
    | [] => plain_insert
    | [(i, child)] =>
      let^ (old_value, child, new_child) := k_node_insert_unique l child k v in
      let cs := set_nth i child cs in
      match new_child with
      | Some new_child =>
        let^ b := k_union_all (map node_bounds cs) in
        let^ (n, sibling) := k_self_insert (S l) (Node b (CInner cs)) (EInner new_child) in
        cret (old_value, n, sibling)
      | None => let^ b := k_union (node_bounds n) eb in cret (old_value, Node b (CInner cs), None)
      end
    | _ =>
      let^ found := clift (node_get_mut P (self_borrow P) level n k) in
      match found with
      | Some (old, put) => cret (Some old, put v, None)
      | None => plain_insert
      end
    end
  | 0 =>
    let^ es := clift (read_leaf (node_children n)) in
    match entries_get_mut (self_borrow P) es k with
    | Some (old, put) => cret (Some old, Node (node_bounds n) (CLeaf (put v)), None)
    | None => plain_insert
    end
  end.

(** [NodeContainer::branch] (node.rs 806-842). *)
Definition k_branch (root sibling : container) : C container :=
  if negb (fst sibling =? fst root) then clift Panic
  else
    let^ bounds := k_union (node_bounds (snd root)) (node_bounds (snd sibling)) in
    let^ v := clift (push cap [] (snd root)) in
    let^ v := clift (push cap v (snd sibling)) in
    cret (fst root + 1, Node bounds (CInner v)).

(** [NodeContainer::insert_entry] (node.rs 717-726). *)
Definition k_insert_entry (root : container) (e : entry) : C container :=
  let^ (n, sibling) := k_node_insert (fst root) (snd root) e in
  match sibling with
  | Some s => k_branch (fst root, n) s
  | None => cret (fst root, n)
  end.

(** [NodeContainer::insert_unique] (node.rs 738-755). *)
Definition k_container_insert_unique (root : container) (k : K) (v : V) : C (option V * container) :=
  let^ (prev, n, sibling) := k_node_insert_unique (fst root) (snd root) k v in
  match sibling with
  | Some s => let^ root := k_branch (fst root, n) s in cret (prev, root)
  | None => cret (prev, (fst root, n))
  end.

(** [NodeRefMut::remove] (node.rs 515-559). *)
Fixpoint k_node_remove {Q} (BR : Borrowed B K Q) (level : nat) (n : node) (q : Q) {struct level}
  : C (option V * node * list (children_container B K V)) :=
  match level with
  | S l =>
    let^ cs := clift (read_inner (node_children n)) in
    (fix loop (i : nat) (cs : list node) : C (option V * node * list (children_container B K V)) :=
       match i with
       | 0 => cret (None, Node (node_bounds n) (CInner cs), [])
       | S i =>
         let^ child := clift (unwrap (nth_error cs i)) in
         if b_intersects BO (node_bounds child) (q_bounds BR q) then
           let^ (value, child, underfull) := k_node_remove BR l child q in
           let cs := set_nth i child cs in
           match value with
           | Some value =>
             let^ len := clift (shallow_len l child) in
             let^ (cs, underfull) :=
               if len <? minc then
                 let^ (child, cs) := clift (swap_remove i cs) in
                 let^ cc := clift (container_children (l, child)) in
                 cret (cs, underfull ++ [cc])
               else cret (cs, underfull) in
             let^ b := k_union_all (map node_bounds cs) in
             cret (Some value, Node b (CInner cs), underfull)
           | None => loop i cs
           end
         else loop i cs
       end) (length cs) cs
  | 0 =>
    let^ es := clift (read_leaf (node_children n)) in
    match position (fun kv => q_eq BR (borrow BR (fst kv)) q) es with
    | Some i =>
      let^ (kv, es) := clift (swap_remove i es) in
      let^ b := k_union_all (map (fun kv => kb (fst kv)) es) in
      cret (Some (snd kv), Node b (CLeaf es), [])
    | None => cret (None, n, [])
    end
  end.

(** [insert_entry] for each entry in turn (node.rs 785-787, 790-792). *)
Fixpoint k_insert_entries (root : container) (es : list entry) : C container :=
  match es with
  | [] => cret root
  | e :: r => let^ root := k_insert_entry root e in k_insert_entries root r
  end.

(** The re-insertion loop (node.rs 775-796). *)
Fixpoint k_reinsert (root : container) (level : nat) (arr : list (option (children node (K * V)))) : C container :=
  match arr with
  | [] => cret root
  | None :: r => k_reinsert root (S level) r
  | Some ch :: r =>
    let^ cc := clift (wrap_children ch level) in
    let^ root := k_insert_entries root (cc_entries cc) in
    k_reinsert root (S level) r
  end.

(** [NodeContainer::remove] (node.rs 757-802). *)
Definition k_container_remove {Q} (BR : Borrowed B K Q) (root : container) (q : Q) : C (option V * container) :=
  let arr := repeat None (fst root) in
  let^ (value, n, underfull) := k_node_remove BR (fst root) (snd root) q in
  let^ arr := clift (store_all arr underfull) in
  match value with
  | Some value =>
    let^ root := clift (try_unbranch (fst root, n)) in
    let^ root := k_reinsert root 0 arr in
    cret (Some value, root)
  | None => cret (None, (fst root, n))
  end.

(** [RTree::insert] (lib.rs 368-375). *)
Definition k_insert (t : rtree B K V) (k : K) (v : V) : C (rtree B K V) := k_insert_entry t (ELeaf (k, v)).
(** [RTree::insert_unique] (lib.rs 381-388). *)
Definition k_insert_unique (t : rtree B K V) (k : K) (v : V) : C (option V * rtree B K V) :=
  k_container_insert_unique t k v.
(** [RTree::remove] (lib.rs 397-407). *)
Definition k_remove {Q} (BR : Borrowed B K Q) (t : rtree B K V) (q : Q) : C (option V * rtree B K V) :=
  k_container_remove BR t q.
End CTree.
