(** Model of the tree core: node.rs, split.rs, select.rs, util.rs and the API of lib.rs. *)
From Verif Require Export Base.

(** [trait Bounds] (bounds.rs 19-33) with its super-traits [Contains<Self>] (contains.rs 1-3) and
    [Intersects<Self>] (intersects.rs 5-7). *)
Record BoundsOps (B : Type) := {
  b_empty : B;
  b_union : B -> B -> B;
  b_union_all : list B -> B;
  b_contains : B -> B -> bool;
  b_intersects : B -> B -> bool
}.
Arguments b_empty {B}. Arguments b_union {B}. Arguments b_union_all {B}.
Arguments b_contains {B}. Arguments b_intersects {B}.

(** [trait Volume] (bounds.rs 39-41) and the operations on [N64] that split.rs and select.rs use. *)
Record VolumeOps (B : Type) := {
  N64 : Type;
  volume : B -> N64;
  n64_sub : N64 -> N64 -> N64;
  n64_cmp : N64 -> N64 -> comparison;
  n64_neg_inf : N64
}.
Arguments N64 {B}. Arguments volume {B}. Arguments n64_sub {B}. Arguments n64_cmp {B}.
Arguments n64_neg_inf {B}.

(** What a tree type [RTree<B, Key, Value>] knows about [B] and [Key]: [B: Bounds + Volume],
    [Key: Bounded<B> + Eq] (lib.rs 361-365, bounds.rs 35-37). *)
Record Params (B K : Type) := {
  bops : BoundsOps B;
  vops : VolumeOps B;
  key_bounds : K -> B;
  key_eq : K -> K -> bool
}.
Arguments bops {B K}. Arguments vops {B K}. Arguments key_bounds {B K}. Arguments key_eq {B K}.

(** A borrowed form [Q] of the key: [Key: Borrow<Q>, Q: Eq + Bounded<B>] (lib.rs 301-306). *)
Record Borrowed (B K Q : Type) := {
  borrow : K -> Q;
  q_eq : Q -> Q -> bool;
  q_bounds : Q -> B
}.
Arguments borrow {B K Q}. Arguments q_eq {B K Q}. Arguments q_bounds {B K Q}.

(** [RTreeConfig] (lib.rs 57-61); carried by [node::Alloc] and [fc_vec::Alloc] (node.rs 174-186,
    fc_vec.rs 116-125). *)
Record config := { max_children : nat; min_children : nat }.

(** [union NodeChildren] (node.rs 45-48): the constructor records which field was written last; reading
    the other field is [UB] (see [read_inner], [read_leaf]).  [FCVec] is modelled by the list of its
    elements (justified in FCVecModel.v); its capacity is [max_children]. *)
Inductive children (N E : Type) : Type :=
| CInner (l : list N)
| CLeaf (l : list E).
Arguments CInner {N E} l.
Arguments CLeaf {N E} l.

(** [struct Node] (node.rs 80-83). *)
Inductive node (B K V : Type) : Type :=
| Node (bounds : B) (ch : children (node B K V) (K * V)).
Arguments Node {B K V} bounds ch.

(** [Node::inner_children] and its mut variant (node.rs 109-127). *)
Definition read_inner {N E} (c : children N E) : res (list N) :=
  match c with CInner l => Ok l | CLeaf _ => UB end.

(** [Node::leaf_children] and its mut variant (node.rs 136-153). *)
Definition read_leaf {N E} (c : children N E) : res (list E) :=
  match c with CLeaf l => Ok l | CInner _ => UB end.

Section Tree.
Context {B K V : Type}.
Notation node := (node B K V).

(** [<Node as Bounded>::bounds] (node.rs 165-172). *)
Definition node_bounds (n : node) : B := match n with Node b _ => b end.
(** [Node::children] (node.rs 80-83). *)
Definition node_children (n : node) : children node (K * V) := match n with Node _ c => c end.

(** [struct NodeContainer] without its [Alloc] (node.rs 706-710): a node and its level. *)
Definition container : Type := (nat * node)%type.

(** [enum NodeEntry] (node.rs 18-21). *)
Inductive entry :=
| EInner (c : container)
| ELeaf (kv : K * V).

(** [NodeEntry::target_level] (node.rs 24-29). *)
Definition target_level (e : entry) : nat :=
  match e with EInner c => fst c + 1 | ELeaf _ => 0 end.

(** [NodeRef::children], [NodeRefMut::children_mut], [into_children_mut] (node.rs 575-615, 992-1006): the
    level decides which field of the union is read. *)
Definition children_at (level : nat) (n : node) : res (children node (K * V)) :=
  match level with
  | 0 => let* es := read_leaf (node_children n) in Ok (CLeaf es)
  | S _ => let* cs := read_inner (node_children n) in Ok (CInner cs)
  end.

Variable (P : Params B K).
Let BO := bops P.
Let VO := vops P.
Let kb := key_bounds P.

(** [<NodeEntry as Bounded>::bounds] (node.rs 32-43). *)
Definition entry_bounds (e : entry) : B :=
  match e with
  | EInner c => node_bounds (snd c)
  | ELeaf (k, _) => kb k
  end.

(** [volume > greatest] on [N64] (split.rs 25, 38). *)
Definition n64_gt (x y : N64 VO) : bool :=
  match n64_cmp VO x y with Gt => true | _ => false end.

(** [candidate_1.1 < candidate_2.1] on [N64] (split.rs 126). *)
Definition n64_lt (x y : N64 VO) : bool :=
  match n64_cmp VO x y with Lt => true | _ => false end.

(** [volume_increase_of_min_bounds] (select.rs 17-22). *)
Definition volume_increase (lhs rhs : B) : N64 VO :=
  n64_sub VO (volume VO (b_union BO lhs rhs)) (volume VO lhs).

(** The comparison closure of [MinimalVolumeIncreaseSelector::select] (select.rs 38-50). *)
Definition select_cmp (bounds : B) (lhs rhs : nat * B) : comparison :=
  match n64_cmp VO (volume_increase (snd lhs) bounds) (volume_increase (snd rhs) bounds) with
  | Eq => n64_cmp VO (volume VO (snd lhs)) (volume VO (snd rhs))
  | c => c
  end.

(** [MinimalVolumeIncreaseSelector::select] (select.rs 30-51), on the bounds of the children; the
    reference returned is modelled by the index of the child. *)
Definition select (cs : list B) (bounds : B) : option nat :=
  option_map fst (min_by (select_cmp bounds) (enumerate cs)).

(** ** Splitting (split.rs), for any element type with bounds *)
Section Split.
Context {T : Type} (bnd : T -> B).

(** First loop of [worst_combination] (split.rs 23-29); state: greatest volume so far and [idx_1]. *)
Definition wc_loop1 (ov : T) (s : N64 VO * nat) (iv : nat * T) : N64 VO * nat :=
  let '(greatest, idx1) := s in
  let '(i, value) := iv in
  let vol := volume VO (b_union BO (bnd value) (bnd ov)) in
  if n64_gt vol greatest then (vol, i) else (greatest, idx1).

(** Body of the second loop of [worst_combination] (split.rs 33-42). *)
Definition wc_loop2 (ov : T) (i : nat) (vi : T) (s : N64 VO * nat * nat) (jv : nat * T)
  : N64 VO * nat * nat :=
  let '(greatest, idx1, idx2) := s in
  let '(j, vj) := jv in
  let vol := volume VO (b_union BO (bnd vi) (b_union BO (bnd vj) (bnd ov))) in
  if n64_gt vol greatest then (vol, i, j) else (greatest, idx1, idx2).

(** The two nested loops (split.rs 31-44): the elements after position [i] are the [j] of the inner
    loop.  The code stops [i] before the last index, for which the inner loop is empty anyway. *)
Fixpoint wc_outer (ov : T) (ivs : list (nat * T)) (s : N64 VO * nat * nat) : N64 VO * nat * nat :=
  match ivs with
  | [] => s
  | (i, vi) :: rest => wc_outer ov rest (fold_left (wc_loop2 ov i vi) rest s)
  end.

(** [worst_combination] (split.rs 12-47). *)
Definition worst_combination (values : list T) (ov : T) : res (nat * nat) :=
  match values with
  | [] => Panic
  | _ =>
    let '(g, i1) := fold_left (wc_loop1 ov) (enumerate values) (n64_neg_inf VO, 0) in
    let '(_, j1, j2) := wc_outer ov (enumerate values) (g, i1, length values) in
    Ok (j1, j2)
  end.

(** [seed_split_groups] (split.rs 52-63): the new [values] and the seed of the second group. *)
Definition seed_split_groups (values : list T) (ov : T) : res (list T * T) :=
  let* (i1, i2) := worst_combination values ov in
  let* values := slice_swap 0 i1 values in
  if i2 <? length values then
    match nth_error values i2 with
    | Some x => Ok (set_nth i2 ov values, x)
    | None => Panic
    end
  else Ok (values, ov).

(** [best_candidate_for_group] (split.rs 65-76); [min_by_key] is [min_by] on the second components. *)
Definition best_candidate_for_group (cs : list T) (bounds : B) : option (nat * N64 VO) :=
  let bounds_volume := volume VO bounds in
  min_by (fun x y => n64_cmp VO (snd x) (snd y))
    (enumerate (map (fun v => n64_sub VO (volume VO (b_union BO (bnd v) bounds)) bounds_volume) cs)).

(** The distribution loop of [QuadraticSplitter::split] (split.rs 119-140).  [g1] is [group_1_len]; each
    round increments it or shortens [values], so [length values] rounds suffice as fuel. *)
Fixpoint split_loop (fuel cap min : nat) (values : list T) (g1 : nat) (group2 : list T) (b1 b2 : B)
  : res (B * B * list T * list T) :=
  if g1 <? length values then
    match fuel with
    | 0 => OutOfFuel
    | S fuel =>
      let remaining := skipn g1 values in
      let* (c1, v1) := unwrap (best_candidate_for_group remaining b1) in
      let* (c2, v2) := unwrap (best_candidate_for_group remaining b2) in
      let add_to_group_1 :=
        if n64_lt v1 v2 then min <? length group2 + length remaining
        else g1 + length remaining - 1 =? min in
      if add_to_group_1 then
        let* x := unwrap (nth_error remaining c1) in
        let b1 := b_union BO b1 (bnd x) in
        let* values := slice_swap (g1 + c1) g1 values in
        split_loop fuel cap min values (g1 + 1) group2 b1 b2
      else
        let* x := unwrap (nth_error remaining c2) in
        let b2 := b_union BO b2 (bnd x) in
        let* (y, values) := swap_remove (g1 + c2) values in
        let* group2 := push cap group2 y in
        split_loop fuel cap min values g1 group2 b1 b2
    end
  else Ok (b1, b2, values, group2).

(** [QuadraticSplitter::split] (split.rs 97-143): bounds of both groups, group 1 (left in [values]) and
    group 2. *)
Definition split (cap min : nat) (values : list T) (ov : T) : res (B * B * list T * list T) :=
  if length values <? 1 then Panic
  else
    let* (values, seed2) := seed_split_groups values ov in
    let* group2 := push cap [] seed2 in
    let* v0 := unwrap (nth_error values 0) in
    let* w0 := unwrap (nth_error group2 0) in
    split_loop (length values) cap min values 1 group2 (bnd v0) (bnd w0).
End Split.

Variable (cfg : config).
Let cap := max_children cfg.
Let minc := min_children cfg.

(** [Alloc::new_leaf] (node.rs 188-205). *)
Definition new_leaf : container := (0, Node (b_empty BO) (CLeaf [])).

(** [NodeRefMut::self_insert] (node.rs 351-409), including [InnerNodeChildrenRefMut::try_push]
    (1343-1356) and [InnerNodeChildrenRefMut::split] (1358-1393) with their level checks. *)
Definition self_insert (level : nat) (n : node) (e : entry) : res (node * option container) :=
  let eb := entry_bounds e in
  let* ch := children_at level n in
  match ch, e with
  | CInner cs, EInner (elevel, enode) =>
    if negb (level - 1 =? elevel) then Panic
    else
      match try_push cap cs enode with
      | inr overflow =>
        let* (b1, b2, g1, g2) := split node_bounds cap minc cs overflow in
        Ok (Node b1 (CInner g1), Some (level, Node b2 (CInner g2)))
      | inl cs => Ok (Node (b_union BO (node_bounds n) eb) (CInner cs), None)
      end
  | CLeaf es, ELeaf kv =>
    match try_push cap es kv with
    | inr overflow =>
      let* (b1, b2, g1, g2) := split (fun kv => kb (fst kv)) cap minc es overflow in
      Ok (Node b1 (CLeaf g1), Some (level, Node b2 (CLeaf g2)))
    | inl es => Ok (Node (b_union BO (node_bounds n) eb) (CLeaf es), None)
    end
  | CInner _, ELeaf _ => Panic
  | CLeaf _, EInner _ => Panic
  end.

(** [NodeRefMut::insert] (node.rs 411-438). *)
Fixpoint node_insert (level : nat) (n : node) (e : entry) {struct level}
  : res (node * option container) :=
  let eb := entry_bounds e in
  if negb (target_level e =? level) then
    match level with
    | 0 => Panic                                              (* unreachable!() *)
    | S l =>
      let* cs := read_inner (node_children n) in
      let* i := unwrap (select (map node_bounds cs) eb) in
      let* child := unwrap (nth_error cs i) in
      let* (child, new_child) := node_insert l child e in
      let cs := set_nth i child cs in
      match new_child with
      | Some new_child =>
        self_insert (S l) (Node (b_union_all BO (map node_bounds cs)) (CInner cs)) (EInner new_child)
      | None => Ok (Node (b_union BO (node_bounds n) eb) (CInner cs), None)
      end
    end
  else self_insert level n e.

(** The lookup shared by [NodeRef::get] (node.rs 1028-1050), [NodeRefMut::into_get_mut] (648-670) and
    [NodeRefMut::get_mut] (672-694), which are textually the same: the value found together with the
    tree that results from overwriting it (the [&mut Value] as a lens). *)
Section Get.
Context {Q : Type} (BR : Borrowed B K Q).

(** The leaf case of the lookup (node.rs 652-657), as a lens. *)
Fixpoint entries_get_mut (es : list (K * V)) (q : Q) : option (V * (V -> list (K * V))) :=
  match es with
  | [] => None
  | (k, v) :: r =>
    if q_eq BR (borrow BR k) q then Some (v, fun v' => (k, v') :: r)
    else option_map (fun p => (fst p, fun v' => (k, v) :: snd p v')) (entries_get_mut r q)
  end.

(** The lookup on a node of a level (node.rs 648-670), as a lens. *)
Fixpoint node_get_mut (level : nat) (n : node) (q : Q) {struct level}
  : res (option (V * (V -> node))) :=
  match level with
  | S l =>
    let* cs := read_inner (node_children n) in
    let* found :=
      (fix loop (cs : list node) : res (option (V * (V -> list node))) :=
         match cs with
         | [] => Ok None
         | c :: r =>
           let* here :=
             if b_contains BO (node_bounds c) (q_bounds BR q) then node_get_mut l c q
             else Ok None in
           match here with
           | Some (v, put) => Ok (Some (v, fun v' => put v' :: r))
           | None =>
             let* there := loop r in
             Ok (option_map (fun p => (fst p, fun v' => c :: snd p v')) there)
           end
         end) cs in
    Ok (option_map (fun p => (fst p, fun v' => Node (node_bounds n) (CInner (snd p v')))) found)
  | 0 =>
    let* es := read_leaf (node_children n) in
    Ok (option_map (fun p => (fst p, fun v' => Node (node_bounds n) (CLeaf (snd p v'))))
          (entries_get_mut es q))
  end.

(** [NodeRef::get] (node.rs 1028-1050), written separately. *)
Fixpoint node_get (level : nat) (n : node) (q : Q) {struct level} : res (option V) :=
  match level with
  | S l =>
    let* cs := read_inner (node_children n) in
    (fix loop (cs : list node) : res (option V) :=
       match cs with
       | [] => Ok None
       | c :: r =>
         if b_contains BO (node_bounds c) (q_bounds BR q) then
           let* o := node_get l c q in
           match o with
           | Some v => Ok (Some v)
           | None => loop r
           end
         else loop r
       end) cs
  | 0 =>
    let* es := read_leaf (node_children n) in
    Ok (option_map snd (find (fun kv => q_eq BR (borrow BR (fst kv)) q) es))
  end.
End Get.

(** The key type borrowed as itself. *)
Definition self_borrow : Borrowed B K K :=
  {| borrow := fun k => k; q_eq := key_eq P; q_bounds := kb |}.

(** [NodeRefMut::insert_unique] (node.rs 440-513); [get_only] (util.rs 13-23) on the indices of the
    children containing the key's bounds. *)
Fixpoint node_insert_unique (level : nat) (n : node) (k : K) (v : V) {struct level}
  : res (option V * node * option container) :=
  let eb := kb k in
  let plain_insert :=
    let* (n, sibling) := node_insert level n (ELeaf (k, v)) in Ok (None, n, sibling) in
  match level with
  | S l =>
    let* cs := read_inner (node_children n) in
    match filter (fun ic => b_contains BO (node_bounds (snd ic)) (kb k)) (enumerate cs) with
    | [] => plain_insert
    | [(i, child)] =>
      let* (old_value, child, new_child) := node_insert_unique l child k v in
      let cs := set_nth i child cs in
      match new_child with
      | Some new_child =>
        let* (n, sibling) :=
          self_insert (S l) (Node (b_union_all BO (map node_bounds cs)) (CInner cs))
            (EInner new_child) in
        Ok (old_value, n, sibling)
      | None => Ok (old_value, Node (b_union BO (node_bounds n) eb) (CInner cs), None)
      end
    | _ =>
      let* found := node_get_mut self_borrow level n k in
      match found with
      | Some (old, put) => Ok (Some old, put v, None)
      | None => plain_insert
      end
    end
  | 0 =>
    let* es := read_leaf (node_children n) in
    match entries_get_mut self_borrow es k with
    | Some (old, put) => Ok (Some old, Node (node_bounds n) (CLeaf (put v)), None)
    | None => plain_insert
    end
  end.

(** [enum NodeChildrenContainer] (node.rs 1535-1538). *)
Inductive children_container :=
| CCInner (level : nat) (cs : list node)
| CCLeaf (es : list (K * V)).

(** [NodeContainer::children] (node.rs 878-906). *)
Definition container_children (c : container) : res children_container :=
  match fst c with
  | S l => let* cs := read_inner (node_children (snd c)) in Ok (CCInner (S l) cs)
  | 0 => let* es := read_leaf (node_children (snd c)) in Ok (CCLeaf es)
  end.

(** [NodeChildrenContainer::level] (node.rs 1552-1557). *)
Definition cc_level (c : children_container) : nat :=
  match c with CCInner l _ => l | CCLeaf _ => 0 end.

(** [NodeChildrenContainer::leak] (node.rs 1570-1579): the level is forgotten. *)
Definition cc_leak (c : children_container) : children node (K * V) :=
  match c with CCInner _ cs => CInner cs | CCLeaf es => CLeaf es end.

(** [Alloc::wrap_children] (node.rs 276-290): the level is supplied again. *)
Definition wrap_children (c : children node (K * V)) (level : nat) : res children_container :=
  match level with
  | S l => let* cs := read_inner c in Ok (CCInner (S l) cs)
  | 0 => let* es := read_leaf c in Ok (CCLeaf es)
  end.

(** [NodeRefMut::shallow_len] (node.rs 636-646). *)
Definition shallow_len (level : nat) (n : node) : res nat :=
  match level with
  | S _ => let* cs := read_inner (node_children n) in Ok (length cs)
  | 0 => let* es := read_leaf (node_children n) in Ok (length es)
  end.

Section Remove.
Context {Q : Type} (BR : Borrowed B K Q).

(** [NodeRefMut::remove] (node.rs 515-559): the value removed, the node afterwards, and the calls of
    [on_underfull] in order.  The inner [loop] is the [while i > 0] loop, entered with [i] still to be
    decremented. *)
Fixpoint node_remove (level : nat) (n : node) (q : Q) {struct level}
  : res (option V * node * list children_container) :=
  match level with
  | S l =>
    let* cs := read_inner (node_children n) in
    (fix loop (i : nat) (cs : list node) : res (option V * node * list children_container) :=
       match i with
       | 0 => Ok (None, Node (node_bounds n) (CInner cs), [])
       | S i =>
         let* child := unwrap (nth_error cs i) in
         if b_intersects BO (node_bounds child) (q_bounds BR q) then
           let* (value, child, underfull) := node_remove l child q in
           let cs := set_nth i child cs in
           match value with
           | Some value =>
             let* len := shallow_len l child in
             let* (cs, underfull) :=
               if len <? minc then
                 let* (child, cs) := swap_remove i cs in
                 let* cc := container_children (l, child) in
                 Ok (cs, underfull ++ [cc])
               else Ok (cs, underfull) in
             Ok (Some value, Node (b_union_all BO (map node_bounds cs)) (CInner cs), underfull)
           | None => loop i cs
           end
         else loop i cs
       end) (length cs) cs
  | 0 =>
    let* es := read_leaf (node_children n) in
    match position (fun kv => q_eq BR (borrow BR (fst kv)) q) es with
    | Some i =>
      let* (kv, es) := swap_remove i es in
      Ok (Some (snd kv), Node (b_union_all BO (map (fun kv => kb (fst kv)) es)) (CLeaf es), [])
    | None => Ok (None, n, [])
    end
  end.
End Remove.

(** [NodeContainer::branch] (node.rs 806-842): both pushes go into a fresh vector of capacity
    [max_children]. *)
Definition branch (root sibling : container) : res container :=
  if negb (fst sibling =? fst root) then Panic
  else
    let bounds := b_union BO (node_bounds (snd root)) (node_bounds (snd sibling)) in
    let* v := push cap [] (snd root) in
    let* v := push cap v (snd sibling) in
    Ok (fst root + 1, Node bounds (CInner v)).

(** [NodeContainer::insert_entry] (node.rs 717-726). *)
Definition insert_entry (root : container) (e : entry) : res container :=
  let* (n, sibling) := node_insert (fst root) (snd root) e in
  match sibling with
  | Some s => branch (fst root, n) s
  | None => Ok (fst root, n)
  end.

(** [NodeContainer::insert_unique] (node.rs 738-755). *)
Definition container_insert_unique (root : container) (k : K) (v : V) : res (option V * container) :=
  let* (prev, n, sibling) := node_insert_unique (fst root) (snd root) k v in
  match sibling with
  | Some s => let* root := branch (fst root, n) s in Ok (prev, root)
  | None => Ok (prev, (fst root, n))
  end.

(** [NodeContainer::try_unbranch] (node.rs 844-861). *)
Definition try_unbranch (root : container) : res container :=
  match fst root with
  | S l =>
    let* cs := read_inner (node_children (snd root)) in
    if length cs =? 1 then
      let* (new_root, _) := swap_remove 0 cs in
      Ok (l, new_root)
    else Ok root
  | 0 => let* _ := read_leaf (node_children (snd root)) in Ok root
  end.

(** The [on_underfull] closure of [NodeContainer::remove] (node.rs 769-772). *)
Definition store_underfull (arr : list (option (children node (K * V)))) (cc : children_container)
  : res (list (option (children node (K * V)))) :=
  if cc_level cc <? length arr then Ok (set_nth (cc_level cc) (Some (cc_leak cc)) arr) else Panic.

(** [on_underfull] for each moved vector in turn (node.rs 769-772). *)
Fixpoint store_all (arr : list (option (children node (K * V)))) (ccs : list children_container)
  : res (list (option (children node (K * V)))) :=
  match ccs with
  | [] => Ok arr
  | cc :: r => let* arr := store_underfull arr cc in store_all arr r
  end.

(** [insert_entry] for each entry in turn (node.rs 785-787, 790-792). *)
Fixpoint insert_entries (root : container) (es : list entry) : res container :=
  match es with
  | [] => Ok root
  | e :: r => let* root := insert_entry root e in insert_entries root r
  end.

(** [InnerNodeChildrenIntoIter::next] wraps each child at [level - 1] (node.rs 1515-1522). *)
Definition cc_entries (cc : children_container) : list entry :=
  match cc with
  | CCInner level cs => map (fun c => EInner (level - 1, c)) cs
  | CCLeaf es => map ELeaf es
  end.

(** The re-insertion loop (node.rs 775-796); [level] is the index of the head of [arr]. *)
Fixpoint reinsert (root : container) (level : nat) (arr : list (option (children node (K * V))))
  : res container :=
  match arr with
  | [] => Ok root
  | None :: r => reinsert root (S level) r
  | Some ch :: r =>
    let* cc := wrap_children ch level in
    let* root := insert_entries root (cc_entries cc) in
    reinsert root (S level) r
  end.

(** [NodeContainer::remove] (node.rs 757-802). *)
Definition container_remove {Q} (BR : Borrowed B K Q) (root : container) (q : Q)
  : res (option V * container) :=
  let arr := repeat None (fst root) in
  let* (value, n, underfull) := node_remove BR (fst root) (snd root) q in
  let* arr := store_all arr underfull in
  match value with
  | Some value =>
    let* root := try_unbranch (fst root, n) in
    let* root := reinsert root 0 arr in
    Ok (Some value, root)
  | None => Ok (None, (fst root, n))
  end.

(** [NodeRef::len] (node.rs 1008-1019). *)
Fixpoint node_len (level : nat) (n : node) {struct level} : res nat :=
  match level with
  | S l =>
    let* cs := read_inner (node_children n) in
    (fix loop (cs : list node) (size : nat) : res nat :=
       match cs with
       | [] => Ok size
       | c :: r => let* x := node_len l c in loop r (size + x)
       end) cs 0
  | 0 => let* es := read_leaf (node_children n) in Ok (length es)
  end.

(** [NodeRef::is_empty] (node.rs 1021-1026). *)
Definition node_is_empty (level : nat) (n : node) : res bool :=
  let* ch := children_at level n in
  Ok (match ch with
      | CInner cs => length cs =? 0
      | CLeaf es => length es =? 0
      end).

(** [Alloc::clone_node] and [Alloc::clone_children] (node.rs 292-337); [fc_vec::Alloc::clone] (fc_vec.rs
    168-180).  [Key], [Value] and [B] are cloned to equal values. *)
Fixpoint clone_vec {T} (vec new : list T) : res (list T) :=
  match vec with
  | [] => Ok new
  | x :: r => let* new := push cap new x in clone_vec r new
  end.

(** [Alloc::clone_node] (node.rs 292-308). *)
Fixpoint clone_node (level : nat) (n : node) {struct level} : res node :=
  match level with
  | S l =>
    let* cs := read_inner (node_children n) in
    let* cs :=
      (fix loop (cs new : list node) : res (list node) :=
         match cs with
         | [] => Ok new
         | c :: r =>
           let* c := clone_node l c in
           let* new := push cap new c in
           loop r new
         end) cs [] in
    Ok (Node (node_bounds n) (CInner cs))
  | 0 =>
    let* es := read_leaf (node_children n) in
    if cap <? length es then Panic
    else
      let* es := clone_vec es [] in
      Ok (Node (node_bounds n) (CLeaf es))
  end.

(** [NodeRefMut::drop] (node.rs 625-634), [InnerNodeChildrenRefMut::drop] (1295-1304) and
    [FCVecRefMut::drop] (fc_vec.rs 332-338, which pops from the back): the entries dropped, in order.
    The vector of an inner node drops only the bounds of its nodes ([Node] has no [Drop]). *)
Fixpoint drop_node (level : nat) (n : node) {struct level} : res (list (K * V)) :=
  match level with
  | S l =>
    let* cs := read_inner (node_children n) in
    (fix loop (cs : list node) : res (list (K * V)) :=
       match cs with
       | [] => Ok []
       | c :: r => let* d := drop_node l c in let* ds := loop r in Ok (d ++ ds)
       end) cs
  | 0 => let* es := read_leaf (node_children n) in Ok (rev es)
  end.

(** [NodeRef::_debug_assert_bvh] (node.rs 1052-1068), used by the crate's own tests; [beq] is [PartialEq]
    of the bounds, and [assert_eq!] panics. *)
Fixpoint debug_assert_bvh (beq : B -> B -> bool) (level : nat) (n : node) {struct level} : res B :=
  let* bounds :=
    match level with
    | S l =>
      let* cs := read_inner (node_children n) in
      let* bs :=
        (fix loop (cs : list node) : res (list B) :=
           match cs with
           | [] => Ok []
           | c :: r => let* b := debug_assert_bvh beq l c in let* bs := loop r in Ok (b :: bs)
           end) cs in
      Ok (b_union_all BO bs)
    | 0 =>
      let* es := read_leaf (node_children n) in
      Ok (b_union_all BO (map (fun kv => kb (fst kv)) es))
    end in
  if beq (node_bounds n) bounds then Ok bounds else Panic.

(** [NodeRef::_debug_assert_min_children] (node.rs 1080-1090). *)
Fixpoint debug_assert_min_children (is_root : bool) (level : nat) (n : node) {struct level} : res unit :=
  let* len := shallow_len level n in
  if negb is_root && (len <? minc) then Panic
  else
    match level with
    | S l =>
      let* cs := read_inner (node_children n) in
      (fix loop (cs : list node) : res unit :=
         match cs with
         | [] => Ok tt
         | c :: r => let* _ := debug_assert_min_children false l c in loop r
         end) cs
    | 0 => Ok tt
    end.

(** ** The API (lib.rs) *)

(** [struct RTree] (lib.rs 88-90) together with the [Alloc] of its root container. *)
Definition rtree : Type := container.

(** [RTree::new] (lib.rs 104-112). *)
Definition rtree_new : rtree := new_leaf.

(** [RTree::insert] (lib.rs 368-375), [NodeContainer::insert] (node.rs 728-736). *)
Definition rtree_insert (t : rtree) (k : K) (v : V) : res rtree := insert_entry t (ELeaf (k, v)).

(** [RTree::insert_unique] (lib.rs 381-388). *)
Definition rtree_insert_unique (t : rtree) (k : K) (v : V) : res (option V * rtree) :=
  container_insert_unique t k v.

(** [RTree::remove] (lib.rs 397-407). *)
Definition rtree_remove {Q} (BR : Borrowed B K Q) (t : rtree) (q : Q) : res (option V * rtree) :=
  container_remove BR t q.

(** [RTree::get] (lib.rs 301-308). *)
Definition rtree_get {Q} (BR : Borrowed B K Q) (t : rtree) (q : Q) : res (option V) :=
  node_get BR (fst t) (snd t) q.

(** [RTree::get_mut] (lib.rs 317-324), as a lens on the tree. *)
Definition rtree_get_mut {Q} (BR : Borrowed B K Q) (t : rtree) (q : Q)
  : res (option (V * (V -> rtree))) :=
  let* o := node_get_mut BR (fst t) (snd t) q in
  Ok (option_map (fun p => (fst p, fun v' => (fst t, snd p v'))) o).

(** [RTree::len] (lib.rs 327-329). *)
Definition rtree_len (t : rtree) : res nat := node_len (fst t) (snd t).

(** [RTree::is_empty] (lib.rs 332-334). *)
Definition rtree_is_empty (t : rtree) : res bool := node_is_empty (fst t) (snd t).

(** [derive(Clone)] (lib.rs 87) and [NodeContainer::clone] (node.rs 950-952). *)
Definition rtree_clone (t : rtree) : res rtree :=
  let* n := clone_node (fst t) (snd t) in Ok (fst t, n).

(** [RTree::_debug_assert_bvh] and [RTree::_debug_assert_min_children] (lib.rs 336-358, node.rs 930-933). *)
Definition rtree_debug_assert_bvh (beq : B -> B -> bool) (t : rtree) : res B :=
  debug_assert_bvh beq (fst t) (snd t).
(** [RTree::_debug_assert_min_children] (lib.rs 353-358). *)
Definition rtree_debug_assert_min_children (t : rtree) : res unit :=
  debug_assert_min_children true (fst t) (snd t).

(** [<NodeContainer as Drop>::drop] (node.rs 936-942). *)
Definition rtree_drop (t : rtree) : res (list (K * V)) := drop_node (fst t) (snd t).
End Tree.

Arguments container : clear implicits.
Arguments entry : clear implicits.
Arguments children_container : clear implicits.
Arguments rtree : clear implicits.
