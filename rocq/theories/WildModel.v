(** User code that answers as it likes.  The tree operations of CrashModel.v once more, but nothing is assumed of the
    operations of [B], [Key] and [Q]: the same call may answer differently each time (interior mutability, random numbers,
    global state), and every call may panic.  All calls of user code made between two changes of the data structure form a
    group.  Groups are numbered by [x_calls], the calls of a group by a second number; an oracle gives the answer of
    every numbered call.  As a run fixes which calls are made, quantifying over all oracles covers user code that decides
    its answers as it goes.  Not modelled: destructors that panic, the order in which locals are destroyed. *)
From Verif Require Export CrashSpec.

(** What user code may be asked about [B], [Key] and [Value]: [trait Bounds], [Bounded], [Volume] (bounds.rs 19-41),
    [Contains], [Intersects], [Eq] and [Clone].  [N] is the type [N64]. *)
Record answers (B K V N : Type) := {
  w_empty : B;
  w_union : B -> B -> B;
  w_union_all : list B -> B;
  w_contains : B -> B -> bool;
  w_intersects : B -> B -> bool;
  w_volume : B -> N;
  w_bounds : K -> B;
  w_eq : K -> K -> bool;
  w_clone_b : B -> B;
  w_clone_k : K -> K;
  w_clone_v : V -> V
}.
Arguments w_empty {B K V N}. Arguments w_union {B K V N}. Arguments w_union_all {B K V N}. Arguments w_contains {B K V N}.
Arguments w_intersects {B K V N}. Arguments w_volume {B K V N}. Arguments w_bounds {B K V N}. Arguments w_eq {B K V N}.
Arguments w_clone_b {B K V N}. Arguments w_clone_k {B K V N}. Arguments w_clone_v {B K V N}.

(** What user code may be asked about a borrowed form of the key: [Key: Borrow<Q>, Q: Eq + Bounded<B>] (lib.rs 301-306). *)
Record qanswers (B K Q : Type) := {
  wq_borrow : K -> Q;
  wq_eq : Q -> Q -> bool;
  wq_bounds : Q -> B
}.
Arguments wq_borrow {B K Q}. Arguments wq_eq {B K Q}. Arguments wq_bounds {B K Q}.

(** The operations on [N64] that split.rs and select.rs use; nothing is assumed of them (a user's [volume] may return a
    NaN).  If they panic, the group they belong to does. *)
Record numops (N : Type) := {
  nu_sub : N -> N -> N;
  nu_cmp : N -> N -> comparison;
  nu_neg_inf : N
}.
Arguments nu_sub {N}. Arguments nu_cmp {N}. Arguments nu_neg_inf {N}.

Section WTree.
Context {B K V N : Type}.
Notation xnode := (xnode B K V).
Notation xcontainer := (xcontainer B K V).
Notation xentry := (xentry B K V).
Notation xcc := (xcc B K V).
Notation D := (D K V).
Notation X := (X K V).
Variable (crash : nat -> bool) (bdrop : bool) (O : nat -> nat -> answers B K V N) (U : numops N).
Notation new_bnd := (new_bnd bdrop).
Notation drop_bnd := (drop_bnd bdrop).
Notation use_bnd := (use_bnd bdrop).
Notation xread_inner := (xread_inner bdrop).
Notation xdrop_container := (xdrop_container bdrop).
Notation xdrop_entry := (xdrop_entry bdrop).
Notation drop_bare := (@drop_bare B K V bdrop).
Notation set_bounds := (set_bounds bdrop).

(** A group of calls of user code: its number, or unwinding because one of its calls panicked. *)
Definition ask : X nat unit := fun s =>
  Some (if crash (x_calls s) then inr tt else inl (x_calls s),
        {| x_next := x_next s; x_made := x_made s; x_gone := x_gone s; x_calls := S (x_calls s) |}).

(** [>] on [N64] (split.rs 25, 38). *)
Definition nu_gt (a b : N) : bool := match nu_cmp U a b with Gt => true | _ => false end.
(** [<] on [N64] (split.rs 126). *)
Definition nu_lt (a b : N) : bool := match nu_cmp U a b with Lt => true | _ => false end.

(** [Iterator::min_by] with a comparison that may answer differently each time: the [i]th comparison is [cmp i]. *)
Fixpoint wmin_from {A} (cmp : nat -> A -> A -> comparison) (i : nat) (x : A) (l : list A) : A :=
  match l with
  | [] => x
  | y :: r => wmin_from cmp (S i) (match cmp i x y with Gt => y | _ => x end) r
  end.
(** [Iterator::min_by] (used in select.rs 38, split.rs 75). *)
Definition wmin_by {A} (cmp : nat -> A -> A -> comparison) (l : list A) : option A :=
  match l with [] => None | x :: r => Some (wmin_from cmp 0 x r) end.

(** [volume_increase_of_min_bounds] (select.rs 17-22), as calls [j], [j+1], [j+2] of group [n]. *)
Definition wvolume_increase (n j : nat) (lhs rhs : B) : N :=
  nu_sub U (w_volume (O n (j + 1)) (w_union (O n j) lhs rhs)) (w_volume (O n (j + 2)) lhs).

(** The comparison of [MinimalVolumeIncreaseSelector::select] (select.rs 38-50). *)
Definition wselect_cmp (n : nat) (bounds : B) (i : nat) (lhs rhs : nat * B) : comparison :=
  let j := 12 * i in
  match nu_cmp U (wvolume_increase n (j + 1) (w_clone_b (O n j) (snd lhs)) bounds)
                 (wvolume_increase n (j + 5) (w_clone_b (O n (j + 4)) (snd rhs)) bounds) with
  | Eq => nu_cmp U (w_volume (O n (j + 9)) (w_clone_b (O n (j + 8)) (snd lhs)))
                   (w_volume (O n (j + 11)) (w_clone_b (O n (j + 10)) (snd rhs)))
  | c => c
  end.

(** [MinimalVolumeIncreaseSelector::select] (select.rs 30-51); the reference returned is modelled by its index. *)
Definition wselect (n : nat) (cs : list B) (bounds : B) : option nat :=
  option_map fst (wmin_by (wselect_cmp n bounds) (enumerate cs)).

(** [<NodeEntry as Bounded>::bounds] (node.rs 32-43), as call [j] of group [n]. *)
Definition w_entry_bounds (n j : nat) (e : xentry) : B :=
  match e with
  | XEInner c => w_clone_b (O n j) (x_bounds (snd c))
  | XELeaf (k, _) => w_bounds (O n j) k
  end.
(** [<Node as Bounded>::bounds] (node.rs 165-172). *)
Definition w_node_bounds (n j : nat) (c : xnode) : B := w_clone_b (O n j) (x_bounds c).
(** [<(Key, Value) as Bounded>::bounds] (node.rs 156-163). *)
Definition w_kv_bounds (n j : nat) (kv : K * V) : B := w_bounds (O n j) (fst kv).
(** [B::union_all(.. .map(|child| child.bounds()))] (node.rs 428, 478, 540, 552). *)
Definition w_union_of {T} (bnd : nat -> nat -> T -> B) (n : nat) (l : list T) : B :=
  w_union_all (O n 0) (map (fun it => bnd n (S (fst it)) (snd it)) (enumerate l)).

Variable (cfg : config).
Let cap := max_children cfg.
Let minc := min_children cfg.

(** [QuadraticSplitter::split] (split.rs 97-143). *)
Section WSplit.
Context {T : Type} (bnd : nat -> nat -> T -> B) (drop_elem : T -> D unit).

(** First loop of [worst_combination] (split.rs 23-29). *)
Definition wwc_loop1 (n : nat) (ov : T) (s : N * nat) (iv : nat * T) : N * nat :=
  let '(greatest, idx1) := s in
  let '(i, value) := iv in
  let j := 4 * i in
  let vol := w_volume (O n (j + 3)) (w_union (O n (j + 2)) (bnd n j value) (bnd n (j + 1) ov)) in
  if nu_gt vol greatest then (vol, i) else (greatest, idx1).

(** Body of the second loop of [worst_combination] (split.rs 33-42). *)
Definition wwc_loop2 (n len : nat) (ov : T) (i : nat) (vi : T) (s : N * nat * nat) (jv : nat * T) : N * nat * nat :=
  let '(greatest, idx1, idx2) := s in
  let '(j, vj) := jv in
  let c := 4 * len + 6 * (len * i + j) in
  let vol := w_volume (O n (c + 5))
    (w_union (O n (c + 4)) (bnd n c vi) (w_union (O n (c + 3)) (bnd n (c + 1) vj) (bnd n (c + 2) ov))) in
  if nu_gt vol greatest then (vol, i, j) else (greatest, idx1, idx2).

(** The nested loops (split.rs 31-44). *)
Fixpoint wwc_outer (n len : nat) (ov : T) (ivs : list (nat * T)) (s : N * nat * nat) : N * nat * nat :=
  match ivs with
  | [] => s
  | (i, vi) :: rest => wwc_outer n len ov rest (fold_left (wwc_loop2 n len ov i vi) rest s)
  end.

(** [worst_combination] (split.rs 12-47). *)
Definition wworst_combination (n : nat) (values : list T) (ov : T) : res (nat * nat) :=
  match values with
  | [] => Panic
  | _ =>
    let '(g, i1) := fold_left (wwc_loop1 n ov) (enumerate values) (nu_neg_inf U, 0) in
    let '(_, j1, j2) := wwc_outer n (length values) ov (enumerate values) (g, i1, length values) in
    Ok (j1, j2)
  end.

(** [seed_split_groups] (split.rs 52-63). *)
Definition wseed_split_groups (n : nat) (values : list T) (ov : T) : res (list T * T) :=
  let* (i1, i2) := wworst_combination n values ov in
  let* values := slice_swap 0 i1 values in
  if i2 <? length values then
    match nth_error values i2 with
    | Some x => Ok (set_nth i2 ov values, x)
    | None => Panic
    end
  else Ok (values, ov).

(** [best_candidate_for_group] (split.rs 65-76). *)
Definition wbest_candidate (n : nat) (cs : list T) (bounds : B) : option (nat * N) :=
  let bounds_volume := w_volume (O n 0) bounds in
  wmin_by (fun _ x y => nu_cmp U (snd x) (snd y))
    (map (fun iv => (fst iv,
            nu_sub U (w_volume (O n (3 * fst iv + 3))
                        (w_union (O n (3 * fst iv + 2)) (bnd n (3 * fst iv + 1) (snd iv)) bounds)) bounds_volume))
       (enumerate cs)).

(** The loop of [QuadraticSplitter::split] (split.rs 119-140). *)
Fixpoint wsplit_loop (fuel : nat) (values : list T) (g1 : nat) (id2 : nat) (group2 : list T) (b1 b2 : B)
  : X (B * B * list T * list T) (list T) :=
  let abort values := let$ _ := drop_vec drop_elem id2 group2 in dret values in
  if g1 <? length values then
    match fuel with
    | 0 => undefined
    | S fuel =>
      let remaining := skipn g1 values in
      try! n := ask catch _ => abort values in
      try! (c1, v1) := dlift (unwrap (wbest_candidate n remaining b1)) catch _ => abort values in
      try! n := ask catch _ => abort values in
      try! (c2, v2) := dlift (unwrap (wbest_candidate n remaining b2)) catch _ => abort values in
      let add_to_group_1 :=
        if nu_lt v1 v2 then minc <? length group2 + length remaining
        else g1 + length remaining - 1 =? minc in
      if add_to_group_1 then
        try! x := dlift (unwrap (nth_error remaining c1)) catch _ => abort values in
        try! n := ask catch _ => abort values in
        try! values' := dlift (slice_swap (g1 + c1) g1 values) catch _ => abort values in
        wsplit_loop fuel values' (g1 + 1) id2 group2 (w_union (O n 1) b1 (bnd n 0 x)) b2
      else
        try! x := dlift (unwrap (nth_error remaining c2)) catch _ => abort values in
        try! n := ask catch _ => abort values in
        try! (y, values') := dlift (swap_remove (g1 + c2) values) catch _ => abort values in
        try! group2' := xtry_push cap group2 y catch y => (let$ _ := drop_elem y in abort values') in
        wsplit_loop fuel values' g1 id2 group2' b1 (w_union (O n 1) b2 (bnd n 0 x))
    end
  else dret (inl (b1, b2, values, group2)).

(** [QuadraticSplitter::split] (split.rs 97-143); the result also has the buffer of group 2. *)
Definition wsplit (values : list T) (ov : T) : X (B * B * list T * (nat * list T)) (list T) :=
  if length values <? 1 then let$ _ := drop_elem ov in dret (inr values)
  else
    let$ id2 := new_buf in
    let abort group2 values := let$ _ := drop_vec drop_elem id2 group2 in dret values in
    try! n := ask catch _ => (let$ _ := drop_elem ov in abort [] values) in
    try! (values', seed2) := dlift (wseed_split_groups n values ov)
      catch _ => (let$ _ := drop_elem ov in abort [] values) in
    try! group2 := xtry_push cap [] seed2 catch seed2 => (let$ _ := drop_elem seed2 in abort [] values') in
    try! v0 := dlift (unwrap (nth_error values' 0)) catch _ => abort group2 values' in
    try! w0 := dlift (unwrap (nth_error group2 0)) catch _ => abort group2 values' in
    try! n := ask catch _ => abort group2 values' in
    try! (b1, b2, g1, g2) := wsplit_loop (length values') values' 1 id2 group2 (bnd n 0 v0) (bnd n 1 w0)
      catch values => dret values in
    dret (inl (b1, b2, g1, (id2, g2))).
End WSplit.

(** [NodeRefMut::self_insert] (node.rs 351-409), [InnerNodeChildrenRefMut::try_push] (1343-1356) and [split] (1358-1393). *)
Definition wself_insert (level : nat) (n : xnode) (e : xentry) : X (xnode * option xcontainer) xnode :=
  try! t := ask catch _ => (let$ _ := xdrop_entry e in dret n) in
  let eb := w_entry_bounds t 0 e in
  let$ ch := xchildren_at bdrop level n in
  match ch, e with
  | CInner cs, XEInner (elevel, enode) =>
    if negb (level - 1 =? elevel) then let$ _ := xdrop_entry e in dret (inr n)
    else
      let$ r := xtry_push cap cs enode in
      match r with
      | inr overflow =>
        try! (b1, b2, g1, (id2, g2)) := wsplit w_node_bounds drop_bare cs overflow
          catch cs => dret (with_ch n (CInner cs)) in
        let$ n := set_bounds (with_ch n (CInner g1)) b1 in
        let$ bid2 := new_bnd in
        dret (inl (n, Some (level, XNode b2 bid2 id2 (CInner g2))))
      | inl cs =>
        let n := with_ch n (CInner cs) in
        try! t := ask catch _ => dret n in
        let$ n := set_bounds n (w_union (O t 0) (x_bounds n) eb) in
        dret (inl (n, None))
      end
  | CLeaf es, XELeaf kv =>
    let$ r := xtry_push cap es kv in
    match r with
    | inr overflow =>
      try! (b1, b2, g1, (id2, g2)) := wsplit w_kv_bounds drop_kv es overflow
        catch es => dret (with_ch n (CLeaf es)) in
      let$ n := set_bounds (with_ch n (CLeaf g1)) b1 in
      let$ bid2 := new_bnd in
      dret (inl (n, Some (level, XNode b2 bid2 id2 (CLeaf g2))))
    | inl es =>
      let n := with_ch n (CLeaf es) in
      try! t := ask catch _ => dret n in
      let$ n := set_bounds n (w_union (O t 0) (x_bounds n) eb) in
      dret (inl (n, None))
    end
  | CInner _, XELeaf _ => let$ _ := xdrop_entry e in dret (inr n)
  | CLeaf _, XEInner _ => let$ _ := xdrop_entry e in dret (inr n)
  end.

(** [NodeRefMut::insert] (node.rs 410-437). *)
Fixpoint wnode_insert (level : nat) (n : xnode) (e : xentry) {struct level} : X (xnode * option xcontainer) xnode :=
  let abort := let$ _ := xdrop_entry e in dret n in
  try! t := ask catch _ => abort in
  let eb := w_entry_bounds t 0 e in
  if negb (x_target_level e =? level) then
    match level with
    | 0 => let$ n := abort in dret (inr n)                                           (* unreachable!() *)
    | S l =>
      let$ cs := xread_inner n in
      try! t := ask catch _ => abort in
      try! i := dlift (unwrap (wselect t (map x_bounds cs) eb)) catch _ => abort in
      try! child := dlift (unwrap (nth_error cs i)) catch _ => abort in
      try! (child, new_child) := wnode_insert l child e
        catch child => dret (with_ch n (CInner (set_nth i child cs))) in
      let cs := set_nth i child cs in
      let n := with_ch n (CInner cs) in
      match new_child with
      | Some new_child =>
        try! t := ask catch _ => (let$ _ := xdrop_container new_child in dret n) in
        let$ n := set_bounds n (w_union_of w_node_bounds t cs) in
        wself_insert (S l) n (XEInner new_child)
      | None =>
        try! t := ask catch _ => dret n in
        let$ n := set_bounds n (w_union (O t 0) (x_bounds n) eb) in
        dret (inl (n, None))
      end
    end
  else wself_insert level n e.

Section WGet.
Context {Q : Type} (OQ : nat -> nat -> qanswers B K Q).

(** Did [k.borrow() == q] answer true, as the calls about element [i] of group [n] (node.rs 549, 667, 691)? *)
Definition w_same (n i : nat) (k : K) (q : Q) : bool :=
  wq_eq (OQ n (2 * i + 1)) (wq_borrow (OQ n (2 * i)) k) q.

(** [.find(|(k, _)| k.borrow() == key)] (node.rs 665-668, 689-692), as a lens. *)
Fixpoint wentries_get_mut (n i : nat) (es : list (K * V)) (q : Q) : option (V * (V -> list (K * V))) :=
  match es with
  | [] => None
  | (k, v) :: r =>
    if w_same n i k q then Some (v, fun v' => (k, v') :: r)
    else option_map (fun p => (fst p, fun v' => (k, v) :: snd p v')) (wentries_get_mut n (S i) r q)
  end.

(** [NodeRefMut::get_mut] and [into_get_mut] (node.rs 648-694), as a lens. *)
Fixpoint wnode_get_mut (level : nat) (n : xnode) (q : Q) {struct level} : X (option (V * (V -> xnode))) unit :=
  match level with
  | S l =>
    let$ cs := xread_inner n in
    try! found :=
      (fix loop (cs : list xnode) : X (option (V * (V -> list xnode))) unit :=
         match cs with
         | [] => dret (inl None)
         | c :: r =>
           try! t := ask catch _ => dret tt in
           try! here :=
             if w_contains (O t 1) (x_bounds c) (wq_bounds (OQ t 0) q) then wnode_get_mut l c q else dret (inl None)
             catch _ => dret tt in
           match here with
           | Some (v, put) => dret (inl (Some (v, fun v' => put v' :: r)))
           | None =>
             try! there := loop r catch _ => dret tt in
             dret (inl (option_map (fun p => (fst p, fun v' => c :: snd p v')) there))
           end
         end) cs catch _ => dret tt in
    dret (inl (option_map (fun p => (fst p, fun v' => with_ch n (CInner (snd p v')))) found))
  | 0 =>
    let$ es := xread_leaf n in
    try! t := ask catch _ => dret tt in
    dret (inl (option_map (fun p => (fst p, fun v' => with_ch n (CLeaf (snd p v')))) (wentries_get_mut t 0 es q)))
  end.
End WGet.

(** [impl Borrow<T> for T] (used in node.rs 489, 503). *)
Definition wself (n i : nat) : qanswers B K K := {|
  wq_borrow := fun k => k; wq_eq := w_eq (O n i); wq_bounds := w_bounds (O n i) |}.

(** [NodeRefMut::insert_unique] (node.rs 439-513); [get_only] (util.rs) looks at the first two matches. *)
Fixpoint wnode_insert_unique (level : nat) (n : xnode) (k : K) (v : V) {struct level}
  : X (option V * xnode * option xcontainer) xnode :=
  let abort := let$ _ := drop_kv (k, v) in dret n in
  let plain_insert :=
    try! (n, sibling) := wnode_insert level n (XELeaf (k, v)) catch n => dret n in
    dret (inl (None, n, sibling)) in
  try! t := ask catch _ => abort in
  let eb := w_bounds (O t 0) k in
  match level with
  | S l =>
    let$ cs := xread_inner n in
    try! t := ask catch _ => abort in
    match filter (fun ic => w_contains (O t (3 * fst ic + 2)) (w_clone_b (O t (3 * fst ic)) (x_bounds (snd ic)))
                              (w_bounds (O t (3 * fst ic + 1)) k)) (enumerate cs) with
    | [] => plain_insert
    | [(i, child)] =>
      try! (old_value, child, new_child) := wnode_insert_unique l child k v
        catch child => dret (with_ch n (CInner (set_nth i child cs))) in
      let cs := set_nth i child cs in
      let n := with_ch n (CInner cs) in
      match new_child with
      | Some new_child =>
        try! t := ask catch _ => (let$ _ := xdrop_container new_child in let$ _ := drop_opt old_value in dret n) in
        let$ n := set_bounds n (w_union_of w_node_bounds t cs) in
        try! (n, sibling) := wself_insert (S l) n (XEInner new_child)
          catch n => (let$ _ := drop_opt old_value in dret n) in
        dret (inl (old_value, n, sibling))
      | None =>
        try! t := ask catch _ => (let$ _ := drop_opt old_value in dret n) in
        let$ n := set_bounds n (w_union (O t 0) (x_bounds n) eb) in
        dret (inl (old_value, n, None))
      end
    | _ =>
      try! found := wnode_get_mut wself level n k catch _ => abort in
      match found with
      | Some (old, put) => let$ _ := xdestroy (XKey k) in dret (inl (Some old, put v, None))
      | None => plain_insert
      end
    end
  | 0 =>
    let$ es := xread_leaf n in
    try! t := ask catch _ => abort in
    match wentries_get_mut wself t 0 es k with
    | Some (old, put) => let$ _ := xdestroy (XKey k) in dret (inl (Some old, with_ch n (CLeaf (put v)), None))
    | None => plain_insert
    end
  end.

Section WRemove.
Context {Q : Type} (OQ : nat -> nat -> qanswers B K Q).

(** [.position(|(k, _)| k.borrow() == key)] (node.rs 549). *)
Fixpoint wposition (n i : nat) (es : list (K * V)) (q : Q) : option nat :=
  match es with
  | [] => None
  | (k, _) :: r => if w_same OQ n i k q then Some i else wposition n (S i) r q
  end.

(** [NodeRefMut::remove] (node.rs 515-559); see [xnode_remove] in CrashModel.v. *)
Fixpoint wnode_remove (level : nat) (n : xnode) (q : Q) {struct level} : X (option V * xnode * list xcc) xnode :=
  match level with
  | S l =>
    let$ cs := xread_inner n in
    (fix loop (i : nat) (cs : list xnode) : X (option V * xnode * list xcc) xnode :=
       match i with
       | 0 => dret (inl (None, with_ch n (CInner cs), []))
       | S i =>
         try! child := dlift (unwrap (nth_error cs i)) catch _ => dret (with_ch n (CInner cs)) in
         try! t := ask catch _ => dret (with_ch n (CInner cs)) in
         if w_intersects (O t 2) (w_clone_b (O t 0) (x_bounds child)) (wq_bounds (OQ t 1) q) then
           try! (value, child, underfull) := wnode_remove l child q
             catch child => dret (with_ch n (CInner (set_nth i child cs))) in
           let cs := set_nth i child cs in
           match value with
           | Some value =>
             let$ len := xshallow_len l child in
             try! (cs, underfull) :=
               (if len <? minc then
                  try! (child, cs) := dlift (swap_remove i cs)
                    catch _ => (let$ _ := xdestroy (XVal value) in dret (with_ch n (CInner cs))) in
                  let$ cc := xcontainer_children bdrop (l, child) in
                  dret (inl (cs, underfull ++ [cc]))
                else dret (inl (cs, underfull))) catch n => dret n in
             let n := with_ch n (CInner cs) in
             try! t := ask catch _ => (let$ _ := xdestroy (XVal value) in dret n) in
             let$ n := set_bounds n (w_union_of w_node_bounds t cs) in
             dret (inl (Some value, n, underfull))
           | None => loop i cs
           end
         else loop i cs
       end) (length cs) cs
  | 0 =>
    let$ es := xread_leaf n in
    try! t := ask catch _ => dret n in
    match wposition t 0 es q with
    | Some i =>
      try! (kv, es) := dlift (swap_remove i es) catch _ => dret n in
      let$ _ := xdestroy (XKey (fst kv)) in
      let n := with_ch n (CLeaf es) in
      try! t := ask catch _ => (let$ _ := xdestroy (XVal (snd kv)) in dret n) in
      let$ n := set_bounds n (w_union_of w_kv_bounds t es) in
      dret (inl (Some (snd kv), n, []))
    | None => dret (inl (None, n, []))
    end
  end.
End WRemove.

(** [NodeContainer::branch] (node.rs 806-842); see [xbranch] in CrashModel.v. *)
Definition wbranch (root sibling : xcontainer) : X xcontainer xcontainer :=
  if negb (fst sibling =? fst root) then let$ _ := xdrop_container sibling in dret (inr root)
  else
    let$ _ := use_bnd (x_bid (snd root)) in
    let$ _ := use_bnd (x_bid (snd sibling)) in
    try! t := ask catch _ => (let$ _ := xdrop_container sibling in dret root) in
    let bounds := w_union (O t 0) (x_bounds (snd root)) (x_bounds (snd sibling)) in
    let$ id := new_buf in
    try! v := xtry_push cap [] (snd root)
      catch copy => (let$ _ := drop_bare copy in let$ _ := drop_vec drop_bare id [] in
                     let$ _ := xdrop_container sibling in dret root) in
    try! v := xtry_push cap v (snd sibling)
      catch copy => (let$ _ := drop_bare copy in let$ _ := drop_vec drop_bare id v in dret root) in
    let$ bid := new_bnd in
    dret (inl (fst root + 1, XNode bounds bid id (CInner v))).

(** [NodeContainer::insert_entry] (node.rs 717-726). *)
Definition winsert_entry (root : xcontainer) (e : xentry) : X xcontainer xcontainer :=
  try! (n, sibling) := wnode_insert (fst root) (snd root) e catch n => dret (fst root, n) in
  match sibling with
  | Some s => wbranch (fst root, n) s
  | None => dret (inl (fst root, n))
  end.

(** [NodeContainer::insert_unique] (node.rs 738-755). *)
Definition wcontainer_insert_unique (root : xcontainer) (k : K) (v : V) : X (option V * xcontainer) xcontainer :=
  try! (prev, n, sibling) := wnode_insert_unique (fst root) (snd root) k v catch n => dret (fst root, n) in
  match sibling with
  | Some s =>
    try! root := wbranch (fst root, n) s catch root => (let$ _ := drop_opt prev in dret root) in
    dret (inl (prev, root))
  | None => dret (inl (prev, (fst root, n)))
  end.

(** The loops over the entries of an underfull node (node.rs 784-793); see [xinsert_entries] in CrashModel.v. *)
Fixpoint winsert_entries (root : xcontainer) (es : list xentry) : X xcontainer xcontainer :=
  match es with
  | [] => dret (inl root)
  | e :: r =>
    try! root := winsert_entry root e catch root => (let$ _ := dseq xdrop_entry r in dret root) in
    winsert_entries root r
  end.

(** The re-insertion loop (node.rs 775-796). *)
Fixpoint wreinsert (root : xcontainer) (level : nat) (arr : list (@xslot B K V)) : X xcontainer xcontainer :=
  match arr with
  | [] => dret (inl root)
  | None :: r => wreinsert root (S level) r
  | Some ch :: r =>
    let$ cc := xwrap_children ch level in
    let$ _ := xuse (XBuf (xcc_id cc)) in
    try! root := winsert_entries root (xcc_entries cc)
      catch root => (let$ _ := xdestroy (XBuf (xcc_id cc)) in dret root) in
    let$ _ := xdestroy (XBuf (xcc_id cc)) in
    wreinsert root (S level) r
  end.

(** [NodeContainer::remove] (node.rs 757-802). *)
Definition wcontainer_remove {Q} (OQ : nat -> nat -> qanswers B K Q) (root : xcontainer) (q : Q)
  : X (option V * xcontainer) xcontainer :=
  try! (value, n, underfull) := wnode_remove OQ (fst root) (snd root) q catch n => dret (fst root, n) in
  try! arr := xstore_all (repeat None (fst root)) underfull
    catch _ => (let$ _ := drop_opt value in dret (fst root, n)) in
  match value with
  | Some value =>
    let$ root := xtry_unbranch bdrop (fst root, n) in
    try! root := wreinsert root 0 arr catch root => (let$ _ := xdestroy (XVal value) in dret root) in
    dret (inl (Some value, root))
  | None => dret (inl (None, (fst root, n)))
  end.

(** [<(Key, Value) as Clone>::clone]: whatever key and value the user's [clone] makes; if the value's [clone] panics the
    cloned key is destroyed. *)
Definition wclone_kv (kv : K * V) : X (K * V) unit :=
  try! t := ask catch _ => dret tt in
  let k := w_clone_k (O t 0) (fst kv) in
  let$ _ := (fun s => Some (tt, make (XKey k) s)) in
  try! t := ask catch _ => xdestroy (XKey k) in
  let v := w_clone_v (O t 0) (snd kv) in
  let$ _ := (fun s => Some (tt, make (XVal v) s)) in
  dret (inl (k, v)).

(** [fc_vec::Alloc::clone] (fc_vec.rs 168-180). *)
Fixpoint wclone_vec (id : nat) (vec new : list (K * V)) : X (list (K * V)) unit :=
  match vec with
  | [] => dret (inl new)
  | x :: r =>
    try! x := wclone_kv x catch _ => drop_vec drop_kv id new in
    try! new' := xtry_push cap new x catch x => (let$ _ := drop_kv x in drop_vec drop_kv id new) in
    wclone_vec id r new'
  end.

(** [Alloc::clone_node], [Alloc::clone_children] (node.rs 292-337). *)
Fixpoint wclone_node (level : nat) (n : xnode) {struct level} : X xnode unit :=
  try! t := ask catch _ => dret tt in
  let b := w_clone_b (O t 0) (x_bounds n) in
  match level with
  | S l =>
    let$ cs := xread_inner n in
    let$ id := new_buf in
    try! cs :=
      (fix loop (cs new : list xnode) : X (list xnode) unit :=
         match cs with
         | [] => dret (inl new)
         | c :: r =>
           try! c := wclone_node l c catch _ => drop_vec drop_bare id new in
           try! new' := xtry_push cap new c catch c => (let$ _ := drop_bare c in drop_vec drop_bare id new) in
           loop r new'
         end) cs [] catch _ => dret tt in
    let$ bid := new_bnd in
    dret (inl (XNode b bid id (CInner cs)))
  | 0 =>
    let$ es := xread_leaf n in
    if cap <? length es then dret (inr tt)
    else
      let$ id := new_buf in
      try! es := wclone_vec id es [] catch _ => dret tt in
      let$ bid := new_bnd in
      dret (inl (XNode b bid id (CLeaf es)))
  end.

(** [<NodeContainer as Clone>::clone] (node.rs 950-952). *)
Definition wtree_clone (t : xcontainer) : X xcontainer unit :=
  try! n := wclone_node (fst t) (snd t) catch _ => dret tt in dret (inl (fst t, n)).

(** [Alloc::new_leaf] (node.rs 188-205). *)
Definition wnew_leaf : X xcontainer unit :=
  try! t := ask catch _ => dret tt in
  let$ id := new_buf in
  let$ bid := new_bnd in
  dret (inl (0, XNode (w_empty (O t 0)) bid id (CLeaf []))).
End WTree.

(** ** A program using any number of trees, catching every panic *)
Section WForest.
Context {B K V N : Type}.
Variable (crash : nat -> bool) (bdrop : bool) (O : nat -> nat -> answers B K V N) (U : numops N).
Notation xforest := (xforest B K V).

(** A call of the API (see [mop] in MemModel.v); calls with a borrowed key come with its user code. *)
Inductive wop : Type :=
| WNew (cfg : config)                                   (* [RTree::new] (lib.rs 104-112) *)
| WInsert (i : nat) (k : K) (v : V)                     (* [RTree::insert] (lib.rs 368-375) *)
| WInsertUnique (i : nat) (k : K) (v : V)               (* [RTree::insert_unique] (lib.rs 381-388) *)
| WRemove (i : nat) (Q : Type) (OQ : nat -> nat -> qanswers B K Q) (q : Q)   (* [RTree::remove] (lib.rs 397-407) *)
| WReplace (i : nat) (Q : Type) (OQ : nat -> nat -> qanswers B K Q) (q : Q) (v : V)
                                                        (* [get_mut] (lib.rs 317-324), then [mem::replace] *)
| WClone (i : nat)                                      (* [RTree::clone] *)
| WDrop (i : nat).                                      (* the tree goes out of scope *)

(** What the caller hands over. *)
Definition wgiven (o : wop) : list (xthing K V) :=
  match o with
  | WInsert _ k v | WInsertUnique _ k v => [XKey k; XVal v]
  | WReplace _ _ _ _ v => [XVal v]
  | _ => []
  end.

(** One call: what the caller gets back and the trees afterwards, or the trees after unwinding. *)
Definition wstep (F : xforest) (o : wop) : X K V (list (xthing K V) * xforest) xforest :=
  match o with
  | WNew cfg =>
    try! t := wnew_leaf crash bdrop O catch _ => dret F in dret (inl ([], F ++ [Some (cfg, t)]))
  | WInsert i k v =>
    match xtree_at F i with
    | Some (cfg, t) =>
      try! t := winsert_entry crash bdrop O U cfg t (XELeaf (k, v)) catch t => dret (set_nth i (Some (cfg, t)) F) in
      dret (inl ([], set_nth i (Some (cfg, t)) F))
    | None => dret (inl ([XKey k; XVal v], F))
    end
  | WInsertUnique i k v =>
    match xtree_at F i with
    | Some (cfg, t) =>
      try! (old, t) := wcontainer_insert_unique crash bdrop O U cfg t k v catch t => dret (set_nth i (Some (cfg, t)) F) in
      dret (inl (xthe old, set_nth i (Some (cfg, t)) F))
    | None => dret (inl ([XKey k; XVal v], F))
    end
  | WRemove i Q OQ q =>
    match xtree_at F i with
    | Some (cfg, t) =>
      try! (old, t) := wcontainer_remove crash bdrop O U cfg OQ t q catch t => dret (set_nth i (Some (cfg, t)) F) in
      dret (inl (xthe old, set_nth i (Some (cfg, t)) F))
    | None => dret (inl ([], F))
    end
  | WReplace i Q OQ q v =>
    match xtree_at F i with
    | Some (cfg, t) =>
      try! found := wnode_get_mut crash bdrop O OQ (fst t) (snd t) q catch _ => (let$ _ := xdestroy (XVal v) in dret F) in
      match found with
      | Some (old, put) => dret (inl ([XVal old], set_nth i (Some (cfg, (fst t, put v))) F))
      | None => dret (inl ([XVal v], F))
      end
    | None => dret (inl ([XVal v], F))
    end
  | WClone i =>
    match xtree_at F i with
    | Some (cfg, t) =>
      try! t := wtree_clone crash bdrop O cfg t catch _ => dret F in dret (inl ([], F ++ [Some (cfg, t)]))
    | None => dret (inl ([], F))
    end
  | WDrop i =>
    match xtree_at F i with
    | Some (cfg, t) => let$ _ := xdrop_container bdrop t in dret (inl ([], set_nth i None F))
    | None => dret (inl ([], F))
    end
  end.

(** A whole program: for every call what the caller got back, or [None] if the call panicked. *)
Fixpoint wrun (F : xforest) (os : list wop) : D K V (list (option (list (xthing K V))) * xforest) :=
  match os with
  | [] => dret ([], F)
  | o :: os =>
    let$ r := wstep F o in
    match r with
    | inl (x, F) => let$ (xs, F) := wrun F os in dret (Some x :: xs, F)
    | inr F => let$ (xs, F) := wrun F os in dret (None :: xs, F)
    end
  end.
End WForest.
Arguments wop : clear implicits.
