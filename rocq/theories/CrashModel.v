(** Unwinding: the tree operations of Model.v once more, with heap buffers, stored bounds and destructors made explicit as
    in MemModel.v, and with panics that unwind.  Any call of user code (the operations of [B], [Key], [Q] and the [clone]s)
    may panic; so may the library's own [panic!], [unwrap] and index checks.  A panic runs the destructors of the locals in
    scope and leaves what was borrowed mutably in whatever state it is in; the program may catch it and go on.
    Not modelled: destructors that panic (but see DtorModel.v, and [xnode_remove] for the removed key), and the order in
    which locals are destroyed. *)
From Verif Require Export MemModel.

(** What can be owned: the buffer of a vector, the bounds value stored in a node (both numbered), a key, a value.  Bounds
    that are locals of safe code are not tracked: the compiler destroys them. *)
Inductive xthing (K V : Type) : Type :=
| XBuf (id : nat)
| XBnd (id : nat)
| XKey (k : K)
| XVal (v : V).
Arguments XBuf {K V} id. Arguments XBnd {K V} id. Arguments XKey {K V} k. Arguments XVal {K V} v.

(** The memory: the next number, everything allocated or cloned so far, everything deallocated or destroyed so far, and
    how many times user code was called. *)
Record xmem (K V : Type) :=
  { x_next : nat; x_made : list (xthing K V); x_gone : list (xthing K V); x_calls : nat }.
Arguments x_next {K V}. Arguments x_made {K V}. Arguments x_gone {K V}. Arguments x_calls {K V}.

(** [struct Node] (node.rs 80-83): bounds, the number of the bounds value, the buffer of the vector. *)
Inductive xnode (B K V : Type) : Type :=
| XNode (bounds : B) (bid id : nat) (ch : children (xnode B K V) (K * V)).
Arguments XNode {B K V} bounds bid id ch.

(** A computation that cannot panic; [None] is undefined behaviour. *)
Definition D (K V A : Type) : Type := xmem K V -> option (A * xmem K V).
(** A computation that returns an [A], or unwinds and leaves [E]. *)
Definition X (K V A E : Type) : Type := D K V (A + E).

Section XMonad.
Context {K V : Type}.
Notation D := (D K V).
Notation X := (X K V).
Notation xmem := (xmem K V).
Notation xthing := (xthing K V).

(** Return; of the model only, no code line. *)
Definition dret {A} (a : A) : D A := fun s => Some (a, s).
(** Sequencing; of the model only, no code line. *)
Definition dbind {A C} (m : D A) (k : A -> D C) : D C :=
  fun s => match m s with Some (a, s) => k a s | None => None end.
(** Undefined behaviour; of the model only, no code line. *)
Definition undefined {A} : D A := fun _ => None.

(** [m], then [k]; if [m] unwinds, [h] runs the destructors of the locals in scope and the unwinding goes on. *)
Definition xbind {A E C E'} (m : X A E) (k : A -> X C E') (h : E -> D E') : X C E' :=
  dbind m (fun o => match o with inl a => k a | inr e => dbind (h e) (fun e => dret (inr e)) end).

(** A pure step that may panic (see Model.v). *)
Definition dlift {A} (r : res A) : X A unit :=
  match r with Ok a => dret (inl a) | Panic => dret (inr tt) | UB | OutOfFuel => undefined end.

(** A loop over a list; of the model only, no code line. *)
Fixpoint dseq {A} (f : A -> D unit) (l : list A) : D unit :=
  match l with [] => dret tt | x :: r => dbind (f x) (fun _ => dseq f r) end.

(** The same numbered object; of the model only, no code line. *)
Definition same_obj (x y : xthing) : bool :=
  match x, y with
  | XBuf i, XBuf j => i =? j
  | XBnd i, XBnd j => i =? j
  | _, _ => false
  end.

(** Made and not gone. *)
Definition xlive (s : xmem) (x : xthing) : bool :=
  existsb (same_obj x) (x_made s) && negb (existsb (same_obj x) (x_gone s)).

(** Something comes into being (e.g. [alloc::alloc], fc_vec.rs 129-139). *)
Definition make (x : xthing) (s : xmem) : xmem :=
  {| x_next := S (x_next s); x_made := x :: x_made s; x_gone := x_gone s; x_calls := x_calls s |}.
(** Something ceases to exist (a destructor, or [alloc::dealloc], fc_vec.rs 332-338). *)
Definition lose (x : xthing) (s : xmem) : xmem :=
  {| x_next := x_next s; x_made := x_made s; x_gone := x :: x_gone s; x_calls := x_calls s |}.

(** [crash n]: the [n]th call of user code panics.  [bdrop]: the bounds type has a destructor ([mem::needs_drop]). *)
Variable (crash : nat -> bool) (bdrop : bool).

(** A call of user code, or several in a row with no change of the data structure between them: wherever among them the
    panic happens, its effect is the same. *)
Definition user : X unit unit := fun s =>
  Some (if crash (x_calls s) then inr tt else inl tt,
        {| x_next := x_next s; x_made := x_made s; x_gone := x_gone s; x_calls := S (x_calls s) |}).

(** [Alloc::new_vec] (fc_vec.rs 127-143). *)
Definition new_buf : D nat := fun s => Some (x_next s, make (XBuf (x_next s)) s).

(** A bounds value is stored in a new node, or over a destroyed one. *)
Definition new_bnd : D nat := fun s =>
  Some (x_next s, if bdrop then make (XBnd (x_next s)) s else s).

(** Access to the elements of a vector, or to the bounds of a node. *)
Definition xuse (x : xthing) : D unit := fun s => if xlive s x then Some (tt, s) else None.
(** Reading the bounds stored in a node (node.rs 165-172); meaningless if they have no destructor. *)
Definition use_bnd (bid : nat) : D unit := if bdrop then xuse (XBnd bid) else dret tt.

(** A destructor runs or a buffer is deallocated ([alloc::dealloc], fc_vec.rs 332-338, 534-541): undefined if it is not
    allocated, or was destroyed before. *)
Definition xdestroy (x : xthing) : D unit := fun s =>
  match x with
  | XBuf _ | XBnd _ => if xlive s x then Some (tt, lose x s) else None
  | _ => Some (tt, lose x s)
  end.

(** A bounds value without a destructor is just forgotten. *)
Definition drop_bnd (bid : nat) : D unit := if bdrop then xdestroy (XBnd bid) else dret tt.

(** The compiler's destructor of a [(Key, Value)] (no code line). *)
Definition drop_kv (kv : K * V) : D unit :=
  dbind (xdestroy (XKey (fst kv))) (fun _ => xdestroy (XVal (snd kv))).
(** The compiler's destructor of an [Option<Value>] (no code line). *)
Definition drop_opt (v : option V) : D unit :=
  match v with Some v => xdestroy (XVal v) | None => dret tt end.

(** [FCVecRefMut::try_push] and [push] (fc_vec.rs 206-230): a full vector hands the value back ([push] panics, and the
    value is destroyed with the frame).  A vector longer than its capacity would be written beyond its buffer. *)
Definition xtry_push {T} (cap : nat) (l : list T) (x : T) : X (list T) T := fun s =>
  if length l =? cap then Some (inr x, s)
  else if cap <? length l then None
  else Some (inl (l ++ [x]), s).

(** [<FCVecContainer as Drop>::drop] (fc_vec.rs 411-417) with [FCVecRefMut::drop] (332-338): the elements are popped and
    destroyed, the buffer deallocated. *)
Definition drop_vec {T} (drop_elem : T -> D unit) (id : nat) (l : list T) : D unit :=
  dbind (dseq drop_elem (rev l)) (fun _ => xdestroy (XBuf id)).
End XMonad.

Notation "'let$' p ':=' m 'in' k" := (dbind m (fun p => k))
  (at level 200, p pattern, m at level 100, k at level 200, right associativity).
Notation "'try!' p ':=' m 'catch' e '=>' h 'in' k" := (xbind m (fun p => k) (fun e => h))
  (at level 200, p pattern, m at level 100, e pattern, h at level 100, k at level 200, right associativity).

Section XTree.
Context {B K V : Type}.
Notation xnode := (xnode B K V).
Notation D := (D K V).
Notation X := (X K V).

(** [Node::bounds] (node.rs 80-83, 165-172). *)
Definition x_bounds (n : xnode) : B := match n with XNode b _ _ _ => b end.
(** The number of the bounds stored in a node (node.rs 88-92). *)
Definition x_bid (n : xnode) : nat := match n with XNode _ i _ _ => i end.
(** The number of a node's vector (node.rs 45-48, 80-83). *)
Definition x_id (n : xnode) : nat := match n with XNode _ _ i _ => i end.
(** [Node::children] (node.rs 45-48, 88-92). *)
Definition x_children (n : xnode) : children xnode (K * V) := match n with XNode _ _ _ c => c end.
(** The vector changed in place. *)
Definition with_ch (n : xnode) (ch : children xnode (K * V)) : xnode :=
  match n with XNode b bid id _ => XNode b bid id ch end.

(** [struct NodeContainer] (node.rs 706-710), [enum NodeEntry] (18-21) and its [target_level] (24-29). *)
Definition xcontainer : Type := (nat * xnode)%type.
(** [enum NodeEntry] (node.rs 18-21). *)
Inductive xentry :=
| XEInner (c : xcontainer)
| XELeaf (kv : K * V).
(** [NodeEntry::target_level] (node.rs 24-29). *)
Definition x_target_level (e : xentry) : nat :=
  match e with XEInner c => fst c + 1 | XELeaf _ => 0 end.

Variable (crash : nat -> bool) (bdrop : bool).
Notation user := (user crash).
Notation new_bnd := (new_bnd bdrop).
Notation drop_bnd := (drop_bnd bdrop).
Notation use_bnd := (use_bnd bdrop).

(** Reading a union field that was not written is undefined, as is using a buffer that is not allocated.  For an inner node
    the bounds of all children must be alive too (the code reads some or all of them). *)
Definition xread_inner (n : xnode) : D (list xnode) :=
  let$ _ := xuse (XBuf (x_id n)) in
  match x_children n with
  | CInner cs => let$ _ := dseq (fun c => use_bnd (x_bid c)) cs in dret cs
  | CLeaf _ => undefined
  end.
(** [children.leaf] of a node (node.rs 45-48): undefined for an inner node. *)
Definition xread_leaf (n : xnode) : D (list (K * V)) :=
  let$ _ := xuse (XBuf (x_id n)) in
  match x_children n with CLeaf es => dret es | CInner _ => undefined end.

(** [NodeRef::children] (node.rs 992-1006): which union field is read depends on the level. *)
Definition xchildren_at (level : nat) (n : xnode) : D (children xnode (K * V)) :=
  match level with
  | 0 => let$ es := xread_leaf n in dret (CLeaf es)
  | S _ => let$ cs := xread_inner n in dret (CInner cs)
  end.

(** Destroying a bare [Node]: its bounds only; the vector lies in a [ManuallyDrop] (node.rs 45-48, 80-83). *)
Definition drop_bare (n : xnode) : D unit := drop_bnd (x_bid n).

(** [NodeRefMut::drop] (node.rs 625-634), [InnerNodeChildrenRefMut::drop] (1295-1304): the vectors of the children, then
    the children themselves as bare nodes and the vector ([FCVecRefMut::drop], fc_vec.rs 332-338). *)
Fixpoint xdrop_node (level : nat) (n : xnode) {struct level} : D unit :=
  match level with
  | S l =>
    let$ cs := xread_inner n in
    let$ _ := dseq (xdrop_node l) cs in
    drop_vec drop_bare (x_id n) cs
  | 0 =>
    let$ es := xread_leaf n in
    drop_vec drop_kv (x_id n) es
  end.

(** [<NodeContainer as Drop>::drop] (node.rs 936-942), then its fields. *)
Definition xdrop_container (c : xcontainer) : D unit :=
  let$ _ := xdrop_node (fst c) (snd c) in drop_bare (snd c).
(** The compiler's destructor of a [NodeEntry] (node.rs 18-21): of the container (936-942), or of key and value. *)
Definition xdrop_entry (e : xentry) : D unit :=
  match e with XEInner c => xdrop_container c | XELeaf kv => drop_kv kv end.

(** [self.node.bounds = b]: the old value is destroyed. *)
Definition set_bounds (n : xnode) (b : B) : D xnode :=
  let$ _ := drop_bnd (x_bid n) in
  let$ bid := new_bnd in
  dret (XNode b bid (x_id n) (x_children n)).

Variable (P : Params B K).
Let BO := bops P.
Let kb := key_bounds P.

(** [<NodeEntry as Bounded>::bounds] (node.rs 32-42), as in Model.v. *)
Definition x_entry_bounds (e : xentry) : B :=
  match e with
  | XEInner c => x_bounds (snd c)
  | XELeaf (k, _) => kb k
  end.

Variable (cfg : config).
Let cap := max_children cfg.
Let minc := min_children cfg.

(** [QuadraticSplitter::split] (split.rs 97-143).  When it unwinds, [values] stays as it is at that moment and [group_2]
    is destroyed with the elements moved there. *)
Section XSplit.
Context {T : Type} (bnd : T -> B) (drop_elem : T -> D unit).

(** The loop of [QuadraticSplitter::split] (split.rs 119-140). *)
Fixpoint xsplit_loop (fuel : nat) (values : list T) (g1 : nat) (id2 : nat) (group2 : list T) (b1 b2 : B)
  : X (B * B * list T * list T) (list T) :=
  let abort values := let$ _ := drop_vec drop_elem id2 group2 in dret values in
  if g1 <? length values then
    match fuel with
    | 0 => undefined
    | S fuel =>
      let remaining := skipn g1 values in
      try! _ := user catch _ => abort values in                     (* volumes, unions, bounds *)
      try! (c1, v1) := dlift (unwrap (best_candidate_for_group P bnd remaining b1)) catch _ => abort values in
      try! (c2, v2) := dlift (unwrap (best_candidate_for_group P bnd remaining b2)) catch _ => abort values in
      let add_to_group_1 :=
        if n64_lt P v1 v2 then minc <? length group2 + length remaining
        else g1 + length remaining - 1 =? minc in
      if add_to_group_1 then
        try! x := dlift (unwrap (nth_error remaining c1)) catch _ => abort values in
        try! _ := user catch _ => abort values in                   (* bounds, union *)
        try! values' := dlift (slice_swap (g1 + c1) g1 values) catch _ => abort values in
        xsplit_loop fuel values' (g1 + 1) id2 group2 (b_union BO b1 (bnd x)) b2
      else
        try! x := dlift (unwrap (nth_error remaining c2)) catch _ => abort values in
        try! _ := user catch _ => abort values in
        try! (y, values') := dlift (swap_remove (g1 + c2) values) catch _ => abort values in
        try! group2' := xtry_push cap group2 y catch y => (let$ _ := drop_elem y in abort values') in
        xsplit_loop fuel values' g1 id2 group2' b1 (b_union BO b2 (bnd x))
    end
  else dret (inl (b1, b2, values, group2)).

(** The result also has the buffer of group 2. *)
Definition xsplit (values : list T) (ov : T) : X (B * B * list T * (nat * list T)) (list T) :=
  if length values <? 1 then let$ _ := drop_elem ov in dret (inr values)
  else
    let$ id2 := new_buf in
    let abort group2 values := let$ _ := drop_vec drop_elem id2 group2 in dret values in
    try! _ := user catch _ => (let$ _ := drop_elem ov in abort [] values) in        (* worst_combination *)
    try! (values', seed2) := dlift (seed_split_groups P bnd values ov)
      catch _ => (let$ _ := drop_elem ov in abort [] values) in
    try! group2 := xtry_push cap [] seed2 catch seed2 => (let$ _ := drop_elem seed2 in abort [] values') in
    try! v0 := dlift (unwrap (nth_error values' 0)) catch _ => abort group2 values' in
    try! w0 := dlift (unwrap (nth_error group2 0)) catch _ => abort group2 values' in
    try! _ := user catch _ => abort group2 values' in                                (* bounds of both seeds *)
    try! (b1, b2, g1, g2) := xsplit_loop (length values') values' 1 id2 group2 (bnd v0) (bnd w0)
      catch values => dret values in
    dret (inl (b1, b2, g1, (id2, g2))).
End XSplit.

(** [NodeRefMut::self_insert] (node.rs 351-409), [InnerNodeChildrenRefMut::try_push] (1343-1356) and [split] (1358-1393).
    The overflow node is passed to the splitter as a bare [Node] ([leak]). *)
Definition xself_insert (level : nat) (n : xnode) (e : xentry) : X (xnode * option xcontainer) xnode :=
  let eb := x_entry_bounds e in
  try! _ := user catch _ => (let$ _ := xdrop_entry e in dret n) in                   (* entry.bounds() *)
  let$ ch := xchildren_at level n in
  match ch, e with
  | CInner cs, XEInner (elevel, enode) =>
    if negb (level - 1 =? elevel) then let$ _ := xdrop_entry e in dret (inr n)
    else
      let$ r := xtry_push cap cs enode in
      match r with
      | inr overflow =>
        try! (b1, b2, g1, (id2, g2)) := xsplit x_bounds drop_bare cs overflow
          catch cs => dret (with_ch n (CInner cs)) in
        let$ n := set_bounds (with_ch n (CInner g1)) b1 in
        let$ bid2 := new_bnd in
        dret (inl (n, Some (level, XNode b2 bid2 id2 (CInner g2))))
      | inl cs =>
        let n := with_ch n (CInner cs) in
        try! _ := user catch _ => dret n in                                          (* union *)
        let$ n := set_bounds n (b_union BO (x_bounds n) eb) in
        dret (inl (n, None))
      end
  | CLeaf es, XELeaf kv =>
    let$ r := xtry_push cap es kv in
    match r with
    | inr overflow =>
      try! (b1, b2, g1, (id2, g2)) := xsplit (fun kv => kb (fst kv)) drop_kv es overflow
        catch es => dret (with_ch n (CLeaf es)) in
      let$ n := set_bounds (with_ch n (CLeaf g1)) b1 in
      let$ bid2 := new_bnd in
      dret (inl (n, Some (level, XNode b2 bid2 id2 (CLeaf g2))))
    | inl es =>
      let n := with_ch n (CLeaf es) in
      try! _ := user catch _ => dret n in
      let$ n := set_bounds n (b_union BO (x_bounds n) eb) in
      dret (inl (n, None))
    end
  | CInner _, XELeaf _ => let$ _ := xdrop_entry e in dret (inr n)
  | CLeaf _, XEInner _ => let$ _ := xdrop_entry e in dret (inr n)
  end.

(** [NodeRefMut::insert] (node.rs 411-438). *)
Fixpoint xnode_insert (level : nat) (n : xnode) (e : xentry) {struct level} : X (xnode * option xcontainer) xnode :=
  let eb := x_entry_bounds e in
  let abort := let$ _ := xdrop_entry e in dret n in
  try! _ := user catch _ => abort in                                                 (* entry.bounds() *)
  if negb (x_target_level e =? level) then
    match level with
    | 0 => let$ n := abort in dret (inr n)                                           (* unreachable!() *)
    | S l =>
      let$ cs := xread_inner n in
      try! _ := user catch _ => abort in                                             (* select *)
      try! i := dlift (unwrap (select P (map x_bounds cs) eb)) catch _ => abort in
      try! child := dlift (unwrap (nth_error cs i)) catch _ => abort in
      try! (child, new_child) := xnode_insert l child e
        catch child => dret (with_ch n (CInner (set_nth i child cs))) in
      let cs := set_nth i child cs in
      let n := with_ch n (CInner cs) in
      match new_child with
      | Some new_child =>
        try! _ := user catch _ => (let$ _ := xdrop_container new_child in dret n) in  (* bounds, union_all *)
        let$ n := set_bounds n (b_union_all BO (map x_bounds cs)) in
        xself_insert (S l) n (XEInner new_child)
      | None =>
        try! _ := user catch _ => dret n in                                          (* union *)
        let$ n := set_bounds n (b_union BO (x_bounds n) eb) in
        dret (inl (n, None))
      end
    end
  else xself_insert level n e.

(** [NodeRefMut::get_mut] and [into_get_mut] (node.rs 648-694), as a lens; unwinding changes nothing. *)
Section XGet.
Context {Q : Type} (BR : Borrowed B K Q).
(** [NodeRefMut::get_mut] on a node of a level (node.rs 648-694). *)
Fixpoint xnode_get_mut (level : nat) (n : xnode) (q : Q) {struct level} : X (option (V * (V -> xnode))) unit :=
  match level with
  | S l =>
    let$ cs := xread_inner n in
    try! found :=
      (fix loop (cs : list xnode) : X (option (V * (V -> list xnode))) unit :=
         match cs with
         | [] => dret (inl None)
         | c :: r =>
           try! _ := user catch _ => dret tt in                                      (* bounds, contains *)
           try! here :=
             if b_contains BO (x_bounds c) (q_bounds BR q) then xnode_get_mut l c q else dret (inl None)
             catch _ => dret tt in
           match here with
           | Some (v, put) => dret (inl (Some (v, fun v' => put v' :: r)))
           | None =>
             try! there := loop r catch _ => dret tt in
             dret (inl (option_map (fun p => (fst p, fun v' => c :: snd p v')) there))
           end
         end) cs catch _ => dret tt in
    dret (inl (option_map (fun p => (fst p, fun v' => with_ch n (CInner (snd p v')))) found))
  | 0 =>
    let$ es := xread_leaf n in
    try! _ := user catch _ => dret tt in                                             (* borrow, == *)
    dret (inl (option_map (fun p => (fst p, fun v' => with_ch n (CLeaf (snd p v')))) (entries_get_mut BR es q)))
  end.
End XGet.

(** [NodeRefMut::insert_unique] (node.rs 440-513). *)
Fixpoint xnode_insert_unique (level : nat) (n : xnode) (k : K) (v : V) {struct level}
  : X (option V * xnode * option xcontainer) xnode :=
  let eb := kb k in
  let abort := let$ _ := drop_kv (k, v) in dret n in
  let plain_insert :=
    try! (n, sibling) := xnode_insert level n (XELeaf (k, v)) catch n => dret n in
    dret (inl (None, n, sibling)) in
  try! _ := user catch _ => abort in                                                 (* key.bounds() *)
  match level with
  | S l =>
    let$ cs := xread_inner n in
    try! _ := user catch _ => abort in                                               (* the filter *)
    match filter (fun ic => b_contains BO (x_bounds (snd ic)) (kb k)) (enumerate cs) with
    | [] => plain_insert
    | [(i, child)] =>
      try! (old_value, child, new_child) := xnode_insert_unique l child k v
        catch child => dret (with_ch n (CInner (set_nth i child cs))) in
      let cs := set_nth i child cs in
      let n := with_ch n (CInner cs) in
      match new_child with
      | Some new_child =>
        try! _ := user catch _ => (let$ _ := xdrop_container new_child in let$ _ := drop_opt old_value in dret n) in
        let$ n := set_bounds n (b_union_all BO (map x_bounds cs)) in
        try! (n, sibling) := xself_insert (S l) n (XEInner new_child)
          catch n => (let$ _ := drop_opt old_value in dret n) in
        dret (inl (old_value, n, sibling))
      | None =>
        try! _ := user catch _ => (let$ _ := drop_opt old_value in dret n) in
        let$ n := set_bounds n (b_union BO (x_bounds n) eb) in
        dret (inl (old_value, n, None))
      end
    | _ =>
      try! found := xnode_get_mut (self_borrow P) level n k catch _ => abort in
      match found with
      | Some (old, put) => let$ _ := xdestroy (XKey k) in dret (inl (Some old, put v, None))
      | None => plain_insert
      end
    end
  | 0 =>
    let$ es := xread_leaf n in
    try! _ := user catch _ => abort in                                               (* == *)
    match entries_get_mut (self_borrow P) es k with
    | Some (old, put) => let$ _ := xdestroy (XKey k) in dret (inl (Some old, with_ch n (CLeaf (put v)), None))
    | None => plain_insert
    end
  end.

(** [enum NodeChildrenContainer] (node.rs 1535-1538). *)
Inductive xcc :=
| XCCInner (level : nat) (id : nat) (cs : list xnode)
| XCCLeaf (id : nat) (es : list (K * V)).

(** [NodeContainer::children] (node.rs 878-906): the vector is moved out, the bounds are destroyed. *)
Definition xcontainer_children (c : xcontainer) : D xcc :=
  let$ cc :=
    match fst c, x_children (snd c) with
    | S l, CInner cs => dret (XCCInner (S l) (x_id (snd c)) cs)
    | 0, CLeaf es => dret (XCCLeaf (x_id (snd c)) es)
    | _, _ => undefined
    end in
  let$ _ := drop_bare (snd c) in
  dret cc.

(** The level of a moved vector (node.rs 1433-1437, 1535-1538). *)
Definition xcc_level (c : xcc) : nat := match c with XCCInner l _ _ => l | XCCLeaf _ _ => 0 end.
(** The number of the moved vector (of the model only). *)
Definition xcc_id (cc : xcc) : nat := match cc with XCCInner _ id _ => id | XCCLeaf id _ => id end.
(** [NodeChildrenContainer::leak] (node.rs 1570-1579). *)
Definition xcc_leak (c : xcc) : nat * children xnode (K * V) :=
  match c with XCCInner _ id cs => (id, CInner cs) | XCCLeaf id es => (id, CLeaf es) end.
(** [Alloc::wrap_children] (node.rs 276-290). *)
Definition xwrap_children (c : nat * children xnode (K * V)) (level : nat) : D xcc :=
  match level, snd c with
  | S l, CInner cs => dret (XCCInner (S l) (fst c) cs)
  | 0, CLeaf es => dret (XCCLeaf (fst c) es)
  | _, _ => undefined
  end.

(** [NodeRefMut::shallow_len] (node.rs 636-646). *)
Definition xshallow_len (level : nat) (n : xnode) : D nat :=
  match level, x_children n with
  | S _, CInner cs => dret (length cs)
  | 0, CLeaf es => dret (length es)
  | _, _ => undefined
  end.

Section XRemove.
Context {Q : Type} (BR : Borrowed B K Q).

(** [NodeRefMut::remove] (node.rs 515-559).  The children handed to [on_underfull] are returned (see [xstore_all]); when the
    call unwinds they are forgotten: the array of [NodeContainer::remove] does not destroy them ([ManuallyDrop]). *)
Fixpoint xnode_remove (level : nat) (n : xnode) (q : Q) {struct level} : X (option V * xnode * list xcc) xnode :=
  match level with
  | S l =>
    let$ cs := xread_inner n in
    (fix loop (i : nat) (cs : list xnode) : X (option V * xnode * list xcc) xnode :=
       match i with
       | 0 => dret (inl (None, with_ch n (CInner cs), []))
       | S i =>
         try! child := dlift (unwrap (nth_error cs i)) catch _ => dret (with_ch n (CInner cs)) in
         try! _ := user catch _ => dret (with_ch n (CInner cs)) in                    (* bounds, intersects *)
         if b_intersects BO (x_bounds child) (q_bounds BR q) then
           try! (value, child, underfull) := xnode_remove l child q
             catch child => dret (with_ch n (CInner (set_nth i child cs))) in
           let cs := set_nth i child cs in
           match value with
           | Some value =>
             let$ len := xshallow_len l child in
             try! (cs, underfull) :=
               (if len <? minc then
                  try! (child, cs) := dlift (swap_remove i cs)
                    catch _ => (let$ _ := xdestroy (XVal value) in dret (with_ch n (CInner cs))) in
                  let$ cc := xcontainer_children (l, child) in
                  dret (inl (cs, underfull ++ [cc]))
                else dret (inl (cs, underfull))) catch n => dret n in
             let n := with_ch n (CInner cs) in
             try! _ := user catch _ => (let$ _ := xdestroy (XVal value) in dret n) in  (* bounds, union_all *)
             let$ n := set_bounds n (b_union_all BO (map x_bounds cs)) in
             dret (inl (Some value, n, underfull))
           | None => loop i cs
           end
         else loop i cs
       end) (length cs) cs
  | 0 =>
    let$ es := xread_leaf n in
    try! _ := user catch _ => dret n in                                              (* borrow, == *)
    match position (fun kv => q_eq BR (borrow BR (fst kv)) q) es with
    | Some i =>
      try! (kv, es) := dlift (swap_remove i es) catch _ => dret n in
      let$ _ := xdestroy (XKey (fst kv)) in
      let n := with_ch n (CLeaf es) in
      try! _ := user catch _ => (let$ _ := xdestroy (XVal (snd kv)) in dret n) in      (* the key's destructor, bounds, union_all *)
      let$ n := set_bounds n (b_union_all BO (map (fun kv => kb (fst kv)) es)) in
      dret (inl (Some (snd kv), n, []))
    | None => dret (inl (None, n, []))
    end
  end.
End XRemove.

(** [NodeContainer::branch] (node.rs 806-842).  [ptr::read(&self.node)] makes a second copy of the root; if one of the
    pushes panics, that copy is destroyed as a bare node with [next_root_children] while [self.node] is still there. *)
Definition xbranch (root sibling : xcontainer) : X xcontainer xcontainer :=
  if negb (fst sibling =? fst root) then let$ _ := xdrop_container sibling in dret (inr root)
  else
    let$ _ := use_bnd (x_bid (snd root)) in
    let$ _ := use_bnd (x_bid (snd sibling)) in
    try! _ := user catch _ => (let$ _ := xdrop_container sibling in dret root) in     (* union *)
    let bounds := b_union BO (x_bounds (snd root)) (x_bounds (snd sibling)) in
    let$ id := new_buf in
    try! v := xtry_push cap [] (snd root)
      catch copy => (let$ _ := drop_bare copy in let$ _ := drop_vec drop_bare id [] in
                     let$ _ := xdrop_container sibling in dret root) in
    try! v := xtry_push cap v (snd sibling)
      catch copy => (let$ _ := drop_bare copy in let$ _ := drop_vec drop_bare id v in dret root) in
    let$ bid := new_bnd in
    dret (inl (fst root + 1, XNode bounds bid id (CInner v))).

(** [NodeContainer::insert_entry] (node.rs 717-726). *)
Definition xinsert_entry (root : xcontainer) (e : xentry) : X xcontainer xcontainer :=
  try! (n, sibling) := xnode_insert (fst root) (snd root) e catch n => dret (fst root, n) in
  match sibling with
  | Some s => xbranch (fst root, n) s
  | None => dret (inl (fst root, n))
  end.

(** [NodeContainer::insert_unique] (node.rs 738-755). *)
Definition xcontainer_insert_unique (root : xcontainer) (k : K) (v : V) : X (option V * xcontainer) xcontainer :=
  try! (prev, n, sibling) := xnode_insert_unique (fst root) (snd root) k v catch n => dret (fst root, n) in
  match sibling with
  | Some s =>
    try! root := xbranch (fst root, n) s catch root => (let$ _ := drop_opt prev in dret root) in
    dret (inl (prev, root))
  | None => dret (inl (prev, (fst root, n)))
  end.

(** [NodeContainer::try_unbranch] (node.rs 844-861): no user code; [*self = new_root] destroys the old container. *)
Definition xtry_unbranch (root : xcontainer) : D xcontainer :=
  match fst root with
  | S l =>
    let$ cs := xread_inner (snd root) in
    match cs with
    | [new_root] =>
      let$ _ := xdrop_container (S l, with_ch (snd root) (CInner [])) in
      dret (l, new_root)
    | _ => dret root
    end
  | 0 => let$ _ := xread_leaf (snd root) in dret root
  end.

(** The array of [NodeContainer::remove] (node.rs 767-772). *)
Definition xslot : Type := option (nat * children xnode (K * V)).
(** [on_underfull] for each moved vector in turn (node.rs 769-772). *)
Fixpoint xstore_all (arr : list xslot) (ccs : list xcc) : X (list xslot) unit :=
  match ccs with
  | [] => dret (inl arr)
  | cc :: r =>
    if xcc_level cc <? length arr then xstore_all (set_nth (xcc_level cc) (Some (xcc_leak cc)) arr) r
    else dret (inr tt)
  end.

(** [fc_vec::IntoIter] over a moved vector as entries to insert (node.rs 1512-1522; fc_vec.rs 435-453). *)
Definition xcc_entries (cc : xcc) : list xentry :=
  match cc with
  | XCCInner level _ cs => map (fun c => XEInner (level - 1, c)) cs
  | XCCLeaf _ es => map XELeaf es
  end.

(** The loops over the entries of an underfull node (node.rs 784-793): when one insertion unwinds, the iterator destroys the
    remaining entries ([InnerNodeChildrenIntoIter::drop], node.rs 1529-1533; [fc_vec::IntoIter::drop], fc_vec.rs 534-541). *)
Fixpoint xinsert_entries (root : xcontainer) (es : list xentry) : X xcontainer xcontainer :=
  match es with
  | [] => dret (inl root)
  | e :: r =>
    try! root := xinsert_entry root e catch root => (let$ _ := dseq xdrop_entry r in dret root) in
    xinsert_entries root r
  end.

(** The re-insertion loop (node.rs 775-796). *)
Fixpoint xreinsert (root : xcontainer) (level : nat) (arr : list xslot) : X xcontainer xcontainer :=
  match arr with
  | [] => dret (inl root)
  | None :: r => xreinsert root (S level) r
  | Some ch :: r =>
    let$ cc := xwrap_children ch level in
    let$ _ := xuse (XBuf (xcc_id cc)) in
    try! root := xinsert_entries root (xcc_entries cc)
      catch root => (let$ _ := xdestroy (XBuf (xcc_id cc)) in dret root) in
    let$ _ := xdestroy (XBuf (xcc_id cc)) in
    xreinsert root (S level) r
  end.

(** [NodeContainer::remove] (node.rs 757-802). *)
Definition xcontainer_remove {Q} (BR : Borrowed B K Q) (root : xcontainer) (q : Q)
  : X (option V * xcontainer) xcontainer :=
  try! (value, n, underfull) := xnode_remove BR (fst root) (snd root) q catch n => dret (fst root, n) in
  try! arr := xstore_all (repeat None (fst root)) underfull
    catch _ => (let$ _ := drop_opt value in dret (fst root, n)) in
  match value with
  | Some value =>
    let$ root := xtry_unbranch (fst root, n) in
    try! root := xreinsert root 0 arr catch root => (let$ _ := xdestroy (XVal value) in dret root) in
    dret (inl (Some value, root))
  | None => dret (inl (None, (fst root, n)))
  end.

(** [<(Key, Value) as Clone>::clone]: if the value's [clone] panics the cloned key is destroyed. *)
Definition xclone_kv (kv : K * V) : X (K * V) unit :=
  try! _ := user catch _ => dret tt in
  let$ _ := (fun s => Some (tt, make (XKey (fst kv)) s)) in
  try! _ := user catch _ => xdestroy (XKey (fst kv)) in
  let$ _ := (fun s => Some (tt, make (XVal (snd kv)) s)) in
  dret (inl kv).

(** [fc_vec::Alloc::clone] (fc_vec.rs 168-180): [new] is destroyed when a [clone] panics. *)
Fixpoint xclone_vec (id : nat) (vec new : list (K * V)) : X (list (K * V)) unit :=
  match vec with
  | [] => dret (inl new)
  | x :: r =>
    try! x := xclone_kv x catch _ => drop_vec drop_kv id new in
    try! new' := xtry_push cap new x catch x => (let$ _ := drop_kv x in drop_vec drop_kv id new) in
    xclone_vec id r new'
  end.

(** [Alloc::clone_node], [Alloc::clone_children] (node.rs 292-337).  [clone_children] is a vector of bare nodes. *)
Fixpoint xclone_node (level : nat) (n : xnode) {struct level} : X xnode unit :=
  try! _ := user catch _ => dret tt in                                               (* bounds.clone() *)
  match level with
  | S l =>
    let$ cs := xread_inner n in
    let$ id := new_buf in
    try! cs :=
      (fix loop (cs new : list xnode) : X (list xnode) unit :=
         match cs with
         | [] => dret (inl new)
         | c :: r =>
           try! c := xclone_node l c catch _ => drop_vec drop_bare id new in
           try! new' := xtry_push cap new c catch c => (let$ _ := drop_bare c in drop_vec drop_bare id new) in
           loop r new'
         end) cs [] catch _ => dret tt in
    let$ bid := new_bnd in
    dret (inl (XNode (x_bounds n) bid id (CInner cs)))
  | 0 =>
    let$ es := xread_leaf n in
    if cap <? length es then dret (inr tt)
    else
      let$ id := new_buf in
      try! es := xclone_vec id es [] catch _ => dret tt in
      let$ bid := new_bnd in
      dret (inl (XNode (x_bounds n) bid id (CLeaf es)))
  end.

(** [<NodeContainer as Clone>::clone] (node.rs 950-952). *)
Definition xtree_clone (t : xcontainer) : X xcontainer unit :=
  try! n := xclone_node (fst t) (snd t) catch _ => dret tt in dret (inl (fst t, n)).

(** [Alloc::new_leaf] (node.rs 188-205). *)
Definition xnew_leaf : X xcontainer unit :=
  try! _ := user catch _ => dret tt in                                               (* Bounds::empty() *)
  let$ id := new_buf in
  let$ bid := new_bnd in
  dret (inl (0, XNode (b_empty BO) bid id (CLeaf []))).
End XTree.
Arguments xcontainer : clear implicits.
Arguments xentry : clear implicits.
Arguments xcc : clear implicits.

(** ** A program using any number of trees, catching every panic ([std::panic::catch_unwind]) *)
Section XForest.
Context {B K V : Type}.
Variable (crash : nat -> bool) (bdrop : bool) (P : Params B K).

(** The trees a program has created (lib.rs 88-91), each possibly dropped. *)
Definition xforest : Type := list (option (config * xcontainer B K V)).

(** Of the model only; no code line. *)
Definition xthing_of (x : thing K V) : xthing K V :=
  match x with TBuf i => XBuf i | TKey k => XKey k | TVal v => XVal v end.
(** What the caller hands over in a call (see [given] in MemModel.v). *)
Definition xgiven (o : mop B K V) : list (xthing K V) := map xthing_of (given o).
(** What the caller gets back (see [the] in MemModel.v). *)
Definition xthe (v : option V) : list (xthing K V) := match v with Some v => [XVal v] | None => [] end.

(** The tree with a number; of the model only, no code line. *)
Definition xtree_at (F : xforest) (i : nat) : option (config * xcontainer B K V) :=
  match nth_error F i with Some (Some t) => Some t | _ => None end.

(** One call (see [mstep] in MemModel.v for the calls): what the caller gets back and the trees afterwards, or the trees
    after unwinding. *)
Definition xstep (F : xforest) (o : mop B K V) : X K V (list (xthing K V) * xforest) xforest :=
  match o with
  | MNew cfg =>
    try! t := xnew_leaf crash bdrop P catch _ => dret F in dret (inl ([], F ++ [Some (cfg, t)]))
  | MInsert i k v =>
    match xtree_at F i with
    | Some (cfg, t) =>
      try! t := xinsert_entry crash bdrop P cfg t (XELeaf (k, v)) catch t => dret (set_nth i (Some (cfg, t)) F) in
      dret (inl ([], set_nth i (Some (cfg, t)) F))
    | None => dret (inl ([XKey k; XVal v], F))
    end
  | MInsertUnique i k v =>
    match xtree_at F i with
    | Some (cfg, t) =>
      try! (old, t) := xcontainer_insert_unique crash bdrop P cfg t k v catch t => dret (set_nth i (Some (cfg, t)) F) in
      dret (inl (xthe old, set_nth i (Some (cfg, t)) F))
    | None => dret (inl ([XKey k; XVal v], F))
    end
  | MRemove i Q BR q =>
    match xtree_at F i with
    | Some (cfg, t) =>
      try! (old, t) := xcontainer_remove crash bdrop P cfg BR t q catch t => dret (set_nth i (Some (cfg, t)) F) in
      dret (inl (xthe old, set_nth i (Some (cfg, t)) F))
    | None => dret (inl ([], F))
    end
  | MReplace i Q BR q v =>
    match xtree_at F i with
    | Some (cfg, t) =>
      try! found := xnode_get_mut crash bdrop P BR (fst t) (snd t) q catch _ => (let$ _ := xdestroy (XVal v) in dret F) in
      match found with
      | Some (old, put) => dret (inl ([XVal old], set_nth i (Some (cfg, (fst t, put v))) F))
      | None => dret (inl ([XVal v], F))
      end
    | None => dret (inl ([XVal v], F))
    end
  | MClone i =>
    match xtree_at F i with
    | Some (cfg, t) =>
      try! t := xtree_clone crash bdrop cfg t catch _ => dret F in dret (inl ([], F ++ [Some (cfg, t)]))
    | None => dret (inl ([], F))
    end
  | MDrop i =>
    match xtree_at F i with
    | Some (cfg, t) => let$ _ := xdrop_container bdrop t in dret (inl ([], set_nth i None F))
    | None => dret (inl ([], F))
    end
  end.

(** A whole program: for every call what the caller got back, or [None] if the call panicked. *)
Fixpoint xrun (F : xforest) (os : list (mop B K V)) : D K V (list (option (list (xthing K V))) * xforest) :=
  match os with
  | [] => dret ([], F)
  | o :: os =>
    let$ r := xstep F o in
    match r with
    | inl (x, F) => let$ (xs, F) := xrun F os in dret (Some x :: xs, F)
    | inr F => let$ (xs, F) := xrun F os in dret (None :: xs, F)
    end
  end.

(** Before anything was made. *)
Definition xinit : xmem K V := {| x_next := 0; x_made := []; x_gone := []; x_calls := 0 |}.
End XForest.
Arguments xforest : clear implicits.
