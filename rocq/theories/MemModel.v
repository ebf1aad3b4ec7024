(** Ownership: the tree operations of Model.v once more, with the heap buffers of the vectors and the
    destruction of keys and values made explicit.  What is the same as in Model.v is only cited briefly. *)
From Verif Require Export Model.

(** What can be owned: the heap buffer of a vector (by number), a key, a value. *)
Inductive thing (K V : Type) : Type :=
| TBuf (id : nat)
| TKey (k : K)
| TVal (v : V).
Arguments TBuf {K V} id. Arguments TKey {K V} k. Arguments TVal {K V} v.

(** The state of the memory: buffers [0 .. m_next-1] were allocated so far; [m_gone] lists the buffers
    deallocated and the keys and values whose destructor ran; [m_cloned] the keys and values made by [Clone]. *)
Record mem (K V : Type) := { m_next : nat; m_gone : list (thing K V); m_cloned : list (thing K V) }.
Arguments m_next {K V}. Arguments m_gone {K V}. Arguments m_cloned {K V}.

(** [struct Node] (node.rs 80-83) with the buffer its vector points to ([FCVec::buf], fc_vec.rs 17-26). *)
Inductive mnode (B K V : Type) : Type :=
| MNode (bounds : B) (id : nat) (ch : children (mnode B K V) (K * V)).
Arguments MNode {B K V} bounds id ch.

(** A computation on the memory.  A panic or undefined behaviour ends the run (unwinding is not modelled). *)
Definition M (K V A : Type) : Type := mem K V -> res (A * mem K V).

Section Monad.
Context {K V : Type}.
Notation M := (M K V).
(** Return; of the model only, no code line. *)
Definition mret {A} (a : A) : M A := fun s => Ok (a, s).
(** Sequencing; of the model only, no code line. *)
Definition mbind {A C} (m : M A) (k : A -> M C) : M C := fun s => let* (a, s) := m s in k a s.
(** A pure step that may panic; of the model only. *)
Definition lift {A} (r : res A) : M A := fun s => let* a := r in Ok (a, s).

(** Of the model only; no code line. *)
Definition is_buf (id : nat) (x : thing K V) : bool := match x with TBuf j => id =? j | _ => false end.

(** Allocated and not deallocated. *)
Definition live (s : mem K V) (id : nat) : bool := (id <? m_next s) && negb (existsb (is_buf id) (m_gone s)).

(** [Alloc::new_vec] (fc_vec.rs 127-143): a buffer never used before. *)
Definition new_vec : M nat := fun s =>
  Ok (m_next s, {| m_next := S (m_next s); m_gone := m_gone s; m_cloned := m_cloned s |}).

(** Any access to a vector's elements: undefined if its buffer is not allocated. *)
Definition use_buf (id : nat) : M unit := fun s => if live s id then Ok (tt, s) else UB.

(** A destructor runs, or ([alloc::dealloc], fc_vec.rs 332-338, 534-541) a buffer is deallocated: undefined if
    it is not allocated. *)
Definition destroy (x : thing K V) : M unit := fun s =>
  match x with
  | TBuf id => if live s id then Ok (tt, {| m_next := m_next s; m_gone := x :: m_gone s; m_cloned := m_cloned s |}) else UB
  | _ => Ok (tt, {| m_next := m_next s; m_gone := x :: m_gone s; m_cloned := m_cloned s |})
  end.

(** The compiler's destructor of a [(Key, Value)] (no code line). *)
Definition destroy_entry (kv : K * V) : M unit :=
  mbind (destroy (TKey (fst kv))) (fun _ => destroy (TVal (snd kv))).

(** A loop over a list; of the model only, no code line. *)
Fixpoint mseq {A} (f : A -> M unit) (l : list A) : M unit :=
  match l with [] => mret tt | x :: r => mbind (f x) (fun _ => mseq f r) end.

(** [Key::clone] and [Value::clone] of an entry: two new things. *)
Definition clone_entry (kv : K * V) : M (K * V) := fun s =>
  Ok (kv, {| m_next := m_next s; m_gone := m_gone s; m_cloned := TKey (fst kv) :: TVal (snd kv) :: m_cloned s |}).
End Monad.

Notation "'let!' p ':=' m 'in' k" := (mbind m (fun p => k))
  (at level 200, p pattern, m at level 100, k at level 200, right associativity).

Section MTree.
Context {B K V : Type}.
Notation mnode := (mnode B K V).
Notation M := (M K V).

(** [Node::bounds] (node.rs 80-83, 165-172). *)
Definition m_bounds (n : mnode) : B := match n with MNode b _ _ => b end.
(** The number of a node's vector (node.rs 45-48, 80-83). *)
Definition m_id (n : mnode) : nat := match n with MNode _ i _ => i end.
(** [Node::children] (node.rs 45-48, 88-92). *)
Definition m_children (n : mnode) : children mnode (K * V) := match n with MNode _ _ c => c end.

(** [struct NodeContainer] (node.rs 706-710). *)
Definition mcontainer : Type := (nat * mnode)%type.

(** [enum NodeEntry] (node.rs 18-21). *)
Inductive mentry :=
| MEInner (c : mcontainer)
| MELeaf (kv : K * V).

(** [NodeEntry::target_level] (node.rs 24-29). *)
Definition m_target_level (e : mentry) : nat :=
  match e with MEInner c => fst c + 1 | MELeaf _ => 0 end.

(** Reading the elements of a node's vector: union field (see Model.v) and buffer must be right. *)
Definition mread_inner (n : mnode) : M (list mnode) :=
  let! _ := use_buf (m_id n) in lift (read_inner (m_children n)).
(** [children.leaf] of a node (node.rs 45-48): undefined for an inner node. *)
Definition mread_leaf (n : mnode) : M (list (K * V)) :=
  let! _ := use_buf (m_id n) in lift (read_leaf (m_children n)).

(** [NodeRef::children] (node.rs 992-1006): which union field is read depends on the level. *)
Definition mchildren_at (level : nat) (n : mnode) : M (children mnode (K * V)) :=
  match level with
  | 0 => let! es := mread_leaf n in mret (CLeaf es)
  | S _ => let! cs := mread_inner n in mret (CInner cs)
  end.

Variable (P : Params B K).
Let BO := bops P.
Let kb := key_bounds P.

(** [<NodeEntry as Bounded>::bounds] (node.rs 32-42), as in Model.v. *)
Definition m_entry_bounds (e : mentry) : B :=
  match e with
  | MEInner c => m_bounds (snd c)
  | MELeaf (k, _) => kb k
  end.

(** [NodeRefMut::drop] (node.rs 625-634), [InnerNodeChildrenRefMut::drop] (1295-1304), [FCVecRefMut::drop]
    (fc_vec.rs 332-338): an inner node drops its children and then its buffer, a leaf its entries from the last
    to the first and then its buffer. *)
Fixpoint mdrop_node (level : nat) (n : mnode) {struct level} : M unit :=
  match level with
  | S l =>
    let! cs := mread_inner n in
    let! _ := mseq (mdrop_node l) cs in
    destroy (TBuf (m_id n))
  | 0 =>
    let! es := mread_leaf n in
    let! _ := mseq destroy_entry (rev es) in
    destroy (TBuf (m_id n))
  end.

Variable (cfg : config).
Let cap := max_children cfg.
Let minc := min_children cfg.

(** [Alloc::new_leaf] (node.rs 188-205). *)
Definition mnew_leaf : M mcontainer :=
  let! id := new_vec in mret (0, MNode (b_empty BO) id (CLeaf [])).

(** [NodeRefMut::self_insert] (node.rs 351-409); the splitter allocates the second group's vector
    (split.rs 111), which becomes the sibling's. *)
Definition mself_insert (level : nat) (n : mnode) (e : mentry) : M (mnode * option mcontainer) :=
  let eb := m_entry_bounds e in
  let! ch := mchildren_at level n in
  match ch, e with
  | CInner cs, MEInner (elevel, enode) =>
    if negb (level - 1 =? elevel) then lift Panic
    else
      match try_push cap cs enode with
      | inr overflow =>
        let! id2 := new_vec in
        let! (b1, b2, g1, g2) := lift (split P m_bounds cap minc cs overflow) in
        mret (MNode b1 (m_id n) (CInner g1), Some (level, MNode b2 id2 (CInner g2)))
      | inl cs => mret (MNode (b_union BO (m_bounds n) eb) (m_id n) (CInner cs), None)
      end
  | CLeaf es, MELeaf kv =>
    match try_push cap es kv with
    | inr overflow =>
      let! id2 := new_vec in
      let! (b1, b2, g1, g2) := lift (split P (fun kv => kb (fst kv)) cap minc es overflow) in
      mret (MNode b1 (m_id n) (CLeaf g1), Some (level, MNode b2 id2 (CLeaf g2)))
    | inl es => mret (MNode (b_union BO (m_bounds n) eb) (m_id n) (CLeaf es), None)
    end
  | CInner _, MELeaf _ => lift Panic
  | CLeaf _, MEInner _ => lift Panic
  end.

(** [NodeRefMut::insert] (node.rs 411-438). *)
Fixpoint mnode_insert (level : nat) (n : mnode) (e : mentry) {struct level} : M (mnode * option mcontainer) :=
  let eb := m_entry_bounds e in
  if negb (m_target_level e =? level) then
    match level with
    | 0 => lift Panic
    | S l =>
      let! cs := mread_inner n in
      let! i := lift (unwrap (select P (map m_bounds cs) eb)) in
      let! child := lift (unwrap (nth_error cs i)) in
      let! (child, new_child) := mnode_insert l child e in
      let cs := set_nth i child cs in
      match new_child with
      | Some new_child =>
        mself_insert (S l) (MNode (b_union_all BO (map m_bounds cs)) (m_id n) (CInner cs)) (MEInner new_child)
      | None => mret (MNode (b_union BO (m_bounds n) eb) (m_id n) (CInner cs), None)
      end
    end
  else mself_insert level n e.

(** [NodeRefMut::get_mut] and [into_get_mut] (node.rs 648-694), as a lens. *)
Section MGet.
Context {Q : Type} (BR : Borrowed B K Q).

(** [NodeRefMut::get_mut] on a node of a level (node.rs 648-694). *)
Fixpoint mnode_get_mut (level : nat) (n : mnode) (q : Q) {struct level} : M (option (V * (V -> mnode))) :=
  match level with
  | S l =>
    let! cs := mread_inner n in
    let! found :=
      (fix loop (cs : list mnode) : M (option (V * (V -> list mnode))) :=
         match cs with
         | [] => mret None
         | c :: r =>
           let! here :=
             if b_contains BO (m_bounds c) (q_bounds BR q) then mnode_get_mut l c q else mret None in
           match here with
           | Some (v, put) => mret (Some (v, fun v' => put v' :: r))
           | None =>
             let! there := loop r in
             mret (option_map (fun p => (fst p, fun v' => c :: snd p v')) there)
           end
         end) cs in
    mret (option_map (fun p => (fst p, fun v' => MNode (m_bounds n) (m_id n) (CInner (snd p v')))) found)
  | 0 =>
    let! es := mread_leaf n in
    mret (option_map (fun p => (fst p, fun v' => MNode (m_bounds n) (m_id n) (CLeaf (snd p v'))))
            (entries_get_mut BR es q))
  end.
End MGet.

(** [NodeRefMut::insert_unique] (node.rs 440-513).  Where the key is found the old value is moved out by
    [mem::replace] and [key], still owned by the function, is destroyed when it returns. *)
Fixpoint mnode_insert_unique (level : nat) (n : mnode) (k : K) (v : V) {struct level}
  : M (option V * mnode * option mcontainer) :=
  let eb := kb k in
  let plain_insert :=
    let! (n, sibling) := mnode_insert level n (MELeaf (k, v)) in mret (None, n, sibling) in
  match level with
  | S l =>
    let! cs := mread_inner n in
    match filter (fun ic => b_contains BO (m_bounds (snd ic)) (kb k)) (enumerate cs) with
    | [] => plain_insert
    | [(i, child)] =>
      let! (old_value, child, new_child) := mnode_insert_unique l child k v in
      let cs := set_nth i child cs in
      match new_child with
      | Some new_child =>
        let! (n, sibling) :=
          mself_insert (S l) (MNode (b_union_all BO (map m_bounds cs)) (m_id n) (CInner cs)) (MEInner new_child) in
        mret (old_value, n, sibling)
      | None => mret (old_value, MNode (b_union BO (m_bounds n) eb) (m_id n) (CInner cs), None)
      end
    | _ =>
      let! found := mnode_get_mut (self_borrow P) level n k in
      match found with
      | Some (old, put) => let! _ := destroy (TKey k) in mret (Some old, put v, None)
      | None => plain_insert
      end
    end
  | 0 =>
    let! es := mread_leaf n in
    match entries_get_mut (self_borrow P) es k with
    | Some (old, put) =>
      let! _ := destroy (TKey k) in mret (Some old, MNode (m_bounds n) (m_id n) (CLeaf (put v)), None)
    | None => plain_insert
    end
  end.

(** [enum NodeChildrenContainer] (node.rs 1535-1538) with the buffer of the vector. *)
Inductive mcc :=
| MCCInner (level : nat) (id : nat) (cs : list mnode)
| MCCLeaf (id : nat) (es : list (K * V)).

(** [NodeContainer::children] (node.rs 878-906): the vector is moved out, nothing is destroyed. *)
Definition mcontainer_children (c : mcontainer) : M mcc :=
  match fst c with
  | S l => let! cs := lift (read_inner (m_children (snd c))) in mret (MCCInner (S l) (m_id (snd c)) cs)
  | 0 => let! es := lift (read_leaf (m_children (snd c))) in mret (MCCLeaf (m_id (snd c)) es)
  end.

(** The level of a moved vector (node.rs 1433-1437, 1535-1538). *)
Definition mcc_level (c : mcc) : nat := match c with MCCInner l _ _ => l | MCCLeaf _ _ => 0 end.

(** [NodeChildrenContainer::leak] (node.rs 1570-1579). *)
Definition mcc_leak (c : mcc) : nat * children mnode (K * V) :=
  match c with MCCInner _ id cs => (id, CInner cs) | MCCLeaf id es => (id, CLeaf es) end.

(** [Alloc::wrap_children] (node.rs 276-290). *)
Definition mwrap_children (c : nat * children mnode (K * V)) (level : nat) : M mcc :=
  match level with
  | S l => let! cs := lift (read_inner (snd c)) in mret (MCCInner (S l) (fst c) cs)
  | 0 => let! es := lift (read_leaf (snd c)) in mret (MCCLeaf (fst c) es)
  end.

(** [NodeRefMut::shallow_len] (node.rs 636-646): reads the length only, which lies in the node itself. *)
Definition mshallow_len (level : nat) (n : mnode) : M nat :=
  match level with
  | S _ => let! cs := lift (read_inner (m_children n)) in mret (length cs)
  | 0 => let! es := lift (read_leaf (m_children n)) in mret (length es)
  end.

Section MRemove.
Context {Q : Type} (BR : Borrowed B K Q).

(** [NodeRefMut::remove] (node.rs 515-559): [children.swap_remove(i).1] keeps the value and destroys the key. *)
Fixpoint mnode_remove (level : nat) (n : mnode) (q : Q) {struct level} : M (option V * mnode * list mcc) :=
  match level with
  | S l =>
    let! cs := mread_inner n in
    (fix loop (i : nat) (cs : list mnode) : M (option V * mnode * list mcc) :=
       match i with
       | 0 => mret (None, MNode (m_bounds n) (m_id n) (CInner cs), [])
       | S i =>
         let! child := lift (unwrap (nth_error cs i)) in
         if b_intersects BO (m_bounds child) (q_bounds BR q) then
           let! (value, child, underfull) := mnode_remove l child q in
           let cs := set_nth i child cs in
           match value with
           | Some value =>
             let! len := mshallow_len l child in
             let! (cs, underfull) :=
               if len <? minc then
                 let! (child, cs) := lift (swap_remove i cs) in
                 let! cc := mcontainer_children (l, child) in
                 mret (cs, underfull ++ [cc])
               else mret (cs, underfull) in
             mret (Some value, MNode (b_union_all BO (map m_bounds cs)) (m_id n) (CInner cs), underfull)
           | None => loop i cs
           end
         else loop i cs
       end) (length cs) cs
  | 0 =>
    let! es := mread_leaf n in
    match position (fun kv => q_eq BR (borrow BR (fst kv)) q) es with
    | Some i =>
      let! (kv, es) := lift (swap_remove i es) in
      let! _ := destroy (TKey (fst kv)) in
      mret (Some (snd kv), MNode (b_union_all BO (map (fun kv => kb (fst kv)) es)) (m_id n) (CLeaf es), [])
    | None => mret (None, n, [])
    end
  end.
End MRemove.

(** [NodeContainer::branch] (node.rs 806-842): a new vector takes the old root ([ptr::read], then overwritten
    without a destructor by [ptr::write]) and the sibling. *)
Definition mbranch (root sibling : mcontainer) : M mcontainer :=
  if negb (fst sibling =? fst root) then lift Panic
  else
    let bounds := b_union BO (m_bounds (snd root)) (m_bounds (snd sibling)) in
    let! id := new_vec in
    let! v := lift (push cap [] (snd root)) in
    let! v := lift (push cap v (snd sibling)) in
    mret (fst root + 1, MNode bounds id (CInner v)).

(** [NodeContainer::insert_entry] (node.rs 717-726). *)
Definition minsert_entry (root : mcontainer) (e : mentry) : M mcontainer :=
  let! (n, sibling) := mnode_insert (fst root) (snd root) e in
  match sibling with
  | Some s => mbranch (fst root, n) s
  | None => mret (fst root, n)
  end.

(** [NodeContainer::insert_unique] (node.rs 738-755). *)
Definition mcontainer_insert_unique (root : mcontainer) (k : K) (v : V) : M (option V * mcontainer) :=
  let! (prev, n, sibling) := mnode_insert_unique (fst root) (snd root) k v in
  match sibling with
  | Some s => let! root := mbranch (fst root, n) s in mret (prev, root)
  | None => mret (prev, (fst root, n))
  end.

(** [NodeContainer::try_unbranch] (node.rs 844-861): [*self = new_root] first drops the old root container,
    whose vector is empty by then. *)
Definition mtry_unbranch (root : mcontainer) : M mcontainer :=
  match fst root with
  | S l =>
    let! cs := mread_inner (snd root) in
    if length cs =? 1 then
      let! (new_root, cs) := lift (swap_remove 0 cs) in
      let! _ := mdrop_node (S l) (MNode (m_bounds (snd root)) (m_id (snd root)) (CInner cs)) in
      mret (l, new_root)
    else mret root
  | 0 => let! _ := mread_leaf (snd root) in mret root
  end.

(** The [on_underfull] closure of [NodeContainer::remove] (node.rs 769-772); the previous content of the slot is
    overwritten without being destroyed ([ManuallyDrop]). *)
Definition mslot : Type := option (nat * children mnode (K * V)).
(** [on_underfull] (node.rs 769-772). *)
Definition mstore_underfull (arr : list mslot) (cc : mcc) : M (list mslot) :=
  if mcc_level cc <? length arr then mret (set_nth (mcc_level cc) (Some (mcc_leak cc)) arr) else lift Panic.

(** [on_underfull] for each moved vector in turn (node.rs 769-772). *)
Fixpoint mstore_all (arr : list mslot) (ccs : list mcc) : M (list mslot) :=
  match ccs with
  | [] => mret arr
  | cc :: r => let! arr := mstore_underfull arr cc in mstore_all arr r
  end.

(** Reinserting the entries of one vector (node.rs 783-794). *)
Fixpoint minsert_entries (root : mcontainer) (es : list mentry) : M mcontainer :=
  match es with
  | [] => mret root
  | e :: r => let! root := minsert_entry root e in minsert_entries root r
  end.

(** [fc_vec::IntoIter] (fc_vec.rs 435-453, 507-541) over the moved vector: the entries in order; its buffer is
    deallocated when the iterator is dropped. *)
Definition mcc_entries (cc : mcc) : list mentry :=
  match cc with
  | MCCInner level _ cs => map (fun c => MEInner (level - 1, c)) cs
  | MCCLeaf _ es => map MELeaf es
  end.
(** The number of the moved vector (of the model only). *)
Definition mcc_id (cc : mcc) : nat := match cc with MCCInner _ id _ => id | MCCLeaf id _ => id end.

(** The re-insertion loop (node.rs 775-796). *)
Fixpoint mreinsert (root : mcontainer) (level : nat) (arr : list mslot) : M mcontainer :=
  match arr with
  | [] => mret root
  | None :: r => mreinsert root (S level) r
  | Some ch :: r =>
    let! cc := mwrap_children ch level in
    let! _ := use_buf (mcc_id cc) in
    let! root := minsert_entries root (mcc_entries cc) in
    let! _ := destroy (TBuf (mcc_id cc)) in
    mreinsert root (S level) r
  end.

(** [NodeContainer::remove] (node.rs 757-802). *)
Definition mcontainer_remove {Q} (BR : Borrowed B K Q) (root : mcontainer) (q : Q) : M (option V * mcontainer) :=
  let arr := repeat None (fst root) in
  let! (value, n, underfull) := mnode_remove BR (fst root) (snd root) q in
  let! arr := mstore_all arr underfull in
  match value with
  | Some value =>
    let! root := mtry_unbranch (fst root, n) in
    let! root := mreinsert root 0 arr in
    mret (Some value, root)
  | None => mret (None, (fst root, n))
  end.

(** [Alloc::clone_node], [Alloc::clone_children] (node.rs 292-337), [fc_vec::Alloc::clone] (fc_vec.rs 168-180). *)
Fixpoint mclone_vec (vec new : list (K * V)) : M (list (K * V)) :=
  match vec with
  | [] => mret new
  | x :: r => let! x := clone_entry x in let! new := lift (push cap new x) in mclone_vec r new
  end.

(** [Alloc::clone_node] (node.rs 292-308). *)
Fixpoint mclone_node (level : nat) (n : mnode) {struct level} : M mnode :=
  match level with
  | S l =>
    let! cs := mread_inner n in
    let! id := new_vec in
    let! cs :=
      (fix loop (cs new : list mnode) : M (list mnode) :=
         match cs with
         | [] => mret new
         | c :: r =>
           let! c := mclone_node l c in
           let! new := lift (push cap new c) in
           loop r new
         end) cs [] in
    mret (MNode (m_bounds n) id (CInner cs))
  | 0 =>
    let! es := mread_leaf n in
    if cap <? length es then lift Panic
    else
      let! id := new_vec in
      let! es := mclone_vec es [] in
      mret (MNode (m_bounds n) id (CLeaf es))
  end.

(** [<NodeContainer as Clone>::clone] (node.rs 950-952) and [<NodeContainer as Drop>::drop] (936-942). *)
Definition mtree_clone (t : mcontainer) : M mcontainer := let! n := mclone_node (fst t) (snd t) in mret (fst t, n).
(** [<NodeContainer as Drop>::drop] (node.rs 936-942). *)
Definition mtree_drop (t : mcontainer) : M unit := mdrop_node (fst t) (snd t).
End MTree.
Arguments mcontainer : clear implicits.
Arguments mentry : clear implicits.
Arguments mcc : clear implicits.

(** ** A program using any number of trees *)
Section Forest.
Context {B K V : Type}.
Variable (P : Params B K).

(** The program's trees, each with the configuration it was made with; [None]: dropped. *)
Definition forest : Type := list (option (config * mcontainer B K V)).

(** Calls on tree number [i] (in order of creation; calls on trees that do not exist are ignored). *)
Inductive mop : Type :=
| MNew (cfg : config)                                   (* [RTree::new] (lib.rs 104-112) *)
| MInsert (i : nat) (k : K) (v : V)                     (* [RTree::insert] (lib.rs 368-375) *)
| MInsertUnique (i : nat) (k : K) (v : V)               (* [RTree::insert_unique] (lib.rs 381-388) *)
| MRemove (i : nat) (Q : Type) (BR : Borrowed B K Q) (q : Q)   (* [RTree::remove] (lib.rs 397-407) *)
| MReplace (i : nat) (Q : Type) (BR : Borrowed B K Q) (q : Q) (v : V)
                                                        (* [get_mut] (lib.rs 317-324), then [mem::replace] *)
| MClone (i : nat)                                      (* [RTree::clone] *)
| MDrop (i : nat).                                      (* the tree goes out of scope *)

(** Things the caller hands over, and things it gets back. *)
Definition given (o : mop) : list (thing K V) :=
  match o with
  | MInsert _ k v | MInsertUnique _ k v => [TKey k; TVal v]
  | MReplace _ _ _ _ v => [TVal v]
  | _ => []
  end.

(** What the caller gets back; of the model only. *)
Definition the (v : option V) : list (thing K V) := match v with Some v => [TVal v] | None => [] end.

(** The tree with a number; of the model only, no code line. *)
Definition tree_at (F : forest) (i : nat) : option (config * mcontainer B K V) :=
  match nth_error F i with Some (Some t) => Some t | _ => None end.

(** One call: what the caller gets back and the trees afterwards.  Arguments for a tree that does not exist stay
    with the caller. *)
Definition mstep (F : forest) (o : mop) : M K V (list (thing K V) * forest) :=
  match o with
  | MNew cfg => let! t := mnew_leaf P in mret ([], F ++ [Some (cfg, t)])
  | MInsert i k v =>
    match tree_at F i with
    | Some (cfg, t) =>
      let! t := minsert_entry P cfg t (MELeaf (k, v)) in mret ([], set_nth i (Some (cfg, t)) F)
    | None => mret ([TKey k; TVal v], F)
    end
  | MInsertUnique i k v =>
    match tree_at F i with
    | Some (cfg, t) =>
      let! (old, t) := mcontainer_insert_unique P cfg t k v in mret (the old, set_nth i (Some (cfg, t)) F)
    | None => mret ([TKey k; TVal v], F)
    end
  | MRemove i Q BR q =>
    match tree_at F i with
    | Some (cfg, t) =>
      let! (old, t) := mcontainer_remove P cfg BR t q in mret (the old, set_nth i (Some (cfg, t)) F)
    | None => mret ([], F)
    end
  | MReplace i Q BR q v =>
    match tree_at F i with
    | Some (cfg, t) =>
      let! found := mnode_get_mut P BR (fst t) (snd t) q in
      match found with
      | Some (old, put) => mret ([TVal old], set_nth i (Some (cfg, (fst t, put v))) F)
      | None => mret ([TVal v], F)
      end
    | None => mret ([TVal v], F)
    end
  | MClone i =>
    match tree_at F i with
    | Some (cfg, t) => let! t := mtree_clone cfg t in mret ([], F ++ [Some (cfg, t)])
    | None => mret ([], F)
    end
  | MDrop i =>
    match tree_at F i with
    | Some (cfg, t) => let! _ := mtree_drop t in mret ([], set_nth i None F)
    | None => mret ([], F)
    end
  end.

(** Any number of calls; of the model only. *)
Fixpoint mrun (F : forest) (os : list mop) : M K V (list (thing K V) * forest) :=
  match os with
  | [] => mret ([], F)
  | o :: os => let! (x, F) := mstep F o in let! (xs, F) := mrun F os in mret (x ++ xs, F)
  end.

(** Before anything was made. *)
Definition mem_init : mem K V := {| m_next := 0; m_gone := []; m_cloned := [] |}.
End Forest.
Arguments forest : clear implicits.
Arguments mop : clear implicits.
