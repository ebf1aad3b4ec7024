(** Specification vocabulary: what the theorems talk about.  Nothing here mentions how the operations
    work; only the data type of trees, the laws asked of user-supplied types, and histories of calls. *)
From Verif Require Export Model.

(** ** What a tree contains *)
Section Contents.
Context {B K V : Type}.

(** The entries stored below a node, in iteration order (C09 proves that [iter] yields exactly this
    list). *)
Fixpoint entries (n : node B K V) : list (K * V) :=
  match n with
  | Node _ (CLeaf es) => es
  | Node _ (CInner cs) => flat_map entries cs
  end.

Definition keys (n : node B K V) : list K := map fst (entries n).

(** Contents of a tree. *)
Definition contents (t : rtree B K V) : list (K * V) := entries (snd t).

(** The leaves below a node in iteration order, each with its entries. *)
Fixpoint leaves (n : node B K V) : list (list (K * V)) :=
  match n with
  | Node _ (CLeaf es) => [es]
  | Node _ (CInner cs) => flat_map leaves cs
  end.

(** The nodes of a tree with their depth-from-the-leaves according to the recorded level: node [m] at
    level [i] is the root or a child of a node at level [i+1]. *)
Inductive node_at (t : rtree B K V) : nat -> node B K V -> Prop :=
| at_root : node_at t (fst t) (snd t)
| at_child : forall i b cs c, node_at t (S i) (Node b (CInner cs)) -> In c cs -> node_at t i c.

Definition is_root (t : rtree B K V) (i : nat) : Prop := i = fst t.

(** Number of direct children of a node. *)
Definition fanout (n : node B K V) : nat :=
  match node_children n with CInner cs => length cs | CLeaf es => length es end.

(** Bounds of the direct children of a node. *)
Definition child_bounds (kb : K -> B) (n : node B K V) : list B :=
  match node_children n with
  | CInner cs => map node_bounds cs
  | CLeaf es => map (fun kv => kb (fst kv)) es
  end.
End Contents.

(** Two trees that agree in everything (shape, bounds, keys) but perhaps the stored values: [erase]
    replaces every value by [tt]. *)
Fixpoint map_node {B K V W : Type} (f : V -> W) (n : node B K V) : node B K W :=
  match n with
  | Node b (CLeaf es) => Node b (CLeaf (map (fun kv => (fst kv, f (snd kv))) es))
  | Node b (CInner cs) => Node b (CInner (map (map_node f) cs))
  end.

Definition erase {B K V : Type} (n : node B K V) : node B K unit := map_node (fun _ => tt) n.

Definition same_but_values {B K V : Type} (t t' : rtree B K V) : Prop :=
  fst t = fst t' /\ erase (snd t) = erase (snd t').

(** ** Laws asked of user types *)

(** [incl a b] is to be read "bounds [a] include bounds [b]".  These are the laws documented at
    [trait Bounds] (bounds.rs 13-33): the union includes both operands, the union of a collection every
    member. *)
Record bounds_laws {B : Type} (O : BoundsOps B) (incl : B -> B -> Prop) : Prop := {
  incl_refl : forall a, incl a a;
  incl_trans : forall a b c, incl a b -> incl b c -> incl a c;
  union_l : forall a b, incl (b_union O a b) a;
  union_r : forall a b, incl (b_union O a b) b;
  union_all_member : forall l b, In b l -> incl (b_union_all O l) b
}.

(** Equality of keys is an equivalence ([Eq]). *)
Record key_eq_laws {K : Type} (eqb : K -> K -> bool) : Prop := {
  keq_refl : forall k, eqb k k = true;
  keq_sym : forall a b, eqb a b = true -> eqb b a = true;
  keq_trans : forall a b c, eqb a b = true -> eqb b c = true -> eqb a c = true
}.

(** [contains] and [intersects] never deny a query that equals a (valid) key whose bounds are included:
    what lookups through a borrowed key of type [Q] need. [ok] singles out the valid keys. *)
Record lookup_laws {B K Q : Type} (P : Params B K) (BR : Borrowed B K Q) (incl : B -> B -> Prop)
    (ok : K -> Prop) : Prop := {
  contains_complete : forall b k q, ok k -> q_eq BR (borrow BR k) q = true ->
    incl b (key_bounds P k) -> b_contains (bops P) b (q_bounds BR q) = true;
  intersects_complete : forall b k q, ok k -> q_eq BR (borrow BR k) q = true ->
    incl b (key_bounds P k) -> b_intersects (bops P) b (q_bounds BR q) = true
}.

(** [Borrow] must agree with [Eq]: [k1 == k2] iff [k1.borrow() == k2.borrow()]. *)
Record borrow_laws {B K Q : Type} (P : Params B K) (BR : Borrowed B K Q) : Prop := {
  borrow_eq : forall a b, q_eq BR (borrow BR a) (borrow BR b) = key_eq P a b;
  qeq_laws : key_eq_laws (q_eq BR)
}.

(** Bounds that form a semilattice (the provided boxes): for the exact bounding volume hierarchy. *)
Record semilattice_laws {B : Type} (O : BoundsOps B) : Prop := {
  sl_comm : forall a b, b_union O a b = b_union O b a;
  sl_assoc : forall a b c, b_union O a (b_union O b c) = b_union O (b_union O a b) c;
  sl_idem : forall a, b_union O a a = a;
  sl_empty : forall a, b_union O (b_empty O) a = a;
  sl_union_all : forall l, b_union_all O l = fold_right (b_union O) (b_empty O) l
}.

(** ** Histories of API calls *)
Section History.
Context {B K V : Type}.
Variables (P : Params B K) (cfg : config).

(** Every tree obtainable through the API from [RTree::new], with keys satisfying [ok].  [r_values]
    stands for all writes through the mutable references the API hands out ([get_mut], [iter_mut],
    [filter_iter_mut], [min_by_mut], ...): it allows any change of the stored values. *)
Inductive reachable (ok : K -> Prop) : rtree B K V -> Prop :=
| r_new : reachable ok (rtree_new P)
| r_insert t k v t' :
    reachable ok t -> ok k -> rtree_insert P cfg t k v = Ok t' -> reachable ok t'
| r_insert_unique t k v o t' :
    reachable ok t -> ok k -> rtree_insert_unique P cfg t k v = Ok (o, t') -> reachable ok t'
| r_remove t (Q : Type) (BR : Borrowed B K Q) q o t' :
    reachable ok t -> rtree_remove P cfg BR t q = Ok (o, t') -> reachable ok t'
| r_clone t t' : reachable ok t -> rtree_clone cfg t = Ok t' -> reachable ok t'
| r_values t t' : reachable ok t -> same_but_values t t' -> reachable ok t'.

(** Trees obtainable without [remove]. *)
Inductive grown (ok : K -> Prop) : rtree B K V -> Prop :=
| g_new : grown ok (rtree_new P)
| g_insert t k v t' :
    grown ok t -> ok k -> rtree_insert P cfg t k v = Ok t' -> grown ok t'
| g_insert_unique t k v o t' :
    grown ok t -> ok k -> rtree_insert_unique P cfg t k v = Ok (o, t') -> grown ok t'
| g_clone t t' : grown ok t -> rtree_clone cfg t = Ok t' -> grown ok t'
| g_values t t' : grown ok t -> same_but_values t t' -> grown ok t'.
End History.

Definition any_key {K : Type} (k : K) : Prop := True.

(** Configurations under which no history panics (C23). *)
Definition supported (cfg : config) : Prop :=
  2 <= max_children cfg /\ min_children cfg <> 1.

(** How many children every node but the root is sure to have: [min_children] if a full node plus one
    element can be halved ([2 * min_children <= max_children]), and less for larger minima. *)
Definition guaranteed_fill (cfg : config) : nat :=
  Nat.min (min_children cfg) (max_children cfg - min_children cfg).

(** ** Histories as lists of calls *)
Section Ops.
Context {B K V : Type}.

Inductive op : Type :=
| OInsert (k : K) (v : V)
| OInsertUnique (k : K) (v : V)
| ORemove (k : K)
| OGet (k : K)
| OSet (k : K) (v : V)          (* [if let Some(r) = t.get_mut(k) { replace(r, v) }] *)
| OLen
| OIsEmpty
| OClone.                       (* continue with the clone *)

Inductive out : Type :=
| OutUnit
| OutVal (o : option V)
| OutNat (n : nat)
| OutBool (b : bool).

Variables (P : Params B K) (cfg : config).

Definition step (t : rtree B K V) (o : op) : res (out * rtree B K V) :=
  match o with
  | OInsert k v => let* t := rtree_insert P cfg t k v in Ok (OutUnit, t)
  | OInsertUnique k v => let* (p, t) := rtree_insert_unique P cfg t k v in Ok (OutVal p, t)
  | ORemove k => let* (p, t) := rtree_remove P cfg (self_borrow P) t k in Ok (OutVal p, t)
  | OGet k => let* p := rtree_get P (self_borrow P) t k in Ok (OutVal p, t)
  | OSet k v =>
    let* r := rtree_get_mut P (self_borrow P) t k in
    Ok (match r with
        | Some (old, put) => (OutVal (Some old), put v)
        | None => (OutVal None, t)
        end)
  | OLen => let* n := rtree_len t in Ok (OutNat n, t)
  | OIsEmpty => let* b := rtree_is_empty t in Ok (OutBool b, t)
  | OClone => let* t := rtree_clone cfg t in Ok (OutUnit, t)
  end.

(** Running a history; the outputs in order and the final tree. *)
Fixpoint run (t : rtree B K V) (os : list op) : res (list out * rtree B K V) :=
  match os with
  | [] => Ok ([], t)
  | o :: os => let* (x, t) := step t o in let* (xs, t) := run t os in Ok (x :: xs, t)
  end.

Definition op_key (o : op) : option K :=
  match o with
  | OInsert k _ | OInsertUnique k _ | ORemove k | OGet k | OSet k _ => Some k
  | _ => None
  end.

Definition ok_op (ok : K -> Prop) (o : op) : Prop := match op_key o with Some k => ok k | None => True end.
End Ops.
Arguments op : clear implicits.
Arguments out : clear implicits.

(** A finite map up to key equality, as a function. *)
Section MapSpec.
Context {K V : Type} (eqb : K -> K -> bool).
Definition fmap := K -> option V.
Definition map_set (m : fmap) (k : K) (v : V) : fmap := fun k' => if eqb k k' then Some v else m k'.
Definition map_del (m : fmap) (k : K) : fmap := fun k' => if eqb k k' then None else m k'.

(** Effect and output of an operation on the map; [None]: not an operation of a map ([insert]), or one
    whose output is not determined by lookups ([len], [is_empty]). *)
Definition map_step (m : fmap) (o : op K V) : option (out V * fmap) :=
  match o with
  | OInsertUnique k v => Some (OutVal (m k), map_set m k v)
  | ORemove k => Some (OutVal (m k), map_del m k)
  | OGet k => Some (OutVal (m k), m)
  | OSet k v => Some (OutVal (m k), match m k with Some _ => map_set m k v | None => m end)
  | OClone => Some (OutUnit, m)
  | _ => None
  end.

Fixpoint map_run (m : fmap) (os : list (op K V)) : option (list (out V) * fmap) :=
  match os with
  | [] => Some ([], m)
  | o :: os =>
    match map_step m o with
    | None => None
    | Some (x, m) => match map_run m os with Some (xs, m) => Some (x :: xs, m) | None => None end
    end
  end.

(** The operations of a map: everything but [insert], [len] and [is_empty]. *)
Definition map_op (o : op K V) : Prop :=
  match o with OInsert _ _ | OLen | OIsEmpty => False | _ => True end.

(** No two entries with equal keys. *)
Definition unique_keys (l : list (K * V)) : Prop :=
  ForallOrdPairs (fun a b => eqb (fst a) (fst b) = false) l.
End MapSpec.

(** ** Comparisons *)

(** A comparison function of a total preorder ([Ord::cmp]). *)
Record cmp_laws {T : Type} (cmp : T -> T -> comparison) : Prop := {
  cmp_flip : forall a b, cmp b a = CompOpp (cmp a b);
  cmp_le_trans : forall a b c, cmp a b <> Gt -> cmp b c <> Gt -> cmp a c <> Gt
}.

(** What the heuristics need of volumes: the volumes that occur (with the initial "-infinity") are totally preordered by the
    comparison of [N64], and so are their differences.  Other values of [N64], such as NaN, need not be. *)
Record volume_laws {B : Type} (VO : VolumeOps B) : Prop := {
  vl_volume : let v (o : option B) := match o with Some b => volume VO b | None => n64_neg_inf VO end in
    cmp_laws (fun a b : option B => n64_cmp VO (v a) (v b));
  vl_difference : let d (p : B * B) := n64_sub VO (volume VO (fst p)) (volume VO (snd p)) in
    cmp_laws (fun p q : B * B => n64_cmp VO (d p) (d q))
}.

(** Child [i] (with bounds [x]) of the children [bs] needs least enlargement to include [eb], among those
    has least volume, and is the first such child. *)
Definition least_enlargement {B K : Type} (P : Params B K) (bs : list B) (eb : B) (i : nat) : Prop :=
  let inc x := n64_sub (vops P) (volume (vops P) (b_union (bops P) x eb)) (volume (vops P) x) in
  exists x, nth_error bs i = Some x /\
  forall j y, nth_error bs j = Some y ->
    n64_cmp (vops P) (inc x) (inc y) = Lt \/
    (n64_cmp (vops P) (inc x) (inc y) = Eq /\
     (n64_cmp (vops P) (volume (vops P) x) (volume (vops P) y) = Lt \/
      (n64_cmp (vops P) (volume (vops P) x) (volume (vops P) y) = Eq /\ i <= j))).

(** The tree a history ends in ([rtree_new] if the history panics). *)
Definition final {B K V : Type} (P : Params B K) (cfg : config) (os : list (op K V)) : rtree B K V :=
  match run P cfg (rtree_new P) os with Ok (_, t) => t | _ => rtree_new P end.
