(** Specification vocabulary for unwinding (C48-C51). *)
From Verif Require Export MemSpec CrashModel.

(** [l1] is part of [l2], counting repetitions. *)
Definition part_of {A} (l1 l2 : list A) : Prop := exists rest, Permutation l2 (l1 ++ rest).

(** Numbered objects: vectors and stored bounds. *)
Definition is_obj {K V} (x : xthing K V) : bool := match x with XBuf _ | XBnd _ => true | _ => false end.
Definition objs {K V} (l : list (xthing K V)) : list (xthing K V) := filter is_obj l.

Section XThings.
Context {B K V : Type} (bdrop : bool).
Notation xnode := (xnode B K V).
Notation xthing := (xthing K V).

Definition xkv_things (kv : K * V) : list xthing := [XKey (fst kv); XVal (snd kv)].
Definition bnd_things (bid : nat) : list xthing := if bdrop then [XBnd bid] else [].

(** Everything a node owns: its bounds value (if it has a destructor), its vector, and what is in it. *)
Fixpoint xthings (n : xnode) : list xthing :=
  match n with
  | XNode _ bid id (CLeaf es) => bnd_things bid ++ XBuf id :: flat_map xkv_things es
  | XNode _ bid id (CInner cs) => bnd_things bid ++ XBuf id :: flat_map xthings cs
  end.

(** The node of Model.v. *)
Fixpoint xforget (n : xnode) : node B K V :=
  match n with
  | XNode b _ _ (CLeaf es) => Node b (CLeaf es)
  | XNode b _ _ (CInner cs) => Node b (CInner (map xforget cs))
  end.

Definition xforget_c (c : xcontainer B K V) : container B K V := (fst c, xforget (snd c)).
Definition xthings_c (c : xcontainer B K V) : list xthing := xthings (snd c).

(** The stored entries, in the order of iteration. *)
Definition xentries (n : xnode) : list (K * V) := entries (xforget n).

Definition xforest_things (F : xforest B K V) : list xthing :=
  flat_map (fun o => match o with Some (_, t) => xthings_c t | None => [] end) F.
Definition xforget_forest (F : xforest B K V) : pforest B K V :=
  map (option_map (fun ct => (fst ct, xforget_c (snd ct)))) F.

(** What the program got back from the calls that returned. *)
Definition got_back (outs : list (option (list xthing))) : list xthing :=
  flat_map (fun o => match o with Some x => x | None => [] end) outs.
End XThings.

(** A call of user code numbered from [a] up to (not including) [b] panicked. *)
Definition crashed (crash : nat -> bool) (a b : nat) : Prop := exists i, a <= i < b /\ crash i = true.

(** The trees are safe to unwind from: [max_children] is not 1, or bounds have no destructor. *)
Definition unwind_ok {B K V} (bdrop : bool) (o : mop B K V) : Prop :=
  match o with MNew cfg => bdrop = false \/ max_children cfg <> 1 | _ => True end.

(** ** What a call does to the contents of the trees *)
Section Effects.
Context {B K V : Type} (P : Params B K).
Notation pforest := (pforest B K V).

(** Only tree [i] changed, its contents as [R] says; if there is no such tree, [N] holds and nothing changed. *)
Definition changed (i : nat) (N : Prop) (R : list (K * V) -> list (K * V) -> Prop) (F F' : pforest) : Prop :=
  match ptree_at F i with
  | Some (cfg, t) => exists t', F' = set_nth i (Some (cfg, t')) F /\ R (contents t) (contents t')
  | None => N /\ F' = F
  end.

(** One value was replaced by [v] under a key for which [m] holds. *)
Definition replaced (m : K -> bool) (old v : V) (es es' : list (K * V)) : Prop :=
  exists k rest, m k = true /\ Permutation es ((k, old) :: rest) /\ Permutation es' ((k, v) :: rest).

(** The call [o] returned [x]. *)
Definition done_as (o : mop B K V) (x : list (xthing K V)) (F F' : pforest) : Prop :=
  match o with
  | MNew cfg => x = [] /\ exists t, F' = F ++ [Some (cfg, t)] /\ contents t = []
  | MInsert i k v =>
    changed i (x = [XKey k; XVal v]) (fun es es' => x = [] /\ Permutation es' (es ++ [(k, v)])) F F'
  | MInsertUnique i k v =>
    changed i (x = [XKey k; XVal v]) (fun es es' =>
      (x = [] /\ Permutation es' (es ++ [(k, v)])) \/
      (exists old, x = [XVal old] /\ replaced (fun k0 => key_eq P k0 k) old v es es')) F F'
  | MRemove i Q BR q =>
    changed i (x = []) (fun es es' =>
      (x = [] /\ Permutation es' es) \/
      (exists k old, x = [XVal old] /\ q_eq BR (borrow BR k) q = true /\ Permutation es ((k, old) :: es'))) F F'
  | MReplace i Q BR q v =>
    changed i (x = [XVal v]) (fun es es' =>
      (x = [XVal v] /\ es' = es) \/
      (exists old, x = [XVal old] /\ replaced (fun k => q_eq BR (borrow BR k) q) old v es es')) F F'
  | MClone i =>
    x = [] /\ match ptree_at F i with
              | Some (cfg, t) => exists t', F' = F ++ [Some (cfg, t')] /\ contents t' = contents t
              | None => F' = F
              end
  | MDrop i => x = [] /\ match ptree_at F i with Some _ => F' = set_nth i None F | None => F' = F end
  end.

(** The call [o] unwound: no other tree is touched, nothing appears that was not there or handed over. *)
Definition left_behind (o : mop B K V) (F F' : pforest) : Prop :=
  match o with
  | MInsert i k v => changed i False (fun es es' => part_of es' (es ++ [(k, v)])) F F'
  | MInsertUnique i k v =>
    changed i False (fun es es' =>
      part_of es' (es ++ [(k, v)]) \/
      (exists old es1, replaced (fun k0 => key_eq P k0 k) old v es es1 /\ part_of es' es1)) F F'
  | MRemove i _ _ _ => changed i False (fun es es' => part_of es' es) F F'
  | MNew _ | MReplace _ _ _ _ _ | MClone _ => F' = F
  | MDrop _ => False
  end.

(** The call [o] unwound and lost nothing but, for a removal, one entry it was to remove. *)
Definition kept (o : mop B K V) (F F' : pforest) : Prop :=
  match o with
  | MInsert i k v => changed i False (fun es es' => part_of es es') F F'
  | MInsertUnique i k v =>
    changed i False (fun es es' => part_of es es' \/ exists old, replaced (fun k0 => key_eq P k0 k) old v es es') F F'
  | MRemove i Q BR q =>
    changed i False (fun es es' => Permutation es' es \/
      exists k v, q_eq BR (borrow BR k) q = true /\ Permutation es ((k, v) :: es')) F F'
  | _ => F' = F
  end.

(** No node of the tree but its root is at its minimum. *)
Definition spare (cfg : config) (t : rtree B K V) : Prop :=
  min_children cfg = 0 \/ forall i n, node_at t i n -> i < fst t -> min_children cfg < fanout n.
(** No node of the tree is full; no inner node is full. *)
Definition roomy (cfg : config) (t : rtree B K V) : Prop := forall i n, node_at t i n -> fanout n < max_children cfg.
Definition inner_roomy (cfg : config) (t : rtree B K V) : Prop := forall i n, node_at t (S i) n -> fanout n < max_children cfg.

(** When a panicking call loses nothing, and when it leaks nothing. *)
Definition calm (o : mop B K V) (F : pforest) : Prop :=
  match o with
  | MInsert i _ _ | MInsertUnique i _ _ => forall cfg t, ptree_at F i = Some (cfg, t) -> roomy cfg t
  | MRemove i _ _ _ => forall cfg t, ptree_at F i = Some (cfg, t) -> spare cfg t
  | _ => True
  end.
Definition leak_free (o : mop B K V) (F : pforest) : Prop :=
  match o with
  | MInsert i _ _ | MInsertUnique i _ _ =>
    forall cfg t, ptree_at F i = Some (cfg, t) -> max_children cfg <> 1 /\ inner_roomy cfg t
  | MRemove i _ _ _ => forall cfg t, ptree_at F i = Some (cfg, t) -> spare cfg t
  | MClone i => forall cfg t, ptree_at F i = Some (cfg, t) -> fst t = 0
  | _ => True
  end.
End Effects.

(** Keys and values given back, as in MemModel.v. *)
Definition thing_of {K V} (x : xthing K V) : thing K V :=
  match x with XBuf i | XBnd i => TBuf i | XKey k => TKey k | XVal v => TVal v end.

(** The key a call would insert. *)
Definition inserts {B K V} (o : mop B K V) (k : K) : Prop :=
  match o with MInsert _ k' _ | MInsertUnique _ k' _ => k' = k | _ => False end.
