(** Specification vocabulary for user code that answers as it likes (C78). *)
From Verif Require Export WildModel.

(** During the groups of calls numbered from [a] up to (not including) [b], user code said that the key [k] equals [q]. *)
Definition matched {B K Q} (OQ : nat -> nat -> qanswers B K Q) (a b : nat) (k : K) (q : Q) : Prop :=
  exists n i, a <= n < b /\ wq_eq (OQ n (2 * i + 1)) (wq_borrow (OQ n (2 * i)) k) q = true.

Section WEffects.
Context {B K V N : Type} (O : nat -> nat -> answers B K V N).
Notation pforest := (pforest B K V).
Notation wop := (wop B K V).

(** The same for two keys. *)
Definition matched_key (a b : nat) (k0 k : K) : Prop := matched (wself O) a b k0 k.

(** The entry [kv'] is what user code returned when asked to clone [kv]. *)
Definition cloned (a b : nat) (kv kv' : K * V) : Prop :=
  (exists n, a <= n < b /\ fst kv' = w_clone_k (O n 0) (fst kv)) /\ (exists n, a <= n < b /\ snd kv' = w_clone_v (O n 0) (snd kv)).

(** One value was replaced by [v], under a key for which [m] holds. *)
Definition wreplaced (m : K -> Prop) (old v : V) (es es' : list (K * V)) : Prop :=
  exists k rest, m k /\ Permutation es ((k, old) :: rest) /\ Permutation es' ((k, v) :: rest).

(** The call [o], during which user code ran groups [a] up to [b], returned [x]. *)
Definition wdone_as (a b : nat) (o : wop) (x : list (xthing K V)) (F F' : pforest) : Prop :=
  match o with
  | WNew cfg => x = [] /\ exists t, F' = F ++ [Some (cfg, t)] /\ contents t = []
  | WInsert i k v =>
    changed i (x = [XKey k; XVal v]) (fun es es' => x = [] /\ Permutation es' (es ++ [(k, v)])) F F'
  | WInsertUnique i k v =>
    changed i (x = [XKey k; XVal v]) (fun es es' =>
      (x = [] /\ Permutation es' (es ++ [(k, v)])) \/
      (exists old, x = [XVal old] /\ wreplaced (fun k0 => matched_key a b k0 k) old v es es')) F F'
  | WRemove i Q OQ q =>
    changed i (x = []) (fun es es' =>
      (x = [] /\ es' = es) \/
      (exists k old, x = [XVal old] /\ matched OQ a b k q /\ Permutation es ((k, old) :: es'))) F F'
  | WReplace i Q OQ q v =>
    changed i (x = [XVal v]) (fun es es' =>
      (x = [XVal v] /\ es' = es) \/
      (exists old, x = [XVal old] /\ wreplaced (fun k => matched OQ a b k q) old v es es')) F F'
  | WClone i =>
    x = [] /\ match ptree_at F i with
              | Some (cfg, t) => exists t', F' = F ++ [Some (cfg, t')] /\ Forall2 (cloned a b) (contents t) (contents t')
              | None => F' = F
              end
  | WDrop i => x = [] /\ match ptree_at F i with Some _ => F' = set_nth i None F | None => F' = F end
  end.

(** The call [o] unwound: no other tree is touched, nothing appears that was not there or handed over. *)
Definition wleft_behind (a b : nat) (o : wop) (F F' : pforest) : Prop :=
  match o with
  | WInsert i k v => changed i False (fun es es' => part_of es' (es ++ [(k, v)])) F F'
  | WInsertUnique i k v =>
    changed i False (fun es es' =>
      part_of es' (es ++ [(k, v)]) \/
      (exists old es1, wreplaced (fun k0 => matched_key a b k0 k) old v es es1 /\ part_of es' es1)) F F'
  | WRemove i _ _ _ => changed i False (fun es es' => part_of es' es) F F'
  | WNew _ | WReplace _ _ _ _ _ | WClone _ => F' = F
  | WDrop _ => False
  end.

(** The trees are safe to unwind from (see [unwind_ok]). *)
Definition wunwind_ok (bdrop : bool) (o : wop) : Prop :=
  match o with WNew cfg => bdrop = false \/ max_children cfg <> 1 | _ => True end.

(** [min_children] is 0, or at least 2 and at most [max_children - 2]. *)
Definition modest (cfg : config) : Prop :=
  2 <= max_children cfg /\ (min_children cfg = 0 \/ 2 <= min_children cfg /\ min_children cfg + 2 <= max_children cfg).
Definition modest_op (o : wop) : Prop := match o with WNew cfg => modest cfg | _ => True end.

(** No node of the tree has more than [max_children] children; every one but the root has at least [guaranteed_fill];
    an inner root has at least two. *)
Definition well_filled (cfg : config) (t : rtree B K V) : Prop :=
  forall i n, node_at t i n ->
    fanout n <= max_children cfg /\ (i < fst t -> guaranteed_fill cfg <= fanout n) /\ (i = fst t -> i <> 0 -> 2 <= fanout n).
End WEffects.
