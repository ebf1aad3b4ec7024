(** Specification vocabulary for iterators. *)
From Verif Require Export Spec SortedModel.

(** Calling [next] [n] times, and the answers. *)
Fixpoint calls {S A : Type} (next : S -> res (option A * S)) (n : nat) (s : S) : res (list (option A)) :=
  match n with
  | 0 => Ok []
  | S n => let* (x, s) := next s in let* xs := calls next n s in Ok (x :: xs)
  end.

(** The iterator in state [s] yields exactly [l] and then [None] for ever: however often it is called, it
    answers with the elements of [l] in order and then with [None]; no call panics or is undefined. *)
Definition iterates {S A : Type} (next : S -> res (option A * S)) (s : S) (l : list A) : Prop :=
  forall n, calls next n s = Ok (firstn n (map Some l ++ repeat None n)).

(** [l'] is a subsequence of [l]. *)
Inductive sublist {A : Type} : list A -> list A -> Prop :=
| sub_nil : sublist [] []
| sub_skip x l' l : sublist l' l -> sublist l' (x :: l)
| sub_take x l' l : sublist l' l -> sublist (x :: l') (x :: l).

(** What the documentation asks of a filter (filter.rs 10-23): bounds that include a (valid) key matching the
    filter must pass the bounds test. *)
Definition filter_lawful {B K Q : Type} (P : Params B K) (brw : K -> Q) (incl : B -> B -> Prop) (ok : K -> Prop)
    (tb : B -> bool) (tk : Q -> bool) : Prop :=
  forall b k, ok k -> tk (brw k) = true -> incl b (key_bounds P k) -> tb b = true.

(** What the documentation asks of a join filter (filter.rs 177-191): a pair of bounds including a matching pair
    of (valid) keys must pass the bounds test. *)
Definition join_filter_lawful {B0 B1 K0 K1 Q0 Q1 : Type} (P0 : Params B0 K0) (P1 : Params B1 K1)
    (brw0 : K0 -> Q0) (brw1 : K1 -> Q1) (incl0 : B0 -> B0 -> Prop) (incl1 : B1 -> B1 -> Prop)
    (ok0 : K0 -> Prop) (ok1 : K1 -> Prop) (tb : B0 -> B1 -> bool) (tk : Q0 -> Q1 -> bool) : Prop :=
  forall b0 b1 k0 k1, ok0 k0 -> ok1 k1 -> tk (brw0 k0) (brw1 k1) = true ->
    incl0 b0 (key_bounds P0 k0) -> incl1 b1 (key_bounds P1 k1) -> tb b0 b1 = true.

(** [l] is part of [all], as a multiset. *)
Definition multi_part {A : Type} (l all : list A) : Prop := exists rest, Permutation (l ++ rest) all.

(** *** Trees whose values live in a memory
    A tree seen by a mutable iterator: each entry holds the location of its value.  [deref m r] is the tree
    that [r] denotes in memory [m]; locations are pairwise distinct because every entry owns its value. *)
Definition deref {B K L V : Type} (m : L -> V) (r : rtree B K L) : rtree B K V := (fst r, map_node m (snd r)).
Definition distinct_locations {B K L : Type} (r : rtree B K L) : Prop := NoDup (map snd (contents r)).

(** Memory after a sequence of writes. *)
Fixpoint write_all {V : Type} (m : nat -> V) (ws : list (nat * V)) : nat -> V :=
  match ws with
  | [] => m
  | (l, v) :: ws => write_all (fun l' => if l' =? l then v else m l') ws
  end.

(** [l] consists of exactly the elements of [all] satisfying [R], each once (per position) and in the order of
    [all]. *)
Definition exactly {A : Type} (R : A -> Prop) (l all : list A) : Prop :=
  exists g : A -> bool, l = filter g all /\ forall x, In x all -> (g x = true <-> R x).

(** *** Rankings and priority queues *)

(** What is assumed of the priority queue: it holds what was pushed and not popped, and pops a least element
    (with no promise about ties). *)
Record pqueue_laws {T : Type} (cmp : T -> T -> comparison) (Q : PQueue T) : Prop := {
  pq_new : h_items Q (h_new Q) = [];
  pq_push : forall x h, Permutation (h_items Q (h_push Q x h)) (x :: h_items Q h);
  pq_pop_none : forall h, h_pop Q h = None -> h_items Q h = [];
  pq_pop_some : forall h x h', h_pop Q h = Some (x, h') ->
    Permutation (h_items Q h) (x :: h_items Q h') /\ forall y, In y (h_items Q h') -> cmp x y <> Gt
}.

(** The documented law of a ranking (ranking.rs 22-24): [bounds_min] is a lower bound for the keys the bounds
    include. *)
Definition ranking_lawful {B K M : Type} (P : Params B K) (incl : B -> B -> Prop) (ok : K -> Prop)
    (m_cmp : M -> M -> comparison) (r : Ranking B K M) : Prop :=
  forall b k, ok k -> incl b (key_bounds P k) -> m_cmp (bounds_min r b) (rank_key r k) <> Gt.

(** The same for rankings with an optional metric: [None] for bounds means that no key inside has a rank. *)
Definition opt_ranking_lawful {B K M : Type} (P : Params B K) (incl : B -> B -> Prop) (ok : K -> Prop)
    (m_cmp : M -> M -> comparison) (r : Ranking B K (option M)) : Prop :=
  forall b k m, ok k -> incl b (key_bounds P k) -> rank_key r k = Some m ->
  exists m', bounds_min r b = Some m' /\ m_cmp m' m <> Gt.

(** Ascending by a rank. *)
Definition ascending {A M : Type} (m_cmp : M -> M -> comparison) (rank : A -> M) (l : list A) : Prop :=
  ForallOrdPairs (fun x y => m_cmp (rank x) (rank y) <> Gt) l.
