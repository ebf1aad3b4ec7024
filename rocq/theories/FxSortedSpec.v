(** Specification vocabulary for ordered iterators whose rankings have effects: best-first search. *)
From Verif Require Export FxSpec FxSortedModel.

(** What happens during a search: the ranking is asked and answers ([None]: it panics; [Some None]: no rank; [Some (Some
    m)]: the rank [m]), or an entry is yielded. *)
Inductive event (B K V M : Type) : Type :=
| Asked (q : fquestion B K) (a : option (option M))
| Found (e : K * V).
Arguments Asked {B K V M} q a. Arguments Found {B K V M} e.

Section Best.
Context {B K V M : Type} (m_cmp : M -> M -> comparison).
Notation node := (node B K V).
Notation item := (item B K V).
Notation event := (event B K V M).

(** The question about a node or an entry. *)
Definition item_question (i : item) : fquestion B K :=
  match i with INode n => QBounds (node_bounds n) | IEntry e => QKey (fst e) end.
(** The children of a node. *)
Definition item_children (n : node) : list item :=
  match node_children n with CLeaf es => map IEntry es | CInner cs => map INode cs end.
(** The entries at or below. *)
Definition item_entries (i : item) : list (K * V) :=
  match i with INode n => entries n | IEntry e => [e] end.

(** Something waiting to be looked at: its rank, its level (entries 0, leaves 1, ...), what it is. *)
Notation waiting := ((M * nat) * item)%type.

(** [x] comes no later than [y]: by rank, then by level. *)
Definition no_later (x y : waiting) : Prop :=
  match m_cmp (fst (fst x)) (fst (fst y)) with
  | Lt => True
  | Eq => snd (fst x) <= snd (fst y)
  | Gt => False
  end.

(** [rank_all level l tr new lost]: ranking [l] in order until a panic, as told by [tr], gives the ranked [new] and does not
    get to [lost]. *)
Inductive rank_all (level : nat) : list item -> list event -> list waiting -> list item -> Prop :=
| ra_nil : rank_all level [] [] [] []
| ra_rank x m l tr new lost :
    rank_all level l tr new lost ->
    rank_all level (x :: l) (Asked (item_question x) (Some (Some m)) :: tr) (((m, level), x) :: new) lost
| ra_none x l tr new lost :
    rank_all level l tr new lost -> rank_all level (x :: l) (Asked (item_question x) (Some None) :: tr) new lost
| ra_panic x l : rank_all level (x :: l) [Asked (item_question x) None] [] (x :: l).

(** [best_first fr tr lost]: starting from the frontier [fr], [tr] is a course of a best-first search to its end: always
    take something that comes no later than all that waits, yield it if it is an entry, otherwise rank its children and add
    them to the frontier; [lost] are the entries below the children that a panic prevented from being ranked. *)
Inductive best_first : list waiting -> list event -> list (K * V) -> Prop :=
| bf_end : best_first [] [] []
| bf_found fr s e fr' tr lost :
    Permutation fr ((s, IEntry e) :: fr') -> Forall (no_later (s, IEntry e)) fr' ->
    best_first fr' tr lost -> best_first fr (Found e :: tr) lost
| bf_open fr m level n fr' tr1 new lost1 tr lost :
    Permutation fr (((m, S level), INode n) :: fr') -> Forall (no_later ((m, S level), INode n)) fr' ->
    rank_all level (item_children n) tr1 new lost1 ->
    best_first (new ++ fr') tr lost -> best_first fr (tr1 ++ tr) (flat_map item_entries lost1 ++ lost).

(** The frontier after the root was ranked [a]. *)
Definition start (a : option M) (t : rtree B K V) : list waiting :=
  match a with Some m => [((m, fst t + 1), INode (snd t))] | None => [] end.

Definition founds (tr : list event) : list (K * V) := flat_map (fun ev => match ev with Found e => [e] | _ => [] end) tr.
Definition asked (tr : list event) : list (fquestion B K) := flat_map (fun ev => match ev with Asked q _ => [q] | _ => [] end) tr.
(** The questions on which the ranking panicked. *)
Definition panicked_on (tr : list event) : list (fquestion B K) :=
  flat_map (fun ev => match ev with Asked q None => [q] | _ => [] end) tr.

(** A search cut short: the ranking panics on every question. *)
Definition cut_short (tr : list event) : Prop := Forall (fun ev => match ev with Asked _ a => a = None | Found _ => True end) tr.

(** All nodes of a tree. *)
Fixpoint nodes_of (n : node) : list node :=
  n :: match n with Node _ (CLeaf _) => [] | Node _ (CInner cs) => flat_map nodes_of cs end.
(** All questions below a node. *)
Definition questions_below (n : node) : list (fquestion B K) :=
  flat_map (fun x => map item_question (item_children x)) (nodes_of n).
End Best.

(** The ranking [f] that also writes down each question and answer. *)
Definition rlogged {W B K V M} (f : FxRanking W B K M) : FxRanking (W * list (event B K V M)) B K M := {|
  fxr_bounds := fun wl b => let (a, w) := fxr_bounds f (fst wl) b in (a, (w, snd wl ++ [Asked (QBounds b) a]));
  fxr_key := fun wl k => let (a, w) := fxr_key f (fst wl) k in (a, (w, snd wl ++ [Asked (QKey k) a])) |}.

(** [next], writing down what it yields. *)
Definition traced {W B K V M S} (next : S -> W * list (event B K V M) -> res (outcome (K * V) * S * (W * list (event B K V M))))
    (s : S) (wl : W * list (event B K V M)) : res (outcome (K * V) * S * (W * list (event B K V M))) :=
  let* (o, s, (w, tr)) := next s wl in
  Ok (o, s, (w, tr ++ match o with Yield e => [Found e] | _ => [] end)).

(** An answer that [f] gave in some state. *)
Definition r_answered {W B K V M} (f : FxRanking W B K M) (ev : event B K V M) : Prop :=
  match ev with
  | Asked (QBounds b) a => exists w, a = fst (fxr_bounds f w b)
  | Asked (QKey k) a => exists w, a = fst (fxr_key f w k)
  | Found _ => True
  end.

(** The ranking [f] answers as the pure ranking [r] would, unless it panics. *)
Definition ranks_as {W B K M} (f : FxRanking W B K M) (r : Ranking B K (option M)) : Prop :=
  (forall w b, fst (fxr_bounds f w b) = Some (bounds_min r b) \/ fst (fxr_bounds f w b) = None) /\
  (forall w k, fst (fxr_key f w k) = Some (rank_key r k) \/ fst (fxr_key f w k) = None).
