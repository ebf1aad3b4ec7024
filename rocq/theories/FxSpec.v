(** Specification vocabulary for iterators whose callbacks have effects. *)
From Verif Require Export IterSpec FxModel.

(** ** Searches
    A search is a forest of questions: a [Hit] asks whether to yield [a], a [Group] asks whether to look below. *)
Inductive search (E A : Type) : Type :=
| Hit (q : E) (a : A)
| Group (q : E) (below : list (search E A)).
Arguments Hit {E A} q a. Arguments Group {E A} q below.

(** Everything that could be yielded. *)
Fixpoint hits {E A} (s : search E A) : list A :=
  match s with Hit _ a => [a] | Group _ below => flat_map hits below end.

(** Number of questions. *)
Fixpoint questions {E A} (s : search E A) : nat :=
  match s with Hit _ _ => 1 | Group _ below => 1 + list_sum (map questions below) end.

(** [explore todo log out missed]: searching [todo] in order, asking each question once and going below a group only when
    told so, the questions and answers can be [log]; then what is yielded is [out], and [missed] is what is at or below a
    question whose answer was a panic ([None]). *)
Inductive explore {E A : Type} : list (search E A) -> list (E * option bool) -> list A -> list A -> Prop :=
| ex_nil : explore [] [] [] []
| ex_yes q a todo log out missed :
    explore todo log out missed -> explore (Hit q a :: todo) ((q, Some true) :: log) (a :: out) missed
| ex_no q a todo log out missed :
    explore todo log out missed -> explore (Hit q a :: todo) ((q, Some false) :: log) out missed
| ex_panic q a todo log out missed :
    explore todo log out missed -> explore (Hit q a :: todo) ((q, None) :: log) out (a :: missed)
| ex_below q below todo log out missed :
    explore (below ++ todo) log out missed -> explore (Group q below :: todo) ((q, Some true) :: log) out missed
| ex_skip q below todo log out missed :
    explore todo log out missed -> explore (Group q below :: todo) ((q, Some false) :: log) out missed
| ex_group_panic q below todo log out missed :
    explore todo log out missed ->
    explore (Group q below :: todo) ((q, None) :: log) out (flat_map hits below ++ missed).

(** ** Sessions
    A program that holds an iterator: before each call of [next] it may do anything to the outside state ([W -> W]); it
    catches every panic. *)
Fixpoint session {W L S A : Type} (next : S -> W * L -> res (outcome A * S * (W * L))) (gs : list (W -> W)) (s : S)
    (w : W) (log : L) : res (list (outcome A) * S * W * L) :=
  match gs with
  | [] => Ok ([], s, w, log)
  | g :: gs =>
    let* (o, s, (w, log)) := next s (g w, log) in
    let* (os, s, w, log) := session next gs s w log in
    Ok (o :: os, s, w, log)
  end.

(** What was yielded. *)
Definition yields {A} (os : list (outcome A)) : list A :=
  flat_map (fun o => match o with Yield a => [a] | _ => [] end) os.
(** How many calls unwound, and how many answers were panics. *)
Definition unwound {A} (os : list (outcome A)) : nat :=
  length (filter (fun o => match o with Panicked => true | _ => false end) os).
Definition panics {E} (log : list (E * option bool)) : nat :=
  length (filter (fun e => match snd e with None => true | _ => false end) log).
(** Once [next] has answered [None], it does so for ever. *)
Definition fused {A} (os : list (outcome A)) : Prop :=
  exists os1 k, os = os1 ++ repeat Done k /\ ~ In Done os1.

(** ** Filters *)
Inductive fquestion (B Q : Type) : Type :=
| QBounds (b : B)
| QKey (q : Q).
Arguments QBounds {B Q} b. Arguments QKey {B Q} q.

(** The filter [f] that also writes down each question and answer. *)
Definition logged {W B Q} (f : FxFilter W B Q) : FxFilter (W * list (fquestion B Q * option bool)) B Q := {|
  fx_bounds := fun wl b => let (a, w) := fx_bounds f (fst wl) b in (a, (w, snd wl ++ [(QBounds b, a)]));
  fx_key := fun wl q => let (a, w) := fx_key f (fst wl) q in (a, (w, snd wl ++ [(QKey q, a)])) |}.

(** An answer that [f] gave in some state. *)
Definition f_answered {W B Q} (f : FxFilter W B Q) (e : fquestion B Q * option bool) : Prop :=
  exists w, snd e = fst (match fst e with QBounds b => fx_bounds f w b | QKey q => fx_key f w q end).

(** The search of a tree: look at a node's bounds, then below it. *)
Fixpoint tree_search {B K V Q} (brw : K -> Q) (n : node B K V) : search (fquestion B Q) (K * V) :=
  match n with
  | Node b (CLeaf es) => Group (QBounds b) (map (fun e => Hit (QKey (brw (fst e))) e) es)
  | Node b (CInner cs) => Group (QBounds b) (map (tree_search brw) cs)
  end.

(** Number of nodes. *)
Fixpoint node_count {B K V} (n : node B K V) : nat :=
  match n with
  | Node _ (CLeaf _) => 1
  | Node _ (CInner cs) => 1 + list_sum (map node_count cs)
  end.

(** The filter [f] answers as the pure filter with tests [tb] and [tk] would, unless it panics. *)
Definition answers_as {W B Q} (f : FxFilter W B Q) (tb : B -> bool) (tk : Q -> bool) : Prop :=
  (forall w b, fst (fx_bounds f w b) = Some (tb b) \/ fst (fx_bounds f w b) = None) /\
  (forall w q, fst (fx_key f w q) = Some (tk q) \/ fst (fx_key f w q) = None).

(** ** Join filters *)
Inductive jquestion (B0 B1 Q0 Q1 : Type) : Type :=
| QBounds2 (b0 : B0) (b1 : B1)
| QKey2 (q0 : Q0) (q1 : Q1).
Arguments QBounds2 {B0 B1 Q0 Q1} b0 b1. Arguments QKey2 {B0 B1 Q0 Q1} q0 q1.

Definition jlogged {W B0 B1 Q0 Q1} (f : FxJoinFilter W B0 B1 Q0 Q1)
  : FxJoinFilter (W * list (jquestion B0 B1 Q0 Q1 * option bool)) B0 B1 Q0 Q1 := {|
  fxj_bounds := fun wl b0 b1 => let (a, w) := fxj_bounds f (fst wl) b0 b1 in (a, (w, snd wl ++ [(QBounds2 b0 b1, a)]));
  fxj_key := fun wl q0 q1 => let (a, w) := fxj_key f (fst wl) q0 q1 in (a, (w, snd wl ++ [(QKey2 q0 q1, a)])) |}.

(** An answer that [f] gave in some state. *)
Definition j_answered {W B0 B1 Q0 Q1} (f : FxJoinFilter W B0 B1 Q0 Q1) (e : jquestion B0 B1 Q0 Q1 * option bool) : Prop :=
  exists w, snd e = fst (match fst e with QBounds2 b0 b1 => fxj_bounds f w b0 b1 | QKey2 q0 q1 => fxj_key f w q0 q1 end).

(** All pairs, the left component changing fastest. *)
Definition all_pairs {T0 T1} (l0 : list T0) (l1 : list T1) : list (T0 * T1) :=
  flat_map (fun y => map (fun x => (x, y)) l0) l1.

(** A node's children, or the node itself if it is a leaf. *)
Definition below_or_self {B K V} (n : node B K V) : list (node B K V) :=
  match n with Node _ (CInner cs) => cs | Node b (CLeaf es) => [Node b (CLeaf es)] end.

(** The search of two trees at once, of which the taller has height [h]: look at the bounds of a pair of nodes, then at
    the pairs of their children; a leaf waits until the other side is a leaf too. *)
Fixpoint pair_search {B0 B1 K0 K1 V0 V1 Q0 Q1} (brw0 : K0 -> Q0) (brw1 : K1 -> Q1) (h : nat)
    (n0 : node B0 K0 V0) (n1 : node B1 K1 V1) : search (jquestion B0 B1 Q0 Q1) ((K0 * V0) * (K1 * V1)) :=
  Group (QBounds2 (node_bounds n0) (node_bounds n1))
    (match node_children n0, node_children n1, h with
     | CLeaf es0, CLeaf es1, _ =>
       map (fun p => Hit (QKey2 (brw0 (fst (fst p))) (brw1 (fst (snd p)))) p) (all_pairs es0 es1)
     | _, _, 0 => []
     | _, _, S h => map (fun p => pair_search brw0 brw1 h (fst p) (snd p)) (all_pairs (below_or_self n0) (below_or_self n1))
     end).

(** The join filter [f] answers as the pure filter with tests [tb] and [tk] would, unless it panics. *)
Definition janswers_as {W B0 B1 Q0 Q1} (f : FxJoinFilter W B0 B1 Q0 Q1) (tb : B0 -> B1 -> bool) (tk : Q0 -> Q1 -> bool) : Prop :=
  (forall w b0 b1, fst (fxj_bounds f w b0 b1) = Some (tb b0 b1) \/ fst (fxj_bounds f w b0 b1) = None) /\
  (forall w q0 q1, fst (fxj_key f w q0 q1) = Some (tk q0 q1) \/ fst (fxj_key f w q0 q1) = None).
