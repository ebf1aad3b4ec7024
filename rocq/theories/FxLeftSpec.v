(** Specification vocabulary for left joins whose callbacks have effects. *)
From Verif Require Export FxSpec FxLeftModel.

(** The callbacks a left join makes itself. *)
Inductive lquestion (B0 B1 K0 Q0 : Type) : Type :=
| LBounds (b0 : B0) (b1 : B1)
| LBorrow (k : K0)
| LClone
| LKeyBounds (q : Q0).
Arguments LBounds {B0 B1 K0 Q0} b0 b1. Arguments LBorrow {B0 B1 K0 Q0} k. Arguments LClone {B0 B1 K0 Q0}.
Arguments LKeyBounds {B0 B1 K0 Q0} q.

(** Did it come back? *)
Definition came_back {A} (o : option A) : option bool := match o with Some _ => Some true | None => None end.

(** The callbacks [f], each of which also writes down that it was made, and the answer ([None]: a panic). *)
Definition llogged {W F B0 B1 K0 Q0 Q1} (f : FxLeft W F B0 B1 K0 Q0 Q1)
  : FxLeft (W * list (lquestion B0 B1 K0 Q0 * option bool)) F B0 B1 K0 Q0 Q1 := {|
  fl_bounds := fun c wl b0 b1 => let (a, w) := fl_bounds f c (fst wl) b0 b1 in (a, (w, snd wl ++ [(LBounds b0 b1, a)]));
  fl_key := fun c wl q0 q1 => let (a, w) := fl_key f c (fst wl) q0 q1 in (a, (w, snd wl));
  fl_clone := fun c wl => let (a, w) := fl_clone f c (fst wl) in (a, (w, snd wl ++ [(LClone, came_back a)]));
  fl_borrow := fun wl k => let (a, w) := fl_borrow f (fst wl) k in (a, (w, snd wl ++ [(LBorrow k, came_back a)]));
  fl_qbounds := fun wl q => let (a, w) := fl_qbounds f (fst wl) q in (a, (w, snd wl ++ [(LKeyBounds q, came_back a)])) |}.

(** [n] is [root] or below it. *)
Inductive below_or_at {B K V} (root : node B K V) : node B K V -> Prop :=
| boa_root : below_or_at root root
| boa_child b cs c : below_or_at root (Node b (CInner cs)) -> In c cs -> below_or_at root c.

(** The left entries a callback was made for: a test of bounds is made for the entries below the left node; the others for
    one entry. *)
Inductive made_for {B0 B1 K0 V0 Q0} (root : node B0 K0 V0) : lquestion B0 B1 K0 Q0 -> list (K0 * V0) -> Prop :=
| mf_node n b1 : below_or_at root n -> made_for root (LBounds (node_bounds n) b1) (entries n)
| mf_borrow e : made_for root (LBorrow (fst e)) [e]
| mf_clone e : made_for root LClone [e]
| mf_bounds e q : made_for root (LKeyBounds q) [e].

(** [left_walk root todo os log rest]: a program whose calls of [next] had the outcomes [os] and made the callbacks [log]
    went through the left entries [todo] up to [rest], in order: a call that yields goes past the entry it yields; a
    call that unwinds goes past the entries for which the panicking callback was made; a call that returns [None] finds
    nothing left. *)
Inductive left_walk {B0 B1 K0 V0 Q0 I : Type} (root : node B0 K0 V0)
  : list (K0 * V0) -> list (outcome ((K0 * V0) * I)) -> list (lquestion B0 B1 K0 Q0 * option bool) -> list (K0 * V0) -> Prop :=
| lw_nil todo : left_walk root todo [] [] todo
| lw_yield e i todo os used log rest : panics used = 0 -> left_walk root todo os log rest ->
    left_walk root (e :: todo) (Yield (e, i) :: os) (used ++ log) rest
| lw_done os used log rest : panics used = 0 -> left_walk root [] os log rest ->
    left_walk root [] (Done :: os) (used ++ log) rest
| lw_panic q es todo os used log rest : panics used = 0 -> made_for root q es -> left_walk root todo os log rest ->
    left_walk root (es ++ todo) (Panicked :: os) (used ++ (q, None) :: log) rest.

(** [prune no l l']: [l'] is [l] without the entries of some nodes of which [no] holds. *)
Inductive prune {B K V : Type} (no : node B K V -> Prop) : list (K * V) -> list (K * V) -> Prop :=
| pr_refl l : prune no l l
| pr_drop a c b l : no c -> prune no (a ++ b) l -> prune no (a ++ entries c ++ b) l.

(** What a stack of iterators would go through without a filter, and what it asks a filter. *)
Definition stack_entries {B K V} (s : @tree_stack B K V) : list (K * V) :=
  flat_map (fun x => match x with SLeaf es => es | SInner cs => flat_map entries cs end) s.
Definition stack_search {B K V Q} (brw : K -> Q) (s : @tree_stack B K V) : list (search (fquestion B Q) (K * V)) :=
  flat_map (fun x => match x with
                     | SLeaf es => map (fun e => Hit (QKey (brw (fst e))) e) es
                     | SInner cs => map (tree_search brw) cs
                     end) s.

(** The callbacks answer, unless they panic, as the pure functions do; and the filter's clones do so too. *)
Definition lanswers_as {W F B0 B1 K0 Q0 Q1} (f : FxLeft W F B0 B1 K0 Q0 Q1) (flt : F) (brw0 : K0 -> Q0) (qb0 : Q0 -> B0)
    (tb : B0 -> B1 -> bool) (tk : Q0 -> Q1 -> bool) : Prop :=
  (forall w b0 b1, fst (fl_bounds f flt w b0 b1) = Some (tb b0 b1) \/ fst (fl_bounds f flt w b0 b1) = None) /\
  (forall w w2 c b0 b1, fst (fl_clone f flt w) = Some c -> fst (fl_bounds f c w2 b0 b1) = Some (tb b0 b1) \/ fst (fl_bounds f c w2 b0 b1) = None) /\
  (forall w w2 c q0 q1, fst (fl_clone f flt w) = Some c -> fst (fl_key f c w2 q0 q1) = Some (tk q0 q1) \/ fst (fl_key f c w2 q0 q1) = None) /\
  (forall w k, fst (fl_borrow f w k) = Some (brw0 k) \/ fst (fl_borrow f w k) = None) /\
  (forall w q, fst (fl_qbounds f w q) = Some (qb0 q) \/ fst (fl_qbounds f w q) = None).
