(** Specification vocabulary for ordered iterators whose metric has no order to speak of. *)
From Verif Require Export IterSpec FxSortedSpec HeapModel.

(** What [std] promises of a [BinaryHeap] even if [Ord] makes no sense ("encapsulated to the BinaryHeap that observed the
    logic error"): it hands out only what was pushed, each item once.  It may lose items. *)
Record encapsulated {W T : Type} (H : FxHeap W T) : Prop := {
  en_new : fh_items H (fh_new H) = [];
  en_push : forall w x h p h' w', fh_push H w x h = (p, h', w') -> multi_part (fh_items H h') (x :: fh_items H h);
  en_pop : forall w h a h' w', fh_pop H w h = (a, h', w') ->
    multi_part (match a with Some (Some x) => x :: fh_items H h' | _ => fh_items H h' end) (fh_items H h)
}.
(** What its code does moreover: it loses nothing unless a comparison panics, and it is empty if it says so. *)
Record lossless {W T : Type} (H : FxHeap W T) : Prop := {
  ll_push : forall w x h h' w', fh_push H w x h = (false, h', w') -> Permutation (fh_items H h') (x :: fh_items H h);
  ll_pop : forall w h x h' w', fh_pop H w h = (Some (Some x), h', w') -> Permutation (fh_items H h) (x :: fh_items H h');
  ll_empty : forall w h h' w', fh_pop H w h = (Some None, h', w') -> fh_items H h = []
}.

(** The heap, used by a program that keeps a log beside the state. *)
Definition hlogged {W T L} (H : FxHeap W T) : FxHeap (W * L) T := {|
  fheap := fheap H; fh_new := fh_new H;
  fh_push := fun wl x h => let '(p, h, w) := fh_push H (fst wl) x h in (p, h, (w, snd wl));
  fh_pop := fun wl h => let '(a, h, w) := fh_pop H (fst wl) h in (a, h, (w, snd wl));
  fh_items := fh_items H |}.

Section Any.
Context {B K V M : Type} (lossy : Prop).
Notation item := (item B K V).
Notation event := (event B K V M).
Notation waiting := ((M * nat) * item)%type.

(** [rank_some level l tr new lost]: as [rank_all]; if [lossy], ranking may also stop by itself. *)
Inductive rank_some (level : nat) : list item -> list event -> list waiting -> list item -> Prop :=
| rs_nil : rank_some level [] [] [] []
| rs_rank x m l tr new lost :
    rank_some level l tr new lost ->
    rank_some level (x :: l) (Asked (item_question x) (Some (Some m)) :: tr) (((m, level), x) :: new) lost
| rs_none x l tr new lost :
    rank_some level l tr new lost -> rank_some level (x :: l) (Asked (item_question x) (Some None) :: tr) new lost
| rs_panic x l : rank_some level (x :: l) [Asked (item_question x) None] [] (x :: l)
| rs_stop l : lossy -> rank_some level l [] [] l.

(** [any_first fr tr lost]: starting from the frontier [fr], [tr] is a course of a search to its end that takes what waits
    in any order: an entry is yielded, the children of a node are ranked and added to the frontier; if [lossy], what waits
    may get lost. *)
Inductive any_first : list waiting -> list event -> list (K * V) -> Prop :=
| af_end : any_first [] [] []
| af_found fr s e fr' tr lost :
    Permutation fr ((s, IEntry e) :: fr') -> any_first fr' tr lost -> any_first fr (Found e :: tr) lost
| af_open fr m level n fr' tr1 new lost1 tr lost :
    Permutation fr (((m, S level), INode n) :: fr') -> rank_some level (item_children n) tr1 new lost1 ->
    any_first (new ++ fr') tr lost -> any_first fr (tr1 ++ tr) (flat_map item_entries lost1 ++ lost)
| af_lose fr x fr' tr lost :
    lossy -> Permutation fr (x :: fr') -> any_first fr' tr lost -> any_first fr tr (item_entries (snd x) ++ lost).
End Any.

(** Every question was answered with a rank. *)
Definition all_ranked {B K V M} (tr : list (event B K V M)) : Prop :=
  Forall (fun ev => match ev with Asked _ (Some (Some _)) => True | Asked _ _ => False | Found _ => True end) tr.
