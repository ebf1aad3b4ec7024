(** Property C61: the filter adaptors of filter.rs over any space.  Vocabulary: IterSpec.v. *)
From Verif Require Import Witness IterProof LeftJoinProof PropIter.

(** ** C61 queries through a filter adaptor yield exactly the entries that meet (or lie in) the space *)

(** [meets space k]: what [space.intersects(key)] or [space.contains(key)] answers.  A space is given by that answer, its answer
    for bounds and its own bounds.  The bounds test may err on one side only: *)
Definition space_prunes_safely {B K Q Sp : Type} (P : Params B K) (brw : K -> Q) (incl : B -> B -> Prop) (ok : K -> Prop)
    (with_bounds : Sp -> B -> bool) (meets : Sp -> Q -> bool) (space : Sp) : Prop :=
  forall b k, ok k -> meets space (brw k) = true -> incl b (key_bounds P k) -> with_bounds space b = true.
(** The bounds of the space intersect the bounds of every key the space meets. *)
Definition space_is_bounded {B K Q Sp : Type} (P : Params B K) (brw : K -> Q) (ok : K -> Prop)
    (space_bounds : Sp -> B) (meets : Sp -> Q -> bool) (space : Sp) : Prop :=
  forall k, ok k -> meets space (brw k) = true -> b_intersects (bops P) (space_bounds space) (key_bounds P k) = true.
(** [intersects] on bounds grows with the second bounds. *)
Definition intersects_grows {B : Type} (BO : BoundsOps B) (incl : B -> B -> Prop) : Prop :=
  forall a b c, incl b c -> b_intersects BO a c = true -> b_intersects BO a b = true.

(** [IntersectsFilter] and [ContainsFilter]: the space tests the bounds itself. *)
Theorem C61_intersects_contains_filters :
  forall (B K V Q Sp : Type) (P : Params B K) (cfg : config) (ok : K -> Prop) (incl : B -> B -> Prop) (brw : K -> Q)
    (with_bounds : Sp -> B -> bool) (meets : Sp -> Q -> bool) (space : Sp) (f : SpatialFilter B Q) (t : rtree B K V),
  bounds_laws (bops P) incl -> space_prunes_safely P brw incl ok with_bounds meets space -> reachable P cfg ok t ->
  f = intersects_filter with_bounds meets space \/ f = contains_filter with_bounds meets space ->
  exists s, rtree_filter_iter t f = Ok s /\
    iterates (iter_next_with brw f) s (filter (fun kv => meets space (brw (fst kv))) (contents t)).
Proof.
  intros * BL HS Hr Hf. destruct (C10_filter_iter_exact B K V Q P cfg ok incl brw f t BL) as (s & E & Hi); [|exact Hr|].
  - destruct Hf as [-> | ->]; exact HS.
  - exists s. split; [exact E|]. destruct Hf as [-> | ->]; exact Hi.
Qed.
Print Assumptions C61_intersects_contains_filters.

(** [BoundedIntersectsFilter] and [BoundedContainsFilter]: the bounds of the space are tested. *)
Theorem C61_bounded_filters :
  forall (B K V Q Sp : Type) (P : Params B K) (cfg : config) (ok : K -> Prop) (incl : B -> B -> Prop) (brw : K -> Q)
    (space_bounds : Sp -> B) (meets : Sp -> Q -> bool) (space : Sp) (f : SpatialFilter B Q) (t : rtree B K V),
  bounds_laws (bops P) incl -> intersects_grows (bops P) incl -> space_is_bounded P brw ok space_bounds meets space ->
  reachable P cfg ok t ->
  f = bounded_intersects_filter (bops P) space_bounds meets space \/ f = bounded_contains_filter (bops P) space_bounds meets space ->
  exists s, rtree_filter_iter t f = Ok s /\
    iterates (iter_next_with brw f) s (filter (fun kv => meets space (brw (fst kv))) (contents t)).
Proof.
  intros * BL HI HS Hr Hf. destruct (C10_filter_iter_exact B K V Q P cfg ok incl brw f t BL) as (s & E & Hi); [|exact Hr|].
  - assert (HL : forall b k, ok k -> meets space (brw k) = true -> incl b (key_bounds P k) -> b_intersects (bops P) (space_bounds space) b = true).
    { intros b k Hok Hm Hincl. exact (HI _ _ _ Hincl (HS k Hok Hm)). }
    destruct Hf as [-> | ->]; exact HL.
  - exists s. split; [exact E|]. destruct Hf as [-> | ->]; exact Hi.
Qed.
Print Assumptions C61_bounded_filters.

(** How the bounds are tested does not matter: two lawful filters that agree on the stored keys give iterators that yield the same
    entries in the same order. *)
Theorem C61_bounds_test_is_unobservable :
  forall (B K V Q : Type) (P : Params B K) (cfg : config) (ok : K -> Prop) (incl : B -> B -> Prop) (brw : K -> Q) (f g : SpatialFilter B Q) (t : rtree B K V),
  bounds_laws (bops P) incl -> filter_lawful P brw incl ok (test_bounds f) (test_key f) -> filter_lawful P brw incl ok (test_bounds g) (test_key g) ->
  reachable P cfg ok t -> (forall k v, In (k, v) (contents t) -> test_key f (brw k) = test_key g (brw k)) ->
  exists s s' l, rtree_filter_iter t f = Ok s /\ rtree_filter_iter t g = Ok s' /\
    iterates (iter_next_with brw f) s l /\ iterates (iter_next_with brw g) s' l.
Proof.
  intros * BL Hf Hg Hr Heq. destruct (C10_filter_iter_exact B K V Q P cfg ok incl brw f t BL Hf Hr) as (s & E & Hi).
  destruct (C10_filter_iter_exact B K V Q P cfg ok incl brw g t BL Hg Hr) as (s' & E' & Hi').
  exists s, s', (filter (fun kv => test_key f (brw (fst kv))) (contents t)). split; [exact E|]. split; [exact E'|]. split; [exact Hi|].
  rewrite (filter_ext_in _ (fun kv => test_key g (brw (fst kv)))); [exact Hi'|]. intros [k v] Hin. exact (Heq k v Hin).
Qed.
Print Assumptions C61_bounds_test_is_unobservable.

(** [intersects] of boxes grows. *)
Lemma box_intersects_grows {N : Type} (S : ScalarOps N) (D : nat) : order_laws S -> intersects_grows (box_bounds_ops S (D := D)) (box_incl S).
Proof.
  intros L a b c [H1 H2]. cbn. rewrite !(intersects_box_iff S). intros [G1 G2]. split; eapply (vec_le_trans S L); eassumption.
Qed.

(** A space of one's own: the points on the diagonal x = y of a box, with that box for bounds. *)
Definition diag_meets (b : saabb i32 2) (p : svec i32 2) : bool :=
  (nth 0 (coords p) 0 =? nth 1 (coords p) 0)%Z && box_intersects_point i32_ops b p.

Example C61_example :
  bounds_laws (bops PP) (box_incl i32_ops) /\ intersects_grows (bops PP) (box_incl i32_ops) /\
  space_is_bounded PP (fun k => k) any_key (fun b => b) diag_meets (bx 2 2 7 7) /\
  reachable PP (cfg_of 4 2) any_key sample /\
  run_iter (iter_next_with (fun k => k) (bounded_contains_filter (bops PP) (fun b => b) diag_meets (bx 2 2 7 7)))
    (rtree_filter_iter sample (bounded_contains_filter (bops PP) (fun b => b) diag_meets (bx 2 2 7 7))) 7 =
    Ok [Some 5; Some 11; Some 6; Some 17; Some 10; None; None].
Proof.
  split; [exact PP_bounds|]. split; [apply box_intersects_grows, i32_laws|]. split.
  - intros p _ H. unfold diag_meets in H. apply andb_prop in H as [_ H]. apply in_box_iff in H as [H1 H2].
    apply (intersects_box_iff i32_ops). split; assumption.
  - split; [exact sample_reachable|]. vm_compute. reflexivity.
Qed.
