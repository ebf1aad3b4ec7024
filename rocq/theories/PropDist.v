(** Properties C35, C45: nearest-neighbour search.  Vocabulary: DistSpec.v. *)
From Verif Require Import SortedWitness DistProof PropSorted.
Local Open Scope Z_scope.

Lemma wf_ok_in {B K V} cfg (ok ok' : K -> Prop) rel lo strict level (n : node B K V) :
  wf cfg ok rel lo strict level n -> (forall k, In k (keys n) -> ok' k) -> wf cfg ok' rel lo strict level n.
Proof.
  revert n; induction level as [|l IH]; intros n Hw Hk; destruct (wf_inv _ _ _ _ _ _ _ Hw) as (b & x & ->).
  - rewrite wf_leaf in *. destruct Hw as (H1 & H2 & _). split; [exact H1|]. split; [exact H2|].
    apply Forall_forall. intros kv Hin. apply Hk. unfold keys. apply in_map, Hin.
  - rewrite wf_inner in *. destruct Hw as (H1 & H2 & H3). split; [exact H1|]. split; [exact H2|].
    rewrite Forall_forall in *. intros c Hc. destruct (H3 c Hc) as [H4 H5]. split; [|exact H5].
    apply IH; [exact H4|]. intros k Hin. apply Hk. rewrite keys_inner. apply in_flat_map. eauto.
Qed.

Section Points.
Context {N : Type} (S : ScalarOps N) (A : ArithOps N) (val : N -> Z) (lo hi : Z) (L : int_laws S A val lo hi).

Lemma euclid_points_lawful D VO (p : svec N (Datatypes.S D)) :
  ranking_lawful (point_params S VO) (box_incl S) (fun k => zdist2 val k p <= hi) (int_cmp val) (euclid_points S A p).
Proof.
  intros b k Hk [H1 H2]. cbn in H1, H2. unfold int_cmp, euclid_points. cbn [bounds_min rank_key].
  rewrite Z.compare_gt_iff. assert (Hq : in_box S b k) by (split; assumption).
  destruct (box_dist_least S A val lo hi L D b p k Hq Hk) as [_ Hl]. specialize (Hl k Hq).
  rewrite (point_dist_exact S A val lo hi L D k p Hk). lia.
Qed.

Lemma euclid_boxes_lawful D VO (p : svec N (Datatypes.S D)) :
  ranking_lawful (box_params S VO) (box_incl S) (fun k => exists q, in_box S k q /\ zdist2 val q p <= hi) (int_cmp val) (euclid_boxes S A p).
Proof.
  intros b k (q & Hq & Hhi) Hi. cbn in Hi. unfold int_cmp, euclid_boxes. cbn [bounds_min rank_key].
  rewrite Z.compare_gt_iff. assert (HL := int_scalar_laws S A val lo hi L).
  assert (Hsub : forall q, in_box S k q -> in_box S b q).
  { intros q' [H1 H2]. destruct Hi as [H3 H4]. split; eapply (vec_le_trans S HL); eassumption. }
  destruct (box_dist_least S A val lo hi L D b p q (Hsub q Hq) Hhi) as [_ H1].
  destruct (box_dist_least S A val lo hi L D k p q Hq Hhi) as [(q' & Hq' & <-) _]. specialize (H1 q' (Hsub _ Hq')). lia.
Qed.
End Points.

(** ** C35 nearest-neighbour search is exact *)

(** Integer points in any dimension; the query point is arbitrary.  Provided the squared distances from the query point to
    the keys in the tree fit the integer type, [iter_asc_by] yields the contents in ascending order of the true squared
    distance, whatever lawful heap is used, and [min_by] returns an entry at the least distance. *)
Theorem C35_nearest_points :
  forall (N V : Type) (S : ScalarOps N) (A : ArithOps N) (val : N -> Z) (lo hi : Z) (D : nat) (VO : VolumeOps (saabb N (Datatypes.S D)))
    (cfg : config) (PQ : PQueue (ranked (saabb N (Datatypes.S D)) (svec N (Datatypes.S D)) V N))
    (t : rtree (saabb N (Datatypes.S D)) (svec N (Datatypes.S D)) V) (p : svec N (Datatypes.S D)),
  int_laws S A val lo hi -> pqueue_laws (ranked_cmp (int_cmp val)) PQ ->
  reachable (point_params S VO) cfg any_key t ->
  (forall e, In e (contents t) -> zdist2 val (fst e) p <= hi) ->
  (exists l, iterates (asc_next PQ (euclid_points S A p)) (asc_new PQ (euclid_points S A p) t) l /\
     Permutation l (contents t) /\
     ForallOrdPairs (fun x y => zdist2 val (fst x) p <= zdist2 val (fst y) p) l) /\
  exists o, rtree_min_by PQ (euclid_points S A p) t = Ok o /\ (o = None <-> contents t = []) /\
    forall e, o = Some e -> In e (contents t) /\
      forall e', In e' (contents t) -> zdist2 val (fst e) p <= zdist2 val (fst e') p.
Proof.
  intros N V S A val lo hi D VO cfg PQ t p L QL Hr Hfit.
  assert (HL := int_scalar_laws S A val lo hi L).
  assert (Hw : wf cfg (fun k => zdist2 val k p <= hi) (rel_cover (point_params S VO) (box_incl S)) 0%nat False (fst t) (snd t)).
  { eapply wf_ok_in; [apply (inv_cover (point_params S VO) cfg any_key (box_incl S) t (box_bounds_laws S HL _) Hr)|]. intros k Hk.
    unfold keys in Hk. apply in_map_iff in Hk as (e & <- & He). exact (Hfit e He). }
  destruct (asc_wf _ _ _ _ _ _ PQ t _ _ (int_cmp_laws val) (euclid_points_lawful S A val lo hi L D VO p) QL Hw) as (l & H1 & H2 & H3).
  assert (Hasc : ForallOrdPairs (fun x y => zdist2 val (fst x) p <= zdist2 val (fst y) p) l).
  { assert (Hf : Forall (fun e => zdist2 val (fst e) p <= hi) l).
    { apply Forall_forall. intros e He. apply Hfit. now rewrite <- H2. }
    clear -H3 Hf L. induction H3 as [|x l Hx _ IH]; constructor; inversion Hf as [|? ? Hf1 Hf2]; subst; [|auto].
    rewrite Forall_forall in *. intros y Hy. specialize (Hx y Hy). specialize (Hf2 y Hy). unfold int_cmp in Hx. cbn [rank_key euclid_points] in Hx.
    rewrite Z.compare_gt_iff in Hx. rewrite !(point_dist_exact S A val lo hi L) in Hx by assumption. lia. }
  split; [exists l; auto|]. destruct (first_call _ _ _ H1) as (s' & E). exists (hd_error l). unfold rtree_min_by. rewrite E.
  split; [reflexivity|]. destruct l as [|x l]; cbn [hd_error].
  - apply Permutation_nil in H2. rewrite H2. split; [tauto|discriminate].
  - split; [split; [discriminate|]; intros E'; rewrite E' in H2; now apply Permutation_sym, Permutation_nil in H2|].
    intros e [= <-]. split; [rewrite <- H2; now left|]. intros e' He'. rewrite <- H2 in He'.
    inversion Hasc as [|? ? Hx _]; subst. destruct He' as [<-|He']; [lia|]. rewrite Forall_forall in Hx. auto.
Qed.
Print Assumptions C35_nearest_points.

(** The same for trees of (non-empty) boxes: ascending by the least distance from the query point to a point of the box. *)
Theorem C35_nearest_boxes :
  forall (N V : Type) (S : ScalarOps N) (A : ArithOps N) (val : N -> Z) (lo hi : Z) (D : nat) (VO : VolumeOps (saabb N (Datatypes.S D)))
    (cfg : config) (PQ : PQueue (ranked (saabb N (Datatypes.S D)) (saabb N (Datatypes.S D)) V N))
    (t : rtree (saabb N (Datatypes.S D)) (saabb N (Datatypes.S D)) V) (p : svec N (Datatypes.S D)),
  int_laws S A val lo hi -> pqueue_laws (ranked_cmp (int_cmp val)) PQ ->
  reachable (box_params S VO) cfg any_key t ->
  (forall e, In e (contents t) -> exists q, in_box S (fst e) q /\ zdist2 val q p <= hi) ->
  exists l, iterates (asc_next PQ (euclid_boxes S A p)) (asc_new PQ (euclid_boxes S A p) t) l /\
     Permutation l (contents t) /\
     ForallOrdPairs (fun x y => exists m m', least_dist2 S val (fst x) p m /\ least_dist2 S val (fst y) p m' /\ m <= m') l.
Proof.
  intros N V S A val lo hi D VO cfg PQ t p L QL Hr Hfit.
  assert (HL := int_scalar_laws S A val lo hi L).
  assert (Hw : wf cfg (fun k => exists q, in_box S k q /\ zdist2 val q p <= hi) (rel_cover (box_params S VO) (box_incl S)) 0%nat False (fst t) (snd t)).
  { eapply wf_ok_in; [apply (inv_cover (box_params S VO) cfg any_key (box_incl S) t (box_bounds_laws S HL _) Hr)|]. intros k Hk.
    unfold keys in Hk. apply in_map_iff in Hk as (e & <- & He). exact (Hfit e He). }
  destruct (asc_wf _ _ _ _ _ _ PQ t _ _ (int_cmp_laws val) (euclid_boxes_lawful S A val lo hi L D VO p) QL Hw) as (l & H1 & H2 & H3).
  exists l. split; [exact H1|]. split; [exact H2|].
  assert (Hf : Forall (fun e => exists q, in_box S (fst e) q /\ zdist2 val q p <= hi) l).
  { apply Forall_forall. intros e He. apply Hfit. now rewrite <- H2. }
  clear -H3 Hf L. induction H3 as [|x l Hx _ IH]; constructor; inversion Hf as [|? ? Hf1 Hf2]; subst; [|auto].
  rewrite Forall_forall in *. intros y Hy. specialize (Hx y Hy). specialize (Hf2 y Hy). unfold int_cmp in Hx. cbn [rank_key euclid_boxes] in Hx.
  rewrite Z.compare_gt_iff in Hx. destruct Hf1 as (q1 & Hq1 & Hh1), Hf2 as (q2 & Hq2 & Hh2).
  exists (val (box_dist_sq S A (fst x) p)), (val (box_dist_sq S A (fst y) p)).
  split; [eapply box_dist_least; eauto|]. split; [eapply box_dist_least; eauto|lia].
Qed.
Print Assumptions C35_nearest_boxes.

(** The distance to a box is the least distance to a point of the box (which exists and is unique). *)
Theorem C35_box_distance_is_minimum :
  forall (N : Type) (S : ScalarOps N) (A : ArithOps N) (val : N -> Z) (lo hi : Z) (D : nat) (b : saabb N (Datatypes.S D)) (p : svec N (Datatypes.S D)),
  int_laws S A val lo hi -> valid_box S b ->
  exists m, least_dist2 S val b p m /\ (m <= hi -> val (box_dist_sq S A b p) = m).
Proof.
  intros N S A val lo hi D b p L Hv. destruct (least_exists S A val lo hi L _ b p Hv) as (m & Hm). exists m. split; [exact Hm|].
  intros Hhi. destruct Hm as [(q & Hq & E) Hmin]. eapply least_unique; [eapply box_dist_least; [exact L|exact Hq|lia]|].
  split; [exists q; split; [exact Hq|exact E]|exact Hmin].
Qed.
Print Assumptions C35_box_distance_is_minimum.

(** [i32] is such an integer type; the sample tree and a query point far outside it. *)
Lemma i32_int_laws : int_laws i32_ops i32_arith i32_val (-2147483648) 2147483647.
Proof.
  assert (W : forall z, exists n, wrap32 z = z + n * (2147483647 - -2147483648 + 1)).
  { intros z. exists (- ((z + 2147483648) / 4294967296)). unfold wrap32.
    assert (H := Z.div_mod (z + 2147483648) 4294967296 ltac:(lia)). lia. }
  constructor.
  - apply i32_bounds.
  - lia.
  - reflexivity.
  - reflexivity.
  - cbn [s_min_value i32_ops]. rewrite i32_of_val. reflexivity.
  - cbn [s_max_value i32_ops]. rewrite i32_of_val. reflexivity.
  - intros a b. change (a_add i32_arith a b) with (i32_of (i32_val a + i32_val b)). rewrite i32_of_val. apply W.
  - intros a b. change (a_sub i32_arith a b) with (i32_of (i32_val a - i32_val b)). rewrite i32_of_val. apply W.
  - intros a b. change (a_mul i32_arith a b) with (i32_of (i32_val a * i32_val b)). rewrite i32_of_val. apply W.
Qed.

Example C35_example :
  int_laws i32_ops i32_arith i32_val (-2147483648) 2147483647 /\
  pqueue_laws (ranked_cmp (int_cmp i32_val)) (LQ (B := saabb i32 2) (K := svec i32 2) (V := nat)) /\
  reachable (point_params i32_ops (i32_volume_ops 2)) (cfg_of 4 2) any_key sample /\
  (forall e, In e (contents sample) -> zdist2 i32_val (fst e) (pt (-1000) 27) <= 2147483647) /\
  run_iter (asc_next LQ (euclid_points i32_ops i32_arith (pt (-1000) 27))) (Ok (asc_new LQ (euclid_points i32_ops i32_arith (pt (-1000) 27)) sample)) 24 =
    Ok (map Some [12; 1; 33; 14; 8; 29; 6; 5; 15; 11; 17; 10; 9; 2; 21; 22; 23; 27; 24; 25; 26; 28]%nat ++ [None; None]).
Proof.
  split; [exact i32_int_laws|]. split; [exact LQ_laws|]. split; [exact sample_reachable|].
  split.
  - assert (H : forallb (fun e => zdist2 i32_val (fst e) (pt (-1000) 27) <=? 2147483647) (contents sample) = true) by (vm_compute; reflexivity).
    rewrite forallb_forall in H. intros e He. apply Z.leb_le. exact (H e He).
  - vm_compute. reflexivity.
Qed.

(** ** C45 nearest-neighbour search in builds with overflow checks *)

Lemma i32_checked_laws : checked_laws i32_checked_ops i32_val (-2147483648) 2147483647.
Proof.
  assert (H : forall z, -2147483648 <= z <= 2147483647 -> exists c, i32_checked z = Ok c /\ i32_val c = z).
  { intros z Hz. unfold i32_checked. assert (E : i32_range z = true) by (apply andb_true_intro; split; apply Z.leb_le; lia).
    rewrite E. exists (i32_of z). split; [reflexivity|]. rewrite i32_of_val. unfold wrap32. rewrite Z.mod_small; lia. }
  constructor; intros a b Hab; apply (H _ Hab).
Qed.

Lemma node_at_root_or_below {B K V} (t : rtree B K V) i n : node_at t i n -> n = snd t /\ i = fst t \/ (i < fst t)%nat.
Proof. induction 1 as [|i b cs c Hat IH Hin]; [now left|]. right. destruct IH as [[_ E]|E]; lia. Qed.

(** On an empty tree of [i32] points the search computes the distance from the query point to the empty tree's root bounds
    (minimum and maximum swapped), which overflows: with overflow checks [iter_asc_by] and [min_by] panic. *)
Theorem C45_empty_tree_refuted :
  ~ (forall (cfg : config) (t : rtree (saabb i32 2) (svec i32 2) nat) (p : svec i32 2),
     reachable PP cfg any_key t ->
     (forall e, In e (contents t) -> zdist2 i32_val (fst e) p <= 2147483647) ->
     box_dist_sq_checked i32_ops i32_checked_ops (node_bounds (snd t)) p <> Panic).
Proof.
  intros H. apply (H (cfg_of 4 2) (rtree_new PP) (pt 0 0)); [constructor|intros e []|].
  apply is_panic_spec. vm_compute. reflexivity.
Qed.
Print Assumptions C45_empty_tree_refuted.

(** In a tree that is not empty, under any configuration with [min_children >= 1], and for a signed integer type: if the
    squared distances from the query point to the stored keys fit, then no distance the search can compute (to the bounds of
    a node or to a key) overflows, and each is the one the unchecked build computes. *)
Theorem C45_no_overflow_partial :
  forall (N V : Type) (S : ScalarOps N) (A : ArithOps N) (C : CheckedOps N) (val : N -> Z) (lo hi : Z) (D : nat)
    (VO : VolumeOps (saabb N (Datatypes.S D))) (cfg : config)
    (t : rtree (saabb N (Datatypes.S D)) (svec N (Datatypes.S D)) V) (p : svec N (Datatypes.S D)),
  int_laws S A val lo hi -> checked_laws C val lo hi -> lo <= - hi ->
  (1 <= min_children cfg)%nat -> reachable (point_params S VO) cfg any_key t -> contents t <> [] ->
  (forall e, In e (contents t) -> zdist2 val (fst e) p <= hi) ->
  (forall i n, node_at t i n -> exists r, box_dist_sq_checked S C (node_bounds n) p = Ok r /\
     val r = val (box_dist_sq S A (node_bounds n) p)) /\
  (forall e, In e (contents t) -> exists r, point_dist_sq_checked C (fst e) p = Ok r /\
     val r = val (point_dist_sq A (fst e) p)).
Proof.
  intros N V S A C val lo hi D VO cfg t p L CL Hs Hmin Hr Hne Hfit.
  assert (HL := int_scalar_laws S A val lo hi L).
  split.
  - intros i n Hat. assert (Hn := inv_nonempty (point_params S VO) cfg any_key t Hmin Hr).
    destruct (node_at_wf cfg any_key rel_any 1 True False t i n Hn Hat) as (Hw & Hle & Hf).
    assert (Hent : (1 <= length (entries n))%nat).
    { destruct (Nat.eq_dec i (fst t)) as [->|Hi].
      - destruct (node_at_root_or_below t (fst t) n Hat) as [[E _]|E].
        + subst n. unfold contents in Hne. destruct (entries (snd t)); [congruence|cbn; lia].
        + lia.
      - eapply (entries_nonempty cfg any_key rel_any 1 True); [exact Logic.I|lia|exact Hw|].
        specialize (Hf ltac:(lia) Logic.I). unfold lo_at in Hf. destruct i; lia. }
    destruct (entries n) as [|[k v] es] eqn:En; [cbn in Hent; lia|].
    assert (Hin : In (k, v) (entries n)) by (rewrite En; now left).
    assert (Hc := bvh_cover (point_params S VO) cfg any_key (box_incl S) t i n (box_bounds_laws S HL _) Hr Hat k v Hin).
    assert (Hq : in_box S (node_bounds n) k) by exact Hc.
    assert (Hk : zdist2 val k p <= hi) by (apply (Hfit (k, v)), (node_at_keys t i n Hat), Hin).
    destruct (box_dist_checked S A val lo hi L C CL Hs D (node_bounds n) p k Hq Hk) as (r & E & Hr').
    exists r. split; [exact E|]. eapply least_unique; [exact Hr'|]. eapply box_dist_least; eauto.
  - intros e He. destruct (point_dist_checked S A val lo hi L C CL Hs D (fst e) p (Hfit e He)) as (r & E & Er).
    exists r. split; [exact E|]. rewrite Er. symmetry. apply (point_dist_exact S A val lo hi L). exact (Hfit e He).
Qed.
Print Assumptions C45_no_overflow_partial.

Example C45_example :
  checked_laws i32_checked_ops i32_val (-2147483648) 2147483647 /\ reachable PP (cfg_of 4 2) any_key sample /\ contents sample <> [] /\ is_ok (box_dist_sq_checked i32_ops i32_checked_ops (node_bounds (snd sample)) (pt (-1000) 27)) = true.
Proof.
  split; [exact i32_checked_laws|]. split; [exact sample_reachable|]. split; [|vm_compute; reflexivity].
  intros E. destruct sample_height as [_ H]. rewrite E in H. discriminate.
Qed.
