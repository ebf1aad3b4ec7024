(** Properties C57 and C58: coordinates that are floating-point numbers ([N64], [N32]).  Vocabulary: FpSpec.v. *)
From Coq Require Import Floats.SpecFloat.
From Verif Require Import Witness FpProof IterProof PropCore PropIter.

(** ** C57 lookups and queries are exact for floating-point coordinates, infinities and -0 included *)

(** The comparisons of the coordinates are those of the numbers they stand for. *)
Theorem C57_comparisons :
  forall (p e : Z) (a b : nf p e),
  (s_le (nf_ops p e) a b = true <-> x_le (nf_value a) (nf_value b)) /\
  (s_eqb (nf_ops p e) a b = true <-> nf_value a = nf_value b).
Proof. intros. split; [apply nf_le|apply nf_eq]. Qed.
Print Assumptions C57_comparisons.

(** [get] on a tree of points: the first entry at the same point. *)
Theorem C57_get_point :
  forall (p e : Z) (D : nat) (VO : VolumeOps (saabb (nf p e) D)) (V : Type) (cfg : config)
    (t : rtree (saabb (nf p e) D) (svec (nf p e) D) V) (q : svec (nf p e) D),
  reachable (point_params (nf_ops p e) VO) cfg any_key t ->
  (rtree_get (point_params (nf_ops p e) VO) (self_borrow (point_params (nf_ops p e) VO)) t q = Ok None <->
     forall k v, In (k, v) (contents t) -> ~ same_point k q) /\
  forall v, rtree_get (point_params (nf_ops p e) VO) (self_borrow (point_params (nf_ops p e) VO)) t q = Ok (Some v) <->
     exists l1 k l2, contents t = l1 ++ (k, v) :: l2 /\ same_point k q /\
       forall k' v', In (k', v') l1 -> ~ same_point k' q.
Proof.
  intros * Hr. assert (L := nf_order p e).
  destruct (C02_get_none_iff _ _ _ _ (point_params (nf_ops p e) VO) cfg any_key (box_incl (nf_ops p e)) (self_borrow (point_params (nf_ops p e) VO)) t q (box_bounds_laws _ L D) (point_lookup_laws _ L D VO) Hr) as [H1 H2].
  cbn [self_borrow q_eq borrow point_params key_eq] in H1, H2.
  assert (F : forall k, vec_eqb (nf_ops p e) k q = false <-> ~ same_point k q).
  { intros k. rewrite <- vec_eqb_same. now destruct (vec_eqb (nf_ops p e) k q). }
  split; [rewrite H1|intros v; rewrite H2]; split.
  - intros H k v Hin. apply F. eauto.
  - intros H k v Hin. apply F. eauto.
  - intros (l1 & k & l2 & E & Hk & Hl). exists l1, k, l2. split; [exact E|]. split; [now apply vec_eqb_same|].
    intros k' v' Hin. apply F. eauto.
  - intros (l1 & k & l2 & E & Hk & Hl). exists l1, k, l2. split; [exact E|]. split; [now apply vec_eqb_same|].
    intros k' v' Hin. apply F. eauto.
Qed.
Print Assumptions C57_get_point.

(** [get] on a tree of boxes with [min <= max]. *)
Theorem C57_get_box :
  forall (p e : Z) (D : nat) (VO : VolumeOps (saabb (nf p e) D)) (V : Type) (cfg : config)
    (t : rtree (saabb (nf p e) D) (saabb (nf p e) D) V) (q : saabb (nf p e) D),
  reachable (box_params (nf_ops p e) VO) cfg x_valid t ->
  (rtree_get (box_params (nf_ops p e) VO) (self_borrow (box_params (nf_ops p e) VO)) t q = Ok None <->
     forall k v, In (k, v) (contents t) -> ~ same_box k q) /\
  forall v, rtree_get (box_params (nf_ops p e) VO) (self_borrow (box_params (nf_ops p e) VO)) t q = Ok (Some v) <->
     exists l1 k l2, contents t = l1 ++ (k, v) :: l2 /\ same_box k q /\
       forall k' v', In (k', v') l1 -> ~ same_box k' q.
Proof.
  intros * Hr. assert (L := nf_order p e).
  apply (reachable_weaken _ _ _ (valid_box (nf_ops p e)) t (fun k => proj2 (valid_x p e D k))) in Hr.
  destruct (C02_get_none_iff _ _ _ _ (box_params (nf_ops p e) VO) cfg _ (box_incl (nf_ops p e)) (self_borrow (box_params (nf_ops p e) VO)) t q (box_bounds_laws _ L D) (box_lookup_laws _ L D VO) Hr) as [H1 H2].
  cbn [self_borrow q_eq borrow box_params key_eq] in H1, H2.
  assert (F : forall k, box_eqb (nf_ops p e) k q = false <-> ~ same_box k q).
  { intros k. rewrite <- box_eqb_same. now destruct (box_eqb (nf_ops p e) k q). }
  split; [rewrite H1|intros v; rewrite H2]; split.
  - intros H k v Hin. apply F. eauto.
  - intros H k v Hin. apply F. eauto.
  - intros (l1 & k & l2 & E & Hk & Hl). exists l1, k, l2. split; [exact E|]. split; [now apply box_eqb_same|].
    intros k' v' Hin. apply F. eauto.
  - intros (l1 & k & l2 & E & Hk & Hl). exists l1, k, l2. split; [exact E|]. split; [now apply box_eqb_same|].
    intros k' v' Hin. apply F. eauto.
Qed.
Print Assumptions C57_get_box.

(** [remove] takes one entry at the same point, if there is one. *)
Theorem C57_remove_point :
  forall (p e : Z) (D : nat) (VO : VolumeOps (saabb (nf p e) D)) (V : Type) (cfg : config)
    (t t' : rtree (saabb (nf p e) D) (svec (nf p e) D) V) (q : svec (nf p e) D) (o : option V),
  reachable (point_params (nf_ops p e) VO) cfg any_key t ->
  rtree_remove (point_params (nf_ops p e) VO) cfg (self_borrow (point_params (nf_ops p e) VO)) t q = Ok (o, t') ->
  match o with
  | None => t' = t /\ forall k v, In (k, v) (contents t) -> ~ same_point k q
  | Some v => exists k, same_point k q /\ Permutation (contents t) ((k, v) :: contents t')
  end.
Proof.
  intros * Hr E. assert (L := nf_order p e).
  destruct (C03_remove_one _ _ _ _ (point_params (nf_ops p e) VO) cfg any_key (box_incl (nf_ops p e)) (self_borrow (point_params (nf_ops p e) VO)) t t' q o (box_bounds_laws _ L D) (point_lookup_laws _ L D VO) Hr E) as [H1 H2].
  cbn [self_borrow q_eq borrow point_params key_eq] in H1, H2. destruct o as [v|].
  - destruct H2 as (k & Hk & Hp). exists k. split; [now apply vec_eqb_same|exact Hp].
  - split; [exact H2|]. intros k v Hin Hk. apply vec_eqb_same in Hk. now apply (proj2 H1); eauto.
Qed.
Print Assumptions C57_remove_point.

(** [insert_unique] replaces the value of the first entry at the same point, or inserts. *)
Theorem C57_insert_unique_point :
  forall (p e : Z) (D : nat) (VO : VolumeOps (saabb (nf p e) D)) (V : Type) (cfg : config)
    (t t' : rtree (saabb (nf p e) D) (svec (nf p e) D) V) (q : svec (nf p e) D) (v : V) (o : option V),
  reachable (point_params (nf_ops p e) VO) cfg any_key t ->
  rtree_insert_unique (point_params (nf_ops p e) VO) cfg t q v = Ok (o, t') ->
  match o with
  | None => (forall k v, In (k, v) (contents t) -> ~ same_point k q) /\ Permutation (contents t') ((q, v) :: contents t)
  | Some old => exists l1 k l2, contents t = l1 ++ (k, old) :: l2 /\ same_point k q /\
      (forall k' v', In (k', v') l1 -> ~ same_point k' q) /\ contents t' = l1 ++ (k, v) :: l2
  end.
Proof.
  intros * Hr E. assert (L := nf_order p e).
  assert (H := C05_insert_unique _ _ _ (point_params (nf_ops p e) VO) cfg any_key (box_incl (nf_ops p e)) t t' q v o (box_bounds_laws _ L D) (point_lookup_laws _ L D VO) Hr I E).
  cbn [point_params key_eq] in H.
  assert (F : forall k, vec_eqb (nf_ops p e) k q = false -> ~ same_point k q).
  { intros k. rewrite <- vec_eqb_same. now destruct (vec_eqb (nf_ops p e) k q). }
  destruct o as [old|].
  - destruct H as (_ & l1 & k & l2 & E1 & Hk & Hl & E2). exists l1, k, l2. split; [exact E1|].
    split; [now apply vec_eqb_same|]. split; [|exact E2]. intros k' v' Hin. eapply F, Hl, Hin.
  - destruct H as [H1 H2]. split; [|exact H2]. intros k v0 Hin. eapply F, H1, Hin.
Qed.
Print Assumptions C57_insert_unique_point.

(** [remove] takes one entry with the same box, if there is one. *)
Theorem C57_remove_box :
  forall (p e : Z) (D : nat) (VO : VolumeOps (saabb (nf p e) D)) (V : Type) (cfg : config)
    (t t' : rtree (saabb (nf p e) D) (saabb (nf p e) D) V) (q : saabb (nf p e) D) (o : option V),
  reachable (box_params (nf_ops p e) VO) cfg x_valid t ->
  rtree_remove (box_params (nf_ops p e) VO) cfg (self_borrow (box_params (nf_ops p e) VO)) t q = Ok (o, t') ->
  match o with
  | None => t' = t /\ forall k v, In (k, v) (contents t) -> ~ same_box k q
  | Some v => exists k, same_box k q /\ Permutation (contents t) ((k, v) :: contents t')
  end.
Proof.
  intros * Hr E. assert (L := nf_order p e).
  apply (reachable_weaken _ _ _ (valid_box (nf_ops p e)) t (fun k => proj2 (valid_x p e D k))) in Hr.
  destruct (C03_remove_one _ _ _ _ (box_params (nf_ops p e) VO) cfg (valid_box (nf_ops p e)) (box_incl (nf_ops p e)) (self_borrow (box_params (nf_ops p e) VO)) t t' q o (box_bounds_laws _ L D) (box_lookup_laws _ L D VO) Hr E) as [H1 H2].
  cbn [self_borrow q_eq borrow box_params key_eq] in H1, H2. destruct o as [v|].
  - destruct H2 as (k & Hk & Hp). exists k. split; [now apply box_eqb_same|exact Hp].
  - split; [exact H2|]. intros k v Hin Hk. apply box_eqb_same in Hk. now apply (proj2 H1); eauto.
Qed.
Print Assumptions C57_remove_box.

(** [insert_unique] replaces the value of the first entry with the same box, or inserts. *)
Theorem C57_insert_unique_box :
  forall (p e : Z) (D : nat) (VO : VolumeOps (saabb (nf p e) D)) (V : Type) (cfg : config)
    (t t' : rtree (saabb (nf p e) D) (saabb (nf p e) D) V) (q : saabb (nf p e) D) (v : V) (o : option V),
  reachable (box_params (nf_ops p e) VO) cfg x_valid t -> x_valid q ->
  rtree_insert_unique (box_params (nf_ops p e) VO) cfg t q v = Ok (o, t') ->
  match o with
  | None => (forall k v, In (k, v) (contents t) -> ~ same_box k q) /\ Permutation (contents t') ((q, v) :: contents t)
  | Some old => exists l1 k l2, contents t = l1 ++ (k, old) :: l2 /\ same_box k q /\
      (forall k' v', In (k', v') l1 -> ~ same_box k' q) /\ contents t' = l1 ++ (k, v) :: l2
  end.
Proof.
  intros * Hr Hq E. assert (L := nf_order p e).
  apply (reachable_weaken _ _ _ (valid_box (nf_ops p e)) t (fun k => proj2 (valid_x p e D k))) in Hr.
  apply (valid_x p e) in Hq.
  assert (H := C05_insert_unique _ _ _ (box_params (nf_ops p e) VO) cfg (valid_box (nf_ops p e)) (box_incl (nf_ops p e)) t t' q v o (box_bounds_laws _ L D) (box_lookup_laws _ L D VO) Hr Hq E).
  cbn [box_params key_eq] in H.
  assert (F : forall k, box_eqb (nf_ops p e) k q = false -> ~ same_box k q).
  { intros k. rewrite <- box_eqb_same. now destruct (box_eqb (nf_ops p e) k q). }
  destruct o as [old|].
  - destruct H as (_ & l1 & k & l2 & E1 & Hk & Hl & E2). exists l1, k, l2. split; [exact E1|].
    split; [now apply box_eqb_same|]. split; [|exact E2]. intros k' v' Hin. eapply F, Hl, Hin.
  - destruct H as [H1 H2]. split; [|exact H2]. intros k v0 Hin. eapply F, H1, Hin.
Qed.
Print Assumptions C57_insert_unique_box.

(** Box queries over points and over boxes yield exactly the entries that geometry says. *)
Theorem C57_query_points :
  forall (p e : Z) (D : nat) (VO : VolumeOps (saabb (nf p e) D)) (V : Type) (cfg : config)
    (t : rtree (saabb (nf p e) D) (svec (nf p e) D) V) (q : saabb (nf p e) D) (f : SpatialFilter (saabb (nf p e) D) (svec (nf p e) D)),
  reachable (point_params (nf_ops p e) VO) cfg any_key t ->
  f = intersects_filter (box_intersects_box (nf_ops p e)) (box_intersects_point (nf_ops p e)) q \/
  f = bounded_intersects_filter (box_bounds_ops (nf_ops p e)) (fun b => b) (box_intersects_point (nf_ops p e)) q ->
  exists s l, rtree_filter_iter t f = Ok s /\ iterates (iter_next_with (fun k => k) f) s l /\
    exactly (fun kv => x_in_box q (fst kv)) l (contents t).
Proof.
  intros * Hr Hf. destruct (C33_point_query _ _ D VO V cfg t q f (nf_order p e) Hr Hf) as (s & l & E & Hi & g & -> & Hg).
  exists s, (filter g (contents t)). split; [exact E|]. split; [exact Hi|]. exists g. split; [reflexivity|].
  intros kv Hin. rewrite (Hg kv Hin). apply in_box_x.
Qed.
Print Assumptions C57_query_points.

Theorem C57_query_boxes :
  forall (p e : Z) (D : nat) (VO : VolumeOps (saabb (nf p e) D)) (V : Type) (cfg : config)
    (t : rtree (saabb (nf p e) D) (saabb (nf p e) D) V) (q : saabb (nf p e) D) (f : SpatialFilter (saabb (nf p e) D) (saabb (nf p e) D)),
  reachable (box_params (nf_ops p e) VO) cfg x_valid t -> x_valid q ->
  f = intersects_filter (box_intersects_box (nf_ops p e)) (box_intersects_box (nf_ops p e)) q \/
  f = bounded_intersects_filter (box_bounds_ops (nf_ops p e)) (fun b => b) (box_intersects_box (nf_ops p e)) q ->
  exists s l, rtree_filter_iter t f = Ok s /\ iterates (iter_next_with (fun k => k) f) s l /\
    exactly (fun kv => exists x, x_in_box q x /\ x_in_box (fst kv) x) l (contents t).
Proof.
  intros * Hr Hq Hf.
  apply (reachable_weaken _ _ _ (valid_box (nf_ops p e)) t (fun k => proj2 (valid_x p e D k))) in Hr.
  apply (valid_x p e) in Hq.
  destruct (C33_box_query _ _ D VO V cfg t q f (nf_order p e) Hr Hq Hf) as (s & l & E & Hi & g & -> & Hg).
  exists s, (filter g (contents t)). split; [exact E|]. split; [exact Hi|]. exists g. split; [reflexivity|].
  intros kv Hin. rewrite (Hg kv Hin). split; intros (x & H1 & H2); exists x; split; apply in_box_x; assumption.
Qed.
Print Assumptions C57_query_boxes.

(** Examples with doubles: 0 and -0, infinities, a number that is not representable. *)
Definition fz (z : Z) : n64 := nf_of 53 1024 (f64_of_Z z).
Definition fneg0 : n64 := nf_of 53 1024 (S754_zero true).
Definition finf (s : bool) : n64 := nf_of 53 1024 (S754_infinity s).
Definition ftenth : n64 := nf_of 53 1024 (f64_div (f64_of_Z 1) (f64_of_Z 10)).
Definition fp (x y : n64) : svec n64 2 := (x, (y, tt)).
Definition PF : Params (saabb n64 2) (svec n64 2) := nf_point_params 53 1024 2.
Definition fp_ops : list (op (svec n64 2) nat) :=
  map (fun i => OInsert (fp (fz (Z.of_nat i * 7 mod 5)) (fz (Z.of_nat i * 5 mod 7))) i) (seq 1 9) ++
  [OInsert (fp fneg0 ftenth) 10; OInsert (fp (finf false) (fz 3)) 11; OInsert (fp (finf true) (finf false)) 12;
   OInsert (fp ftenth ftenth) 13].
Definition fp_sample : rtree (saabb n64 2) (svec n64 2) nat := final PF (cfg_of 4 2) fp_ops.
Lemma fp_sample_reachable : reachable PF (cfg_of 4 2) any_key fp_sample.
Proof. apply final_reachable_any. Qed.

Example C57_example :
  reachable PF (cfg_of 4 2) any_key fp_sample /\ length (contents fp_sample) = 13 /\ fst fp_sample = 1 /\
  same_point (fp (fz 0) ftenth) (fp fneg0 ftenth) /\
  rtree_get PF (self_borrow PF) fp_sample (fp (fz 0) ftenth) = Ok (Some 10) /\
  rtree_get PF (self_borrow PF) fp_sample (fp (finf false) (fz 3)) = Ok (Some 11) /\
  rtree_get PF (self_borrow PF) fp_sample (fp (finf true) (fz 3)) = Ok None.
Proof.
  split; [exact fp_sample_reachable|]. split; [vm_compute; reflexivity|]. split; [vm_compute; reflexivity|].
  split; [apply vec_eqb_same; vm_compute; reflexivity|]. split; [|split]; vm_compute; reflexivity.
Qed.

(** ** C58 node bounds are the least boxes: false with infinite coordinates *)
Definition finf_tree (n : nat) : rtree (saabb n64 1) (svec n64 1) nat :=
  final (nf_point_params 53 1024 1) (cfg_of 4 2) (map (fun i => OInsert ((finf false, tt) : svec n64 1) i) (seq 0 n)).

(** A tree with one point at infinity: its bounds are not the least box around the point. *)
Theorem C58_infinite_least_refuted :
  exists (t : rtree (saabb n64 1) (svec n64 1) nat) (c : saabb n64 1),
  reachable (nf_point_params 53 1024 1) (cfg_of 4 2) any_key t /\ contents t <> [] /\
  (forall k v, In (k, v) (contents t) -> x_in_box c k) /\ ~ x_incl c (node_bounds (snd t)).
Proof.
  exists (finf_tree 1), (point_bounds ((finf false, tt) : svec n64 1)). split; [apply final_reachable_any|].
  split; [intros E; apply (f_equal (@length _)) in E; vm_compute in E; discriminate|]. split.
  - intros k v Hin. apply in_box_x.
    assert (E : forallb (fun kv => box_intersects_point (nf_ops 53 1024) (point_bounds ((finf false, tt) : svec n64 1)) (fst kv)) (contents (finf_tree 1)) = true)
      by (vm_compute; reflexivity).
    rewrite forallb_forall in E. apply E in Hin. apply in_box_iff in Hin. exact Hin.
  - intros [H _]. apply (vec_le_xle 53 1024), all_le_spec in H. vm_compute in H. discriminate.
Qed.
Print Assumptions C58_infinite_least_refuted.

(** Five points at infinity: the crate's own check of the bounds ([_debug_assert_bvh]) panics on the tree. *)
Theorem C58_infinite_check_refuted :
  exists (t : rtree (saabb n64 1) (svec n64 1) nat),
  supported (cfg_of 4 2) /\ reachable (nf_point_params 53 1024 1) (cfg_of 4 2) any_key t /\
  rtree_debug_assert_bvh (nf_point_params 53 1024 1) (box_eqb (nf_ops 53 1024)) t = Panic.
Proof.
  exists (finf_tree 5). split; [exact supported42|]. split; [apply final_reachable_any|].
  apply is_panic_spec. vm_compute. reflexivity.
Qed.
Print Assumptions C58_infinite_check_refuted.

(** What holds: with finite coordinates the bounds of every node with an entry are the least box that includes the entries
    below it, and the check passes; for trees of points ... *)
Theorem C58_finite_points_partial :
  forall (p e : Z) (D : nat) (VO : VolumeOps (saabb (nf p e) D)) (V : Type) (cfg : config)
    (t : rtree (saabb (nf p e) D) (svec (nf p e) D) V),
  fp_format p e -> reachable (point_params (nf_ops p e) VO) cfg finite_point t ->
  (forall i n, node_at t i n -> entries n <> [] ->
     (forall k v, In (k, v) (entries n) -> x_in_box (node_bounds n) k) /\
     forall c, (forall k v, In (k, v) (entries n) -> x_in_box c k) -> x_incl c (node_bounds n)) /\
  exists b, rtree_debug_assert_bvh (point_params (nf_ops p e) VO) (box_eqb (nf_ops p e)) t = Ok b.
Proof.
  intros * Hf Hr. assert (L := nf_order p e).
  assert (Hok : forall k : svec (nf p e) D, finite_point k -> box_incl (nf_ops p e) (point_bounds k) (box_empty (nf_ops p e))).
  { intros k Hk. apply (finite_incl_empty p e Hf). split; exact Hk. }
  assert (Hkeq : forall k k' : svec (nf p e) D, vec_eqb (nf_ops p e) k' k = true ->
            box_incl (nf_ops p e) (point_bounds k') (point_bounds k)).
  { intros k k' H. apply (vec_eqb_spec _ L) in H as [H1 H2]. split; assumption. }
  change (point_params (nf_ops p e) VO) with (lparams (nf_ops p e) VO point_bounds (vec_eqb (nf_ops p e))) in Hr.
  split; [|exact (least_debug_tree (nf_ops p e) L VO _ _ _ Hok Hkeq cfg t Hr)].
  intros i n Hat Hne. destruct (least_bvh (nf_ops p e) L VO _ _ _ Hok Hkeq cfg t i n Hr Hat) as [(H1 & H2 & H3) _].
  split.
  - intros k v Hin. apply in_box_x. exact (H2 k (in_map fst _ _ Hin)).
  - intros c Hc. assert (HI : box_incl (nf_ops p e) c (node_bounds n)).
    { apply H3.
      - destruct (entries n) as [|[k v] es] eqn:En; [contradiction|].
        assert (Hk : finite_point k).
        { apply (reachable_keys _ _ _ _ Hr (k, v)). eapply node_at_keys; [exact Hat|]. rewrite En. now left. }
        eapply (box_incl_trans _ L); [|exact (Hok k Hk)]. destruct (Hc k v) as [G1 G2]; [now left|].
        split; now apply vec_le_xle.
      - intros k Hin. apply in_map_iff in Hin as ([k' v] & <- & Hin). destruct (Hc k' v Hin) as [G1 G2].
        split; now apply vec_le_xle. }
    destruct HI as [G1 G2]. split; now apply vec_le_xle.
Qed.
Print Assumptions C58_finite_points_partial.

(** ... and of boxes. *)
Theorem C58_finite_boxes_partial :
  forall (p e : Z) (D : nat) (VO : VolumeOps (saabb (nf p e) D)) (V : Type) (cfg : config)
    (t : rtree (saabb (nf p e) D) (saabb (nf p e) D) V),
  fp_format p e -> reachable (box_params (nf_ops p e) VO) cfg finite_box t ->
  (forall i n, node_at t i n -> entries n <> [] ->
     (forall k v, In (k, v) (entries n) -> x_incl (node_bounds n) k) /\
     forall c, (forall k v, In (k, v) (entries n) -> x_incl c k) -> x_incl c (node_bounds n)) /\
  exists b, rtree_debug_assert_bvh (box_params (nf_ops p e) VO) (box_eqb (nf_ops p e)) t = Ok b.
Proof.
  intros * Hf Hr. assert (L := nf_order p e).
  assert (Hok : forall k : saabb (nf p e) D, finite_box k -> box_incl (nf_ops p e) k (box_empty (nf_ops p e))).
  { intros k Hk. now apply (finite_incl_empty p e Hf). }
  assert (Hkeq : forall k k' : saabb (nf p e) D, box_eqb (nf_ops p e) k' k = true -> box_incl (nf_ops p e) k' k).
  { intros k k' H. now apply (box_eqb_spec _ L) in H as [H1 H2]. }
  change (box_params (nf_ops p e) VO) with (lparams (nf_ops p e) VO (fun b => b) (box_eqb (nf_ops p e))) in Hr.
  split; [|exact (least_debug_tree (nf_ops p e) L VO _ _ _ Hok Hkeq cfg t Hr)].
  intros i n Hat Hne. destruct (least_bvh (nf_ops p e) L VO _ _ _ Hok Hkeq cfg t i n Hr Hat) as [(H1 & H2 & H3) _].
  split.
  - intros k v Hin. apply (in_map fst) in Hin. destruct (H2 k Hin) as [G1 G2]. split; now apply vec_le_xle.
  - intros c Hc. assert (HI : box_incl (nf_ops p e) c (node_bounds n)).
    { apply H3.
      - destruct (entries n) as [|[k v] es] eqn:En; [contradiction|].
        assert (Hk : finite_box k).
        { apply (reachable_keys _ _ _ _ Hr (k, v)). eapply node_at_keys; [exact Hat|]. rewrite En. now left. }
        eapply (box_incl_trans _ L); [|exact (Hok k Hk)]. destruct (Hc k v) as [G1 G2]; [now left|].
        split; now apply vec_le_xle.
      - intros k Hin. apply in_map_iff in Hin as ([k' v] & <- & Hin). destruct (Hc k' v Hin) as [G1 G2].
        split; now apply vec_le_xle. }
    destruct HI as [G1 G2]. split; now apply vec_le_xle.
Qed.
Print Assumptions C58_finite_boxes_partial.

Definition fin_ops : list (op (svec n64 2) nat) := firstn 10 fp_ops.
Definition fin_sample : rtree (saabb n64 2) (svec n64 2) nat := final PF (cfg_of 4 2) fin_ops.
Definition sf_fin (x : spec_float) : bool := match x with S754_zero _ | S754_finite _ _ _ => true | _ => false end.
Lemma finite_pointb (k : svec n64 2) : forallb (fun x => sf_fin (nf_raw x)) (vlist k) = true -> finite_point k.
Proof.
  rewrite forallb_forall. intros H. apply Forall_forall. intros x Hx. apply H in Hx. unfold nf_value.
  destruct (nf_raw x) as [s|s| |s m ex]; try discriminate; cbn; eauto.
Qed.
Example C58_example :
  fp_format 53 1024 /\ fp_format 24 128 /\
  reachable PF (cfg_of 4 2) finite_point fin_sample /\ fst fin_sample = 1 /\ length (contents fin_sample) = 10.
Proof.
  split; [split; reflexivity|]. split; [split; reflexivity|]. split; [|split; vm_compute; reflexivity].
  apply final_reachable. apply Forall_forall. intros o Ho.
  assert (E : forallb (fun o => match op_key o with Some k => forallb (fun x => sf_fin (nf_raw x)) (vlist k) | None => true end) fin_ops = true)
    by (vm_compute; reflexivity).
  rewrite forallb_forall in E. specialize (E o Ho). clear Ho. rename E into Ho. cbv beta in Ho. unfold ok_op.
  destruct o as [k v|k v|k|k|k v| | |]; cbn [op_key] in *; first [exact (finite_pointb k Ho)|exact Logic.I].
Qed.
