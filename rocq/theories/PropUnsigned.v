(** Properties C69, C70: trees with unsigned coordinates ([u8], [u16], [u32]).  Vocabulary: UModel.v ([uint w]: unsigned
    integers of [w] bits), DistSpec.v, SearchSpec.v. *)
From Coq Require Import Floats.SpecFloat.
From Verif Require Import SortedWitness CheckRun SearchProof UProof UDist IterProof Witness.

(** ** C69 builds with overflow checks *)

(** The whole range of coordinates, any history: the checked build does what the unchecked one does.  ([w * D <= 1023]:
    31 dimensions of [u32].) *)
Theorem C69_points :
  forall (w : nat) (V : Type) (D : nat) (cfg : config) (os : list (op (svec (uint w) D) V)),
  w <= 32 -> 1 <= D -> (Z.of_nat w * Z.of_nat D <= 1023)%Z ->
  1 <= min_children cfg \/ (forall p, ~ In (ORemove p) os) ->
  snd (k_run (uint_point_params w D) (uint_checks w D) cfg (rtree_new (uint_point_params w D)) os)
    = run (uint_point_params w D) cfg (rtree_new (uint_point_params w D)) os.
Proof.
  intros w V D cfg os Hw HD Hwd Hrm.
  assert (Hb := fun b => upright_vol w Hw D b HD Hwd).
  apply (upright_run w D (uint_point_params w D) (uint_checks w D) cfg any_key); auto.
  - intros b H. exact (proj1 (Hb b H)).
  - intros a b Ha Hb'. destruct (proj2 (Hb a Ha)) as [ra Hra], (proj2 (Hb b Hb')) as [rb Hrb].
    change (negb (f64_is_nan (f64_sub (volume (uint_volume_ops w D) a) (volume (uint_volume_ops w D) b))) = true).
    now rewrite (sub_not_nan _ _ _ _ Hra Hrb).
  - intros p _. apply upright_point.
  - apply Forall_forall. intros o _. unfold ok_op, any_key. now destruct (op_key o).
Qed.
Print Assumptions C69_points.

(** Boxes whose lower corner is at most the upper one. *)
Theorem C69_boxes :
  forall (w : nat) (V : Type) (D : nat) (cfg : config) (os : list (op (saabb (uint w) D) V)),
  w <= 32 -> 1 <= D -> (Z.of_nat w * Z.of_nat D <= 1023)%Z -> Forall (ok_op (valid_box (uint_ops w))) os ->
  1 <= min_children cfg \/ (forall b, ~ In (ORemove b) os) ->
  snd (k_run (uint_box_params w D) (uint_checks w D) cfg (rtree_new (uint_box_params w D)) os)
    = run (uint_box_params w D) cfg (rtree_new (uint_box_params w D)) os.
Proof.
  intros w V D cfg os Hw HD Hwd Hok Hrm.
  assert (Hb := fun b => upright_vol w Hw D b HD Hwd).
  apply (upright_run w D (uint_box_params w D) (uint_checks w D) cfg (valid_box (uint_ops w))); auto.
  - intros b H. exact (proj1 (Hb b H)).
  - intros a b Ha Hb'. destruct (proj2 (Hb a Ha)) as [ra Hra], (proj2 (Hb b Hb')) as [rb Hrb].
    change (negb (f64_is_nan (f64_sub (volume (uint_volume_ops w D) a) (volume (uint_volume_ops w D) b))) = true).
    now rewrite (sub_not_nan _ _ _ _ Hra Hrb).
  - intros b Hb'. now apply upright_valid.
Qed.
Print Assumptions C69_boxes.

(** No panic. *)
Theorem C69_no_panic :
  forall (w : nat) (V : Type) (D : nat) (cfg : config) (os : list (op (svec (uint w) D) V)),
  w <= 32 -> 1 <= D -> (Z.of_nat w * Z.of_nat D <= 1023)%Z -> 2 <= max_children cfg -> 1 <= min_children cfg -> supported cfg ->
  exists xs t, snd (k_run (uint_point_params w D) (uint_checks w D) cfg (rtree_new (uint_point_params w D)) os) = Ok (xs, t).
Proof.
  intros w V D cfg os Hw HD Hwd Hc Hm Hs. rewrite (C69_points w V D cfg os Hw HD Hwd); [|now left].
  destruct (run_no_panic (uint_point_params w D) cfg os Hs) as [[xs t] E]. eauto.
Qed.
Print Assumptions C69_no_panic.

(** Points at both ends of the range of [u32], and one inside; a history with splits and removals. *)
Definition u32pt (x y : Z) : svec (uint 32) 2 := uvec 32 2 [x; y].
Definition C69_history : list (op (svec (uint 32) 2) nat) :=
  map (fun x => OInsert (u32pt x (4294967295 - x)) (Z.to_nat (x mod 97))) [0; 4294967295; 5; 4294967290; 2147483648; 7; 9; 3000000000; 11; 12]%Z
  ++ map (fun x => ORemove (u32pt x (4294967295 - x))) [0; 5; 2147483648; 11]%Z.
Definition C69_outcome cfg (os : list (op (svec (uint 32) 2) nat)) : nat * nat :=
  match snd (k_run (uint_point_params 32 2) (uint_checks 32 2) cfg (rtree_new (uint_point_params 32 2)) os) with
  | Ok (xs, t) => (length xs, length (contents t)) | _ => (0, 0) end.
Example C69_example :
  32 <= 32 /\ (Z.of_nat 32 * Z.of_nat 2 <= 1023)%Z /\ 1 <= min_children (cfg_of 4 2) /\ C69_outcome (cfg_of 4 2) C69_history = (14, 6).
Proof. split; [lia|]. split; [vm_compute; discriminate|]. split; [cbn; lia|]. vm_compute. reflexivity. Qed.

(** The condition on [min_children] is needed: an emptied leaf has bounds (MAX, 0), whose extent underflows. *)
Definition C69_min0_ops : list (op (svec (uint 32) 1) nat) :=
  map (fun x => OInsert (uvec 32 1 [x]) 0) [0; 1; 2]%Z ++ map (fun x => ORemove (uvec 32 1 [x])) [0; 1; 2]%Z ++ [OInsert (uvec 32 1 [1%Z]) 0].
Definition uint_outcome {K V} (P : Params (saabb (uint 32) 1) K) (CK : Checks (vops P)) cfg (os : list (op K V)) : res unit :=
  res_map (fun _ => tt) (snd (k_run P CK cfg (rtree_new P : rtree (saabb (uint 32) 1) K V) os)).
Theorem C69_min0_needed :
  supported (cfg_of 2 0) /\ snd (k_run (uint_point_params 32 1) (uint_checks 32 1) (cfg_of 2 0) (rtree_new (uint_point_params 32 1)) C69_min0_ops) = Panic.
Proof.
  split; [split; cbn; lia|].
  assert (H : match uint_outcome (uint_point_params 32 1) (uint_checks 32 1) (cfg_of 2 0) C69_min0_ops with Panic => true | _ => false end = true) by (vm_compute; reflexivity).
  unfold uint_outcome, res_map in H. destruct (snd (k_run _ _ _ _ C69_min0_ops)); cbn in H; try discriminate. reflexivity.
Qed.
Print Assumptions C69_min0_needed.

(** ** C70 distances between unsigned coordinates *)
Local Open Scope Z_scope.

(** *** Nearest neighbours, release build: exact, as for signed integers (C35). *)
Theorem C70_nearest_release_partial :
  forall (w : nat) (V : Type) (D : nat) (VO : VolumeOps (saabb (uint w) (S D)))
    (cfg : config) (PQ : PQueue (ranked (saabb (uint w) (S D)) (svec (uint w) (S D)) V (uint w)))
    (t : rtree (saabb (uint w) (S D)) (svec (uint w) (S D)) V) (p : svec (uint w) (S D)),
  pqueue_laws (ranked_cmp (int_cmp (uint_val w))) PQ -> reachable (point_params (uint_ops w) VO) cfg any_key t ->
  (forall e, In e (contents t) -> zdist2 (uint_val w) (fst e) p < 2 ^ Z.of_nat w) ->
  exists l, iterates (asc_next PQ (euclid_points (uint_ops w) (uint_arith w) p)) (asc_new PQ (euclid_points (uint_ops w) (uint_arith w) p) t) l /\
     Permutation l (contents t) /\
     ForallOrdPairs (fun x y => zdist2 (uint_val w) (fst x) p <= zdist2 (uint_val w) (fst y) p) l.
Proof.
  intros w V D VO cfg PQ t p QL Hr Hfit.
  apply (C35_nearest_points (uint w) V (uint_ops w) (uint_arith w) (uint_val w) 0 (uint_size w - 1) D VO cfg PQ t p (uint_int_laws w) QL Hr).
  intros e He. specialize (Hfit e He). unfold uint_size. lia.
Qed.
Print Assumptions C70_nearest_release_partial.

(** *** Nearest neighbours in a build with overflow checks *)

(** The distance from a query point to a key panics unless every coordinate of the key is at least the query's. *)
Theorem C70_distance_checked :
  forall (w D : nat) (k p : svec (uint w) (S D)),
  (vec_le (uint_ops w) p k /\ zdist2 (uint_val w) k p < 2 ^ Z.of_nat w /\
     exists r, point_dist_sq_checked (uint_checked_ops w) k p = Ok r /\ uint_val w r = zdist2 (uint_val w) k p) \/
  ((~ vec_le (uint_ops w) p k \/ 2 ^ Z.of_nat w <= zdist2 (uint_val w) k p) /\ point_dist_sq_checked (uint_checked_ops w) k p = Panic).
Proof. intros w D k p. exact (point_dist_checked_iff w D k p). Qed.
Print Assumptions C70_distance_checked.

(** To a box (with least distance [m]): unless the query point is below the upper corner in every coordinate. *)
Theorem C70_box_distance_checked :
  forall (w D : nat) (b : saabb (uint w) (S D)) (p : svec (uint w) (S D)) (m : Z),
  valid_box (uint_ops w) b -> least_dist2 (uint_ops w) (uint_val w) b p m ->
  (vec_le (uint_ops w) p (bmax b) /\ m < 2 ^ Z.of_nat w /\
     exists r, box_dist_sq_checked (uint_ops w) (uint_checked_ops w) b p = Ok r /\ uint_val w r = m) \/
  ((~ vec_le (uint_ops w) p (bmax b) \/ 2 ^ Z.of_nat w <= m) /\ box_dist_sq_checked (uint_ops w) (uint_checked_ops w) b p = Panic).
Proof. intros w D b p m. exact (box_dist_checked_iff w D b p m). Qed.
Print Assumptions C70_box_distance_checked.

(** So whatever search is made in whatever tree, it never yields a key below the query point in some coordinate. *)
Theorem C70_never_below_partial :
  forall (w : nat) (V : Type) (D : nat) (VO : VolumeOps (saabb (uint w) (S D)))
    (cfg : config) (PQ : PQueue (ranked (saabb (uint w) (S D)) (svec (uint w) (S D)) V (uint w)))
    (t : rtree (saabb (uint w) (S D)) (svec (uint w) (S D)) V) (p : svec (uint w) (S D)) gs h os h' w' tr,
  pqueue_laws (ranked_cmp (int_cmp (uint_val w))) PQ -> reachable (point_params (uint_ops w) VO) cfg any_key t ->
  fx_sorted_new PQ (checked_euclid_points (uint_ops w) (uint_checked_ops w) p) t tt = (Some h, tt) ->
  session (traced (fx_sorted_next PQ (rlogged (checked_euclid_points (uint_ops w) (uint_checked_ops w) p)))) gs h tt [] = Ok (os, h', w', tr) ->
  forall e, In e (yields os) -> vec_le (uint_ops w) p (fst e).
Proof.
  intros w V D VO cfg PQ t p gs h os h' w' tr QL Hr E1 E2 e He.
  destruct (yields_ranked (point_params (uint_ops w) VO) cfg (int_cmp (uint_val w)) (int_cmp_laws _) PQ QL
    (fun b => box_dist_sq_checked (uint_ops w) (uint_checked_ops w) b p) (fun k => point_dist_sq_checked (uint_checked_ops w) k p)
    t gs h os h' w' tr Hr E1 E2 e He) as (m & E).
  destruct (point_dist_checked_iff w D (fst e) p) as [(H & _)|(_ & E')]; [exact H|congruence].
Qed.
Print Assumptions C70_never_below_partial.

(** The claim that a search finds the stored points is therefore false: one stored point, a query point to its right. *)
Definition u1 (x : Z) : svec (uint 32) 1 := uvec 32 1 [x].
Definition C70_one : rtree (saabb (uint 32) 1) (svec (uint 32) 1) nat := final (uint_point_params 32 1) (cfg_of 4 2) [OInsert (u1 4) 7%nat].
Theorem C70_search_refuted :
  exists (t : rtree (saabb (uint 32) 1) (svec (uint 32) 1) nat) (p : svec (uint 32) 1),
  reachable (uint_point_params 32 1) (cfg_of 4 2) any_key t /\ contents t <> [] /\
  (forall e, In e (contents t) -> zdist2 (uint_val 32) (fst e) p = 1) /\
  forall PQ : PQueue (ranked (saabb (uint 32) 1) (svec (uint 32) 1) nat (uint 32)),
  fx_sorted_new PQ (checked_euclid_points (uint_ops 32) (uint_checked_ops 32) p) t tt = (None, tt).
Proof.
  exists C70_one, (u1 5). split; [apply final_reachable_any|]. split.
  { assert (H : map snd (contents C70_one) = [7%nat]) by (vm_compute; reflexivity). intros E. rewrite E in H. clear E. discriminate H. }
  split.
  - assert (H : forallb (fun e => zdist2 (uint_val 32) (fst e) (u1 5) =? 1) (contents C70_one) = true) by (vm_compute; reflexivity).
    rewrite forallb_forall in H. intros e He. apply Z.eqb_eq. exact (H e He).
  - intros PQ. unfold fx_sorted_new. cbn [checked_euclid_points fxr_bounds].
    assert (E : box_dist_sq_checked (uint_ops 32) (uint_checked_ops 32) (node_bounds (snd C70_one)) (u1 5) = Panic) by (apply is_panic_spec; vm_compute; reflexivity).
    rewrite E. reflexivity.
Qed.
Print Assumptions C70_search_refuted.

(** What holds: a query point at most every stored key in every coordinate. *)
Theorem C70_search_points_partial :
  forall (w : nat) (V : Type) (D : nat) (VO : VolumeOps (saabb (uint w) (S D)))
    (cfg : config) (PQ : PQueue (ranked (saabb (uint w) (S D)) (svec (uint w) (S D)) V (uint w)))
    (t : rtree (saabb (uint w) (S D)) (svec (uint w) (S D)) V) (p : svec (uint w) (S D)),
  pqueue_laws (ranked_cmp (int_cmp (uint_val w))) PQ ->
  (1 <= min_children cfg)%nat -> reachable (point_params (uint_ops w) VO) cfg any_key t -> contents t <> [] ->
  (forall e, In e (contents t) -> vec_le (uint_ops w) p (fst e) /\ zdist2 (uint_val w) (fst e) p < 2 ^ Z.of_nat w) ->
  exists l, Permutation l (contents t) /\
    ForallOrdPairs (fun x y => zdist2 (uint_val w) (fst x) p <= zdist2 (uint_val w) (fst y) p) l /\
    searches_without_panic PQ (checked_euclid_points (uint_ops w) (uint_checked_ops w) p) t l.
Proof.
  intros w V D VO cfg PQ t p QL Hmin Hr Hne Hfit.
  assert (L := uint_int_laws w).
  apply (distance_search (uint_ops w) (uint_arith w) (uint_val w) 0 (uint_size w - 1) L (uint_checked_ops w) (point_params (uint_ops w) VO) cfg eq_refl
    PQ QL t Hmin Hr Hne p (fun k => point_dist_sq_checked (uint_checked_ops w) k p) (fun k => zdist2 (uint_val w) k p)).
  - intros e He. destruct (Hfit e He) as [H1 H2]. destruct (point_dist_checked_iff w D (fst e) p) as [(_ & _ & H)|([H|H] & _)]; [exact H|tauto|].
    unfold uint_size in H. lia.
  - intros b e He Hi. destruct (Hfit e He) as [H1 H2]. assert (Hq : in_box (uint_ops w) b (fst e)) by exact Hi.
    assert (Hv : valid_box (uint_ops w) b) by (destruct Hq; eapply (vec_le_trans _ (uint_laws w)); eassumption).
    destruct (least_exists _ _ _ _ _ L _ b p Hv) as (m & Hm). assert (Hle := proj2 Hm _ Hq).
    destruct (box_dist_checked_iff w D b p m Hv Hm) as [(_ & _ & r & E & Er)|([H|H] & _)].
    + exists r. split; [exact E|]. lia.
    + elim H. destruct Hq as [_ Hq]. eapply (vec_le_trans _ (uint_laws w)); eassumption.
    + unfold uint_size in H. lia.
Qed.
Print Assumptions C70_search_points_partial.

(** A search from a point below all keys of a tree with splits. *)
Definition C70_keys : rtree (saabb (uint 32) 2) (svec (uint 32) 2) nat :=
  final (uint_point_params 32 2) (cfg_of 4 2) (map (fun x => OInsert (u32pt (4294967000 + x) (4294967000 + (x * 37) mod 50)) (Z.to_nat x)) [1; 2; 3; 4; 5; 6; 7; 8; 9; 10; 11; 12]).
Definition C70_from : svec (uint 32) 2 := u32pt 4294966900 4294967000.
Definition UQ : PQueue (ranked (saabb (uint 32) 2) (svec (uint 32) 2) nat (uint 32)) := list_queue (ranked_cmp (int_cmp (uint_val 32))).
Definition C70_codes (n : nat) : list nat :=
  match fx_sorted_new UQ (checked_euclid_points (uint_ops 32) (uint_checked_ops 32) C70_from) C70_keys tt with
  | (None, _) => []
  | (Some h, w) =>
    match session (traced (fx_sorted_next UQ (rlogged (checked_euclid_points (uint_ops 32) (uint_checked_ops 32) C70_from)))) (repeat (fun w => w) n) h w [] with
    | Ok (os, _, _, _) => map (fun o => match o with Yield e => snd e | Done => 1000 | Panicked => 2000 end)%nat os
    | _ => []
    end
  end.
Definition u_below (p k : svec (uint 32) 2) : bool := (uint_val 32 (fst p) <=? uint_val 32 (fst k)) && (uint_val 32 (fst (snd p)) <=? uint_val 32 (fst (snd k))).
Example C70_search_example :
  pqueue_laws (ranked_cmp (int_cmp (uint_val 32))) UQ /\ (1 <= min_children (cfg_of 4 2))%nat /\
  reachable (uint_point_params 32 2) (cfg_of 4 2) any_key C70_keys /\ contents C70_keys <> [] /\
  (forall e, In e (contents C70_keys) -> vec_le (uint_ops 32) C70_from (fst e) /\ zdist2 (uint_val 32) (fst e) C70_from < 2 ^ Z.of_nat 32) /\
  C70_codes 14 = ([3; 2; 7; 1; 6; 5; 11; 10; 9; 4; 8; 12] ++ [1000; 1000])%nat.
Proof.
  split; [apply list_queue_laws, ranked_cmp_laws, int_cmp_laws|]. split; [cbn; lia|]. split; [apply final_reachable_any|].
  split. { assert (H : length (contents C70_keys) = 12%nat) by (vm_compute; reflexivity). intros E. rewrite E in H. clear E. discriminate H. }
  split; [|vm_compute; reflexivity].
  assert (H : forallb (fun e => u_below C70_from (fst e) && (zdist2 (uint_val 32) (fst e) C70_from <? 4294967296)) (contents C70_keys) = true) by (vm_compute; reflexivity).
  rewrite forallb_forall in H. intros e He. specialize (H e He). apply andb_prop in H as [H1 H2]. apply andb_prop in H1 as [H0 H1].
  apply Z.ltb_lt in H2. apply Z.leb_le in H0, H1. split; [|exact H2].
  apply vec_le_val. split; [exact H0|]. apply vec_le_val. split; [exact H1|]. apply vec_le_nil.
Qed.

(** The same for boxes: a query point at most the upper corner of every stored box. *)
Theorem C70_search_boxes_partial :
  forall (w : nat) (V : Type) (D : nat) (VO : VolumeOps (saabb (uint w) (S D)))
    (cfg : config) (PQ : PQueue (ranked (saabb (uint w) (S D)) (saabb (uint w) (S D)) V (uint w)))
    (t : rtree (saabb (uint w) (S D)) (saabb (uint w) (S D)) V) (p : svec (uint w) (S D)) (dist : saabb (uint w) (S D) -> Z),
  pqueue_laws (ranked_cmp (int_cmp (uint_val w))) PQ ->
  (1 <= min_children cfg)%nat -> reachable (box_params (uint_ops w) VO) cfg any_key t -> contents t <> [] ->
  (forall e, In e (contents t) -> valid_box (uint_ops w) (fst e) /\ vec_le (uint_ops w) p (bmax (fst e)) /\
     least_dist2 (uint_ops w) (uint_val w) (fst e) p (dist (fst e)) /\ dist (fst e) < 2 ^ Z.of_nat w) ->
  exists l, Permutation l (contents t) /\ ForallOrdPairs (fun x y => dist (fst x) <= dist (fst y)) l /\
    searches_without_panic PQ (checked_euclid_boxes (uint_ops w) (uint_checked_ops w) p) t l.
Proof.
  intros w V D VO cfg PQ t p dist QL Hmin Hr Hne Hfit.
  assert (L := uint_int_laws w). assert (T := vec_le_trans _ (uint_laws w)).
  apply (distance_search (uint_ops w) (uint_arith w) (uint_val w) 0 (uint_size w - 1) L (uint_checked_ops w) (box_params (uint_ops w) VO) cfg eq_refl
    PQ QL t Hmin Hr Hne p (fun k => box_dist_sq_checked (uint_ops w) (uint_checked_ops w) k p) dist).
  - intros e He. destruct (Hfit e He) as (H1 & H2 & H3 & H4).
    destruct (box_dist_checked_iff w D (fst e) p _ H1 H3) as [(_ & _ & H)|([H|H] & _)]; [exact H|tauto|]. unfold uint_size in H. lia.
  - intros b e He [Hi1 Hi2]. destruct (Hfit e He) as (H1 & H2 & H3 & H4). destruct (proj1 H3) as (q & Hq & Eq).
    assert (Hqb : in_box (uint_ops w) b q) by (destruct Hq as [Hq1 Hq2]; split; eapply T; eassumption).
    assert (Hv : valid_box (uint_ops w) b) by (destruct Hqb; eapply T; eassumption).
    destruct (least_exists _ _ _ _ _ L _ b p Hv) as (m & Hm). assert (Hle := proj2 Hm _ Hqb). rewrite Eq in Hle.
    destruct (box_dist_checked_iff w D b p m Hv Hm) as [(_ & _ & r & E & Er)|([H|H] & _)].
    + exists r. split; [exact E|]. lia.
    + elim H. eapply T; eassumption.
    + unfold uint_size in H. lia.
Qed.
Print Assumptions C70_search_boxes_partial.
(** Boxes in a tree with splits, searched from a point that two of them contain. *)
Definition C70_boxes : rtree (saabb (uint 32) 1) (saabb (uint 32) 1) nat :=
  final (uint_box_params 32 1) (cfg_of 4 2) (map (fun x => OInsert (ubox 32 1 [x] [x + 10]) (Z.to_nat x)) [0; 4; 20; 30; 40; 50; 60]).
Definition UQB : PQueue (ranked (saabb (uint 32) 1) (saabb (uint 32) 1) nat (uint 32)) := list_queue (ranked_cmp (int_cmp (uint_val 32))).
(** The distance from 5, by cases. *)
Definition dist_from_5 (b : saabb (uint 32) 1) : Z := let d := Z.max 0 (uint_val 32 (fst (bmin b)) - 5) in d * d.
Definition C70_box_codes (n : nat) : list nat :=
  match fx_sorted_new UQB (checked_euclid_boxes (uint_ops 32) (uint_checked_ops 32) (u1 5)) C70_boxes tt with
  | (None, _) => []
  | (Some h, w) =>
    match session (traced (fx_sorted_next UQB (rlogged (checked_euclid_boxes (uint_ops 32) (uint_checked_ops 32) (u1 5))))) (repeat (fun w => w) n) h w [] with
    | Ok (os, _, _, _) => map (fun o => match o with Yield e => snd e | Done => 1000 | Panicked => 2000 end)%nat os
    | _ => []
    end
  end.
Lemma least_from_5 (b : saabb (uint 32) 1) : 5 <= uint_val 32 (fst (bmax b)) -> uint_val 32 (fst (bmin b)) <= uint_val 32 (fst (bmax b)) ->
  least_dist2 (uint_ops 32) (uint_val 32) b (u1 5) (dist_from_5 b).
Proof.
  intros H5 Hv. unfold dist_from_5. cbv zeta.
  assert (E5 : uint_val 32 (fst (u1 5)) = 5) by (vm_compute; reflexivity).
  assert (Z2 : forall q : svec (uint 32) 1, zdist2 (uint_val 32) q (u1 5) = (uint_val 32 (fst q) - 5) * (uint_val 32 (fst q) - 5)).
  { intros q. revert E5. generalize (u1 5). intros [c []] E5. destruct q as [a []]. unfold zdist2, vzip. cbn [vlist combine map fold_right fst snd] in *. rewrite E5. lia. }
  split.
  - destruct (Z.le_ge_cases (uint_val 32 (fst (bmin b))) 5) as [H|H].
    + exists (u1 5). split; [split; apply vec_le_val; (split; [rewrite E5; lia|apply vec_le_nil])|]. rewrite Z2, E5, Z.max_l by lia. lia.
    + exists (bmin b). split; [split; apply vec_le_val; (split; [lia|apply vec_le_nil])|]. rewrite Z2, Z.max_r by lia. lia.
  - intros q [Hq1 Hq2]. apply vec_le_val in Hq1 as [Hq1 _]. rewrite Z2.
    destruct (Z.le_ge_cases (uint_val 32 (fst (bmin b))) 5) as [H|H]; [rewrite Z.max_l by lia; cbn; apply Z.square_nonneg|rewrite Z.max_r by lia; nia].
Qed.
Example C70_search_boxes_example :
  pqueue_laws (ranked_cmp (int_cmp (uint_val 32))) UQB /\ (1 <= min_children (cfg_of 4 2))%nat /\
  reachable (uint_box_params 32 1) (cfg_of 4 2) any_key C70_boxes /\ contents C70_boxes <> [] /\
  (forall e, In e (contents C70_boxes) -> valid_box (uint_ops 32) (fst e) /\ vec_le (uint_ops 32) (u1 5) (bmax (fst e)) /\
     least_dist2 (uint_ops 32) (uint_val 32) (fst e) (u1 5) (dist_from_5 (fst e)) /\ dist_from_5 (fst e) < 2 ^ Z.of_nat 32) /\
  (let l := C70_box_codes 8 in length l = 8%nat /\ nth 2 l 0%nat = 20%nat /\ nth 6 l 0%nat = 60%nat /\ nth 7 l 0%nat = 1000%nat).
Proof.
  split; [apply list_queue_laws, ranked_cmp_laws, int_cmp_laws|]. split; [cbn; lia|]. split; [apply final_reachable_any|].
  split. { assert (H : length (contents C70_boxes) = 7%nat) by (vm_compute; reflexivity). intros E. rewrite E in H. clear E. discriminate H. }
  split; [|vm_compute; repeat split].
  assert (H : forallb (fun e : saabb (uint 32) 1 * nat => (uint_val 32 (fst (bmin (fst e))) <=? uint_val 32 (fst (bmax (fst e)))) &&
    (5 <=? uint_val 32 (fst (bmax (fst e)))) && (dist_from_5 (fst e) <? 4294967296)) (contents C70_boxes) = true) by (vm_compute; reflexivity).
  rewrite forallb_forall in H. intros e He. specialize (H e He). apply andb_prop in H as [H H3]. apply andb_prop in H as [H1 H2].
  apply Z.leb_le in H1, H2. apply Z.ltb_lt in H3.
  assert (E5 : uint_val 32 (fst (u1 5)) = 5) by (vm_compute; reflexivity).
  split; [apply vec_le_val; split; [exact H1|apply vec_le_nil]|]. split; [apply vec_le_val; split; [rewrite E5; exact H2|apply vec_le_nil]|].
  split; [now apply least_from_5|exact H3].
Qed.

(** *** Spheres *)

(** Release build: a sphere misses the points on the lower side of its center. *)
Definition C70_sphere : sphere (uint 32) 1 := {| center := u1 5; radius := uint_of 32 2 |}.
Theorem C70_sphere_refuted :
  exists (t : rtree (saabb (uint 32) 1) (svec (uint 32) 1) nat) (s : sphere (uint 32) 1) it,
  reachable (uint_point_params 32 1) (cfg_of 4 2) any_key t /\ contents t <> [] /\ uball_in_range 32 (uint_val 32 (radius s)) (center s) /\
  (forall e, In e (contents t) -> in_box (uint_ops 32) (uint_sphere_bounds 32 s) (fst e) /\
     zdist2 (uint_val 32) (fst e) (center s) <= uint_val 32 (radius s) * uint_val 32 (radius s)) /\
  rtree_filter_iter t (uint_sphere_filter 32 s) = Ok it /\ iterates (iter_next_with (fun k => k) (uint_sphere_filter 32 s)) it [].
Proof.
  assert (HB : uball_in_range 32 (uint_val 32 (radius C70_sphere)) (center C70_sphere)) by (repeat split; vm_compute; congruence).
  assert (Hr : reachable (uint_point_params 32 1) (cfg_of 4 2) any_key C70_one) by apply final_reachable_any.
  destruct (filter_iter_exact (fun k => k) (uint_sphere_filter 32 C70_sphere) (uint_point_params 32 1) (cfg_of 4 2) any_key (box_incl (uint_ops 32)) C70_one) as (it & E & Hi);
    [apply box_bounds_laws, uint_laws|apply usphere_lawful; [lia|lia|exact HB]|exact Hr|].
  exists C70_one, C70_sphere, it. split; [exact Hr|]. split.
  { assert (H : map snd (contents C70_one) = [7%nat]) by (vm_compute; reflexivity). intros E'. rewrite E' in H. clear E'. discriminate H. }
  split; [exact HB|]. split; [|split; [exact E|]].
  - assert (H : forallb (fun e : svec (uint 32) 1 * nat => (uint_val 32 (fst (bmin (uint_sphere_bounds 32 C70_sphere))) <=? uint_val 32 (fst (fst e))) &&
      ((uint_val 32 (fst (fst e)) <=? uint_val 32 (fst (bmax (uint_sphere_bounds 32 C70_sphere)))) &&
      (zdist2 (uint_val 32) (fst e) (center C70_sphere) <=? uint_val 32 (radius C70_sphere) * uint_val 32 (radius C70_sphere)))) (contents C70_one) = true) by (vm_compute; reflexivity).
    rewrite forallb_forall in H. intros e He. specialize (H e He). apply andb_prop in H as [H1 H]. apply andb_prop in H as [H2 H3].
    apply Z.leb_le in H1, H2, H3. split; [|exact H3].
    split; apply vec_le_val; (split; [assumption|apply vec_le_nil]).
  - assert (E2 : length (filter (fun e => test_key (uint_sphere_filter 32 C70_sphere) (fst e)) (contents C70_one)) = 0%nat) by (vm_compute; reflexivity).
    apply length_zero_iff_nil in E2. rewrite E2 in Hi. exact Hi.
Qed.
Print Assumptions C70_sphere_refuted.

(** What holds for a sphere inside the range of the coordinates: a query yields exactly the entries the test accepts, and
    (up to a radius of 94906265) the test accepts exactly the points of the ball not below the center. *)
Theorem C70_sphere_partial :
  forall (w : nat) (V : Type) (D : nat) (VO : VolumeOps (saabb (uint w) (S D)))
    (cfg : config) (t : rtree (saabb (uint w) (S D)) (svec (uint w) (S D)) V) (s : sphere (uint w) (S D)),
  (w <= 32)%nat -> Z.of_nat D < 2 ^ 53 -> reachable (point_params (uint_ops w) VO) cfg any_key t ->
  uball_in_range w (uint_val w (radius s)) (center s) ->
  (forall p, uint_sphere_test w s p = true -> in_box (uint_ops w) (uint_sphere_bounds w s) p) /\
  exists it l, rtree_filter_iter t (uint_sphere_filter w s) = Ok it /\ iterates (iter_next_with (fun k => k) (uint_sphere_filter w s)) it l /\
    exactly (fun kv => uint_sphere_test w s (fst kv) = true) l (contents t) /\
    (uint_val w (radius s) <= 94906265 ->
     exactly (fun kv => vec_le (uint_ops w) (center s) (fst kv) /\
                        zdist2 (uint_val w) (fst kv) (center s) <= uint_val w (radius s) * uint_val w (radius s)) l (contents t)).
Proof.
  intros w V D VO cfg t s Hw HD Hr HB. split.
  - intros p Hp. exact (proj1 (uaccepted_in w Hw D s p HD HB Hp)).
  - destruct (filter_iter_exact (fun k => k) (uint_sphere_filter w s) (point_params (uint_ops w) VO) cfg any_key (box_incl (uint_ops w)) t) as (it & E & Hi);
      [apply box_bounds_laws, uint_laws|now apply usphere_lawful|exact Hr|].
    exists it. eexists. split; [exact E|]. split; [exact Hi|]. split.
    + eexists. split; [reflexivity|]. intros [k v] _. reflexivity.
    + intros Hr2. eexists. split; [reflexivity|]. intros [k v] _. cbn [test_key uint_sphere_filter bounded_intersects_filter fst].
      apply (utest_exact w Hw D s k HD Hr2 HB).
Qed.
Print Assumptions C70_sphere_partial.

Definition C70_ball : sphere (uint 32) 2 := {| center := u32pt 4294967001 4294967005; radius := uint_of 32 10 |}.
Example C70_sphere_example :
  uball_in_range 32 (uint_val 32 (radius C70_ball)) (center C70_ball) /\
  run_iter (iter_next_with (fun k => k) (uint_sphere_filter 32 C70_ball)) (rtree_filter_iter C70_keys (uint_sphere_filter 32 C70_ball)) 4 =
    Ok [Some 7; Some 3; None; None]%nat.
Proof. split; [repeat split; vm_compute; congruence|]. vm_compute. reflexivity. Qed.

(** *** [sq_dist_to] *)

(** Release build: overlapping boxes are not at distance 0. *)
Theorem C70_box_distance_refuted :
  exists (a b : saabb (uint 32) 1) (q : svec (uint 32) 1),
  valid_box (uint_ops 32) a /\ valid_box (uint_ops 32) b /\ in_box (uint_ops 32) a q /\ in_box (uint_ops 32) b q /\
  n64_cmp_f (uint_sq_dist 32 a b) (f64_of_Z (2 ^ 63)) = Gt.
Proof.
  exists (ubox 32 1 [0] [2]), (ubox 32 1 [1] [3]), (u1 1).
  do 4 (split; [repeat split; repeat (apply vec_le_val; split; [vm_compute; discriminate|apply vec_le_nil])|]). vm_compute. reflexivity.
Qed.
Print Assumptions C70_box_distance_refuted.

(** Release build: what remains is the distance of a single point to itself, which is exactly 0. *)
Lemma uint_sub_self w (x : uint w) : uint_into_f64 w (uint_sub w x x) = S754_zero false.
Proof. unfold uint_into_f64, uint_sub. rewrite uint_of_val, Z.sub_diag. rewrite Zmod_0_l. reflexivity. Qed.
Lemma uint_gap_self w (x : uint w) : axis_gap (uint_sub w) (uint_into_f64 w) n64_cmp_f f64_mul (f64_of_Z 0) x x x x = S754_zero false.
Proof. unfold axis_gap. rewrite uint_sub_self. reflexivity. Qed.
Theorem C70_box_distance_partial :
  forall (w D : nat) (x : svec (uint w) (S D)),
  uint_sq_dist w (point_bounds x) (point_bounds x) = S754_zero false.
Proof.
  intros w D x. unfold uint_sq_dist, sq_dist_to, point_bounds. cbn [bmin bmax]. rewrite uint_gap_self. destruct x as [x0 x]. cbn [snd]. clear x0.
  induction D as [|D IH]; [reflexivity|]. cbn [axis_gaps fold_left]. rewrite uint_gap_self. apply IH.
Qed.
Print Assumptions C70_box_distance_partial.

(** With overflow checks: every pair of boxes panics, except equal boxes of a single point. *)
Lemma sum_gaps_panic_acc w D (lmin lmax rmin rmax : svec (uint w) D) acc acc' :
  sum_gaps_checked (uint_checked_ops w) (uint_into_f64 w) n64_cmp_f f64_add f64_mul (f64_of_Z 0) lmin lmax rmin rmax acc = Panic ->
  sum_gaps_checked (uint_checked_ops w) (uint_into_f64 w) n64_cmp_f f64_add f64_mul (f64_of_Z 0) lmin lmax rmin rmax acc' = Panic.
Proof.
  revert acc acc'. induction D as [|D IH]; intros acc acc' E; [discriminate E|]. cbn [sum_gaps_checked] in *.
  destruct (axis_gap_checked _ _ _ _ _ _ _ _ _) as [g| | |]; cbn [bind] in *; try discriminate E; [|reflexivity]. exact (IH _ _ _ _ _ _ E).
Qed.
Lemma sum_gaps_cases w D (lmin lmax rmin rmax : svec (uint w) D) acc :
  (vec_le (uint_ops w) lmax rmin /\ vec_le (uint_ops w) rmax lmin) \/
  sum_gaps_checked (uint_checked_ops w) (uint_into_f64 w) n64_cmp_f f64_add f64_mul (f64_of_Z 0) lmin lmax rmin rmax acc = Panic.
Proof.
  revert acc. induction D as [|D IH]; intros acc; [left; split; apply vec_le_nil|]. cbn [sum_gaps_checked]. unfold axis_gap_checked.
  cbn [c_sub uint_checked_ops].
  destruct (uchecked_cases w (uint_val w (fst rmin) - uint_val w (fst lmax))) as [(H1 & E1)|(H1 & E1)]; rewrite E1; cbn [bind]; [|right; reflexivity].
  destruct (uchecked_cases w (uint_val w (fst lmin) - uint_val w (fst rmax))) as [(H2 & E2)|(H2 & E2)]; rewrite E2; cbn [bind]; [|right; reflexivity].
  edestruct IH as [[H3 H4]|E]; [left|right; exact E]. split; apply vec_le_val; (split; [lia|assumption]).
Qed.
Theorem C70_box_distance_checked_refuted :
  forall (w D : nat) (a b : saabb (uint w) (S D)),
  valid_box (uint_ops w) a -> valid_box (uint_ops w) b ->
  ~ (a = b /\ bmin a = bmax a) -> uint_sq_dist_checked w a b = Panic.
Proof.
  intros w D a b Ha Hb Hne. unfold uint_sq_dist_checked.
  destruct (sum_gaps_cases w (S D) (bmin a) (bmax a) (bmin b) (bmax b) (f64_of_Z 0)) as [[H1 H2]|E].
  - exfalso. apply Hne. assert (T := vec_le_trans _ (uint_laws w)). assert (A := fun x y => vec_le_antisym (uint_ops w) (S D) x y (uint_antisym w)).
    unfold valid_box in *. destruct a as [amn amx], b as [bmn bmx]. cbn [bmin bmax] in *.
    assert (E1 : amx = bmn) by (apply A; eauto). assert (E2 : bmx = amn) by (apply A; eauto). subst. assert (E3 : bmn = amn) by (apply A; eauto). subst. auto.
  - cbn [sum_gaps_checked] in E. unfold sq_dist_to_checked. destruct (axis_gap_checked _ _ _ _ _ _ _ _ _) as [g| | |]; cbn [bind] in *; try discriminate E; [|reflexivity].
    exact (sum_gaps_panic_acc w D _ _ _ _ _ _ E).
Qed.
Print Assumptions C70_box_distance_checked_refuted.
Example C70_box_distance_checked_example :
  (forall (a b : saabb (uint 32) 1), a = ubox 32 1 [0] [2] -> b = ubox 32 1 [5] [7] -> ~ (a = b /\ bmin a = bmax a) /\ valid_box (uint_ops 32) a /\ valid_box (uint_ops 32) b) /\
  match uint_sq_dist_checked 32 (ubox 32 1 [3] [3]) (ubox 32 1 [3] [3]) with Ok x => n64_cmp_f x (f64_of_Z 0) = Eq | _ => False end.
Proof.
  split; [|vm_compute; reflexivity]. intros a b -> ->. split.
  - intros [_ E]. apply (f_equal (fun v => uint_val 32 (fst v))) in E. vm_compute in E. discriminate.
  - split; apply vec_le_val; (split; [vm_compute; discriminate|apply vec_le_nil]).
Qed.

(** *** Segments *)

(** Release build: a segment inside a box does not intersect it; [b.min - origin] wraps around. *)
Theorem C70_line_refuted :
  exists (l : line (uint 32) 1) (b : saabb (uint 32) 1),
  in_box (uint_ops 32) b (line_0 l) /\ in_box (uint_ops 32) b (line_1 l) /\ uint_line_test 32 l b = false.
Proof.
  exists {| line_0 := u1 5; line_1 := u1 8 |}, (ubox 32 1 [0] [10]).
  do 2 (split; [split; apply vec_le_val; (split; [vm_compute; discriminate|apply vec_le_nil])|]). vm_compute. reflexivity.
Qed.
Print Assumptions C70_line_refuted.

(** What holds: a segment that goes up in every dimension, from a point not above the box's lower corner, is tested like the
    same segment with signed coordinates (for which see C37). *)
Lemma slab_loop_signed w D (bmn bmx o e : svec (uint w) D) s :
  vec_le (uint_ops w) o e -> vec_le (uint_ops w) o bmn -> vec_le (uint_ops w) bmn bmx -> small e -> small bmx ->
  slab_loop (uint_sub w) (uint_into_f64 w) f64_fops bmn bmx o (vmap2 (uint_sub w) e o) s =
  slab_loop i32_sub i32_into_f64 f64_fops (signed bmn) (signed bmx) (signed o) (vmap2 i32_sub (signed e) (signed o)) s.
Proof.
  revert s. induction D as [|D IH]; intros s H1 H2 H3 H4 H5; [reflexivity|].
  apply vec_le_val in H1 as [H1 H1'], H2 as [H2 H2'], H3 as [H3 H3'].
  assert (H4' : small (snd e)) by exact (Forall_inv_tail H4). assert (H5' : small (snd bmx)) by exact (Forall_inv_tail H5).
  apply Forall_inv in H4, H5. cbn beta in H4, H5.
  assert (B : forall a b : uint w, uint_val w b <= uint_val w a < 2 ^ 31 -> uint_into_f64 w (uint_sub w a b) = i32_into_f64 (i32_sub (i32_of (uint_val w a)) (i32_of (uint_val w b)))).
  { intros a b Hab. unfold uint_into_f64, i32_into_f64, uint_sub, i32_sub. f_equal.
    assert (Ha := uint_bounds w a). assert (Hb := uint_bounds w b). rewrite uint_of_small by lia.
    assert (W : forall z, 0 <= z < 2 ^ 31 -> wrap32 z = z) by (intros z Hz; unfold wrap32; rewrite Z.mod_small by lia; lia).
    rewrite !i32_of_val, !W; rewrite ?W; lia. }
  cbn [slab_loop signed vmap vmap2 fst snd].
  assert (E : slab (uint_sub w) (uint_into_f64 w) f64_fops (fst bmn) (fst bmx) (fst o) (uint_sub w (fst e) (fst o)) =
    slab i32_sub i32_into_f64 f64_fops (i32_of (uint_val w (fst bmn))) (i32_of (uint_val w (fst bmx))) (i32_of (uint_val w (fst o))) (i32_sub (i32_of (uint_val w (fst e))) (i32_of (uint_val w (fst o))))).
  { unfold slab. rewrite (B (fst e) (fst o)), (B (fst bmn) (fst o)), (B (fst bmx) (fst o)) by lia. reflexivity. }
  rewrite E. apply IH; assumption.
Qed.
Theorem C70_line_partial :
  forall (w D : nat) (l : line (uint w) D) (b : saabb (uint w) D),
  vec_le (uint_ops w) (line_0 l) (line_1 l) -> vec_le (uint_ops w) (line_0 l) (bmin b) -> valid_box (uint_ops w) b ->
  small (line_1 l) -> small (bmax b) ->
  uint_line_test w l b =
  i32_line_test {| line_0 := signed (line_0 l); line_1 := signed (line_1 l) |} {| bmin := signed (bmin b); bmax := signed (bmax b) |}.
Proof.
  intros w D l b H1 H2 H3 H4 H5. unfold uint_line_test, i32_line_test, line_intersects_box, line_bounds_intersect, line_delta. cbn [line_0 line_1 bmin bmax].
  rewrite (slab_loop_signed w D (bmin b) (bmax b) (line_0 l) (line_1 l)) by assumption. reflexivity.
Qed.
Print Assumptions C70_line_partial.
Example C70_line_example :
  let l : line (uint 32) 2 := {| line_0 := u32pt 1 2; line_1 := u32pt 9 20 |} in let b := ubox 32 2 [5; 2] [20; 12] in
  vec_le (uint_ops 32) (line_0 l) (line_1 l) /\ vec_le (uint_ops 32) (line_0 l) (bmin b) /\ valid_box (uint_ops 32) b /\
  small (line_1 l) /\ small (bmax b) /\ uint_line_test 32 l b = true.
Proof.
  cbv zeta. do 3 (split; [repeat (apply vec_le_val; split; [vm_compute; discriminate|]); apply vec_le_nil|]).
  do 2 (split; [repeat constructor|]). vm_compute. reflexivity.
Qed.
