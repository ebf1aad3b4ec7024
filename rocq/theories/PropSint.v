(** Property C85: trees with signed coordinates of any width ([i8], [i16], [i32]: [sint w], an integer of [w] bits and a sign).
    Vocabulary: SintModel.v, SintSpec.v, VolSpec.v, DistSpec.v, SearchSpec.v, SplitSpec.v. *)
From Coq Require Import Reals Lra Floats.SpecFloat.
From Flocq Require Import Core BinarySingleNaN.
From Verif Require Import SintProof SortedWitness SearchProof IterProof VolProof VolLaws HeurProof PropIter PropDist PropSearch PropSplit PropVolume Witness.

(** ** Builds with overflow checks *)

(** Coordinates less than half the range apart: the checked build does what the unchecked one does. *)
Theorem C85_points :
  forall (w : nat) (V : Type) (D : nat) (cfg : config) (lo hi : Z) (os : list (op (svec (sint w) D) V)),
  w <= 31 -> 1 <= D -> (Z.of_nat w * Z.of_nat D <= 1023)%Z -> (hi - lo < 2 ^ Z.of_nat w)%Z ->
  Forall (ok_op (spoint_in_window lo hi)) os -> 1 <= min_children cfg \/ (forall p, ~ In (ORemove p) os) ->
  snd (k_run (sint_point_params w D) (sint_checks w D) cfg (rtree_new (sint_point_params w D)) os)
    = run (sint_point_params w D) cfg (rtree_new (sint_point_params w D)) os.
Proof.
  intros w V D cfg lo hi os Hw HD Hwd Hlh Hok Hrm.
  assert (Hb := fun b => swindow_vol w lo hi D b Hw Hlh HD Hwd).
  apply (swindow_run w lo hi D (sint_point_params w D) (sint_checks w D) cfg (spoint_in_window lo hi)); auto.
  - intros b H. exact (proj1 (Hb b H)).
  - intros a b Ha Hb'. destruct (proj2 (Hb a Ha)) as [ra Hra], (proj2 (Hb b Hb')) as [rb Hrb].
    change (negb (f64_is_nan (f64_sub (volume (sint_volume_ops w D) a) (volume (sint_volume_ops w D) b))) = true).
    now rewrite (sub_not_nan _ _ _ _ Hra Hrb).
  - intros p Hp. apply scorners_in. split; exact Hp.
Qed.
Print Assumptions C85_points.

Theorem C85_boxes :
  forall (w : nat) (V : Type) (D : nat) (cfg : config) (lo hi : Z) (os : list (op (saabb (sint w) D) V)),
  w <= 31 -> 1 <= D -> (Z.of_nat w * Z.of_nat D <= 1023)%Z -> (hi - lo < 2 ^ Z.of_nat w)%Z ->
  Forall (ok_op (scorners_in_window lo hi)) os -> 1 <= min_children cfg \/ (forall b, ~ In (ORemove b) os) ->
  snd (k_run (sint_box_params w D) (sint_checks w D) cfg (rtree_new (sint_box_params w D)) os)
    = run (sint_box_params w D) cfg (rtree_new (sint_box_params w D)) os.
Proof.
  intros w V D cfg lo hi os Hw HD Hwd Hlh Hok Hrm.
  assert (Hb := fun b => swindow_vol w lo hi D b Hw Hlh HD Hwd).
  apply (swindow_run w lo hi D (sint_box_params w D) (sint_checks w D) cfg (scorners_in_window lo hi)); auto.
  - intros b H. exact (proj1 (Hb b H)).
  - intros a b Ha Hb'. destruct (proj2 (Hb a Ha)) as [ra Hra], (proj2 (Hb b Hb')) as [rb Hrb].
    change (negb (f64_is_nan (f64_sub (volume (sint_volume_ops w D) a) (volume (sint_volume_ops w D) b))) = true).
    now rewrite (sub_not_nan _ _ _ _ Hra Hrb).
  - intros b Hp. now apply scorners_in.
Qed.
Print Assumptions C85_boxes.

(** No panic. *)
Theorem C85_no_panic :
  forall (w : nat) (V : Type) (D : nat) (cfg : config) (lo hi : Z) (os : list (op (svec (sint w) D) V)),
  w <= 31 -> 1 <= D -> (Z.of_nat w * Z.of_nat D <= 1023)%Z -> (hi - lo < 2 ^ Z.of_nat w)%Z ->
  Forall (ok_op (spoint_in_window lo hi)) os -> 1 <= min_children cfg -> supported cfg ->
  exists xs t, snd (k_run (sint_point_params w D) (sint_checks w D) cfg (rtree_new (sint_point_params w D)) os) = Ok (xs, t).
Proof.
  intros w V D cfg lo hi os Hw HD Hwd Hlh Hok Hm Hs. rewrite (C85_points w V D cfg lo hi os Hw HD Hwd Hlh Hok); [|now left].
  destruct (run_no_panic (sint_point_params w D) cfg os Hs) as [[xs t] E]. eauto.
Qed.
Print Assumptions C85_no_panic.

(** Deciding whether a history stays in a window. *)
Definition sin_windowb (lo hi : Z) {w V D} (o : op (svec (sint w) D) V) : bool :=
  match op_key o with Some p => forallb (fun x => ((lo <=? sint_val w x) && (sint_val w x <=? hi))%Z) (vlist p) | None => true end.
Lemma sin_windowb_ok lo hi {w V D} (os : list (op (svec (sint w) D) V)) : forallb (sin_windowb lo hi) os = true -> Forall (ok_op (spoint_in_window lo hi)) os.
Proof.
  intros H. apply Forall_forall. intros o Hin. rewrite forallb_forall in H. specialize (H o Hin). unfold sin_windowb, ok_op in *.
  destruct (op_key o) as [p|]; [|exact I]. apply Forall_forall. intros x Hx. rewrite forallb_forall in H. specialize (H x Hx).
  apply andb_prop in H as [H1 H2]. split; now apply Z.leb_le.
Qed.
Definition sint_outcome {w V D} cfg (os : list (op (svec (sint w) D) V)) : res (nat * nat) :=
  res_map (fun r => (length (fst r), length (contents (snd r)))) (snd (k_run (sint_point_params w D) (sint_checks w D) cfg (rtree_new (sint_point_params w D)) os)).

(** [i8], coordinates from -60 to 67, splits and removals. *)
Definition i8pt (x y : Z) : svec (sint 7) 2 := sivec 7 2 [x; y].
Definition C85_history : list (op (svec (sint 7) 2) nat) :=
  map (fun x => OInsert (i8pt x (7 - x)) (Z.to_nat (x mod 97))) [-60; 67; 5; 60; -33; 7; 9; 30; 11; 12]%Z
  ++ map (fun x => ORemove (i8pt x (7 - x))) [-60; 5; -33; 11]%Z.
Example C85_example :
  (67 - -60 < 2 ^ Z.of_nat 7)%Z /\ Forall (ok_op (spoint_in_window (-60) 67)) C85_history /\ 1 <= min_children (cfg_of 4 2) /\ supported (cfg_of 4 2) /\
  match sint_outcome (cfg_of 4 2) C85_history with Ok p => p = (14, 6) | _ => False end.
Proof.
  split; [reflexivity|]. split; [apply sin_windowb_ok; vm_compute; reflexivity|]. split; [cbn; lia|]. split; [split; cbn; lia|]. vm_compute. reflexivity.
Qed.

(** The window cannot be one wider: two [i8] coordinates 128 apart. *)
Definition C85_wide_ops : list (op (svec (sint 7) 1) nat) :=
  map (fun x => OInsert (sivec 7 1 [x]) 0) [-64; 0; 1; 2; 64]%Z.
Theorem C85_window_needed :
  supported (cfg_of 4 2) /\ 1 <= min_children (cfg_of 4 2) /\ Forall (ok_op (spoint_in_window (-64) 64)) C85_wide_ops /\ (64 - -64 = 2 ^ Z.of_nat 7)%Z /\
  snd (k_run (sint_point_params 7 1) (sint_checks 7 1) (cfg_of 4 2) (rtree_new (sint_point_params 7 1)) C85_wide_ops) = Panic.
Proof.
  split; [split; cbn; lia|]. split; [cbn; lia|]. split; [apply sin_windowb_ok; vm_compute; reflexivity|]. split; [reflexivity|].
  assert (H : match sint_outcome (cfg_of 4 2) C85_wide_ops with Panic => true | _ => false end = true) by (vm_compute; reflexivity).
  unfold sint_outcome, res_map in H. destruct (snd (k_run _ _ _ _ C85_wide_ops)); cbn in H; try discriminate. reflexivity.
Qed.
Print Assumptions C85_window_needed.

(** ** Volumes *)
Section Volumes.
Local Open Scope R_scope.

Theorem C85_volume :
  forall (w D : nat) (b : saabb (sint w) (S D)),
  (w <= 31)%nat -> (S D <= 31)%nat -> valid_box (sint_ops w) b -> snarrow b ->
  computes (volume (sint_volume_ops w (S D)) b) (rounded_product (side_lengths sint_real b)) /\
  (exact_volume sint_real b <= 2 ^ 53 -> computes (volume (sint_volume_ops w (S D)) b) (exact_volume sint_real b)) /\
  exists r, computes (volume (sint_volume_ops w (S D)) b) r /\ 0 <= r /\ (r = 0 <-> In 0 (side_lengths sint_real b)) /\
    Rabs (r - exact_volume sint_real b) <= ((1 + powerRZ 2 (-53)) ^ D - 1) * exact_volume sint_real b.
Proof.
  intros w D b Hw HD Hv Hn. assert (Hk : (Z.of_nat w * Z.of_nat (S D) <= 1023)%Z) by nia.
  assert (Hb := s_sides_ok w Hw _ b Hv Hn). cbn [volume sint_volume_ops]. split; [|split].
  - apply rep_cv. now apply (vol_rounded (sint_val w) (sint_sub w) (sint_into_f64 w) (Z.of_nat w) ltac:(lia)).
  - intros Hs. apply rep_cv. now apply (vol_exact (sint_val w) (sint_sub w) (sint_into_f64 w) (Z.of_nat w) ltac:(lia)).
  - destruct (vol_flat (sint_val w) (sint_sub w) (sint_into_f64 w) (Z.of_nat w) ltac:(lia) b Hb Hk) as (r & Hr & H0 & H1).
    destruct (vol_close (sint_val w) (sint_sub w) (sint_into_f64 w) (Z.of_nat w) ltac:(lia) b Hb Hk) as (r' & Hr' & H2).
    rewrite <- (rep_unique _ _ _ Hr Hr') in H2. exists r. split; [now apply rep_cv|]. split; [exact H0|]. split; [exact H1|exact H2].
Qed.
Print Assumptions C85_volume.

Theorem C85_volume_monotone :
  forall (w D : nat) (a b : saabb (sint w) (S D)),
  (w <= 31)%nat -> (S D <= 31)%nat -> valid_box (sint_ops w) a -> box_incl (sint_ops w) b a -> snarrow b ->
  let VO := sint_volume_ops w (S D) in
  n64_cmp VO (volume VO a) (volume VO b) <> Gt /\
  exists r s, computes (volume VO a) r /\ computes (volume VO b) s /\ 0 <= r <= s /\
    computes (n64_sub VO (volume VO b) (volume VO a)) (rne 53 1024 (s - r)) /\ 0 <= rne 53 1024 (s - r).
Proof.
  intros w D a b Hw HD Hv Hi Hn. assert (Hk : (Z.of_nat w * Z.of_nat (S D) <= 1023)%Z) by nia. cbn [volume sint_volume_ops n64_cmp n64_sub].
  destruct (s_incl_sides w Hw _ a b Hv Hi Hn) as (Hvb & Hna).
  assert (Ha := s_sides_ok w Hw _ a Hv Hna). assert (Hb := s_sides_ok w Hw _ b Hvb Hn).
  destruct (vol_mono (sint_ops w) (sint_val w) (sint_sub w) (sint_into_f64 w) (Z.of_nat w) (s_le_val w) ltac:(lia) a b Ha Hb Hk Hv Hi) as (r & s & Hr & Hs & Hle).
  destruct (vol_flat (sint_val w) (sint_sub w) (sint_into_f64 w) (Z.of_nat w) ltac:(lia) a Ha Hk) as (r' & Hr' & H0 & _).
  rewrite <- (rep_unique _ _ _ Hr Hr') in H0.
  destruct (increase_nonneg _ _ _ _ Hr Hs (conj H0 Hle)) as (Hc & i & Hi' & Hi0 & ->). split; [exact Hc|].
  exists r, s. split; [now apply rep_cv|]. split; [now apply rep_cv|]. split; [now split|]. split; [now apply rep_cv|exact Hi0].
Qed.
Print Assumptions C85_volume_monotone.

(** Two boxes of [i8] as wide as can be, one inside the other. *)
Example C85_volume_example :
  valid_box (sint_ops 7) (sibox 7 2 [-60; 2]%Z [67; 7]%Z) /\ snarrow (sibox 7 2 [-60; 2]%Z [67; 7]%Z) /\
  exact_volume sint_real (sibox 7 2 [-60; 2]%Z [67; 7]%Z) = 635 /\ volume (sint_volume_ops 7 2) (sibox 7 2 [-60; 2]%Z [67; 7]%Z) = f64_of_Z 635 /\
  box_incl (sint_ops 7) (sibox 7 2 [-60; 2]%Z [67; 7]%Z) (sibox 7 2 [1; 3]%Z [2; 7]%Z) /\ valid_box (sint_ops 7) (sibox 7 2 [1; 3]%Z [2; 7]%Z).
Proof.
  split; [|split; [|split; [|split; [|split]]]].
  - unfold valid_box. repeat (apply vec_le_cons; split; [reflexivity|]). apply vec_le_nil.
  - repeat constructor; vm_compute; reflexivity.
  - unfold exact_volume, side_lengths, sint_real. cbn. lra.
  - vm_compute. reflexivity.
  - split; repeat (apply vec_le_cons; split; [reflexivity|]); apply vec_le_nil.
  - unfold valid_box. repeat (apply vec_le_cons; split; [reflexivity|]). apply vec_le_nil.
Qed.
End Volumes.

(** ** The heuristics, for every box of the type *)

(** The child an entry descends into (C42). *)
Theorem C85_select :
  forall (w D : nat) (K : Type) (P : Params (saabb (sint w) (S D)) K) (bs : list (saabb (sint w) (S D))) (eb : saabb (sint w) (S D)),
  w <= 31 -> S D <= 31 -> vops P = sint_volume_ops w (S D) -> bs <> [] ->
  exists i, select P bs eb = Some i /\ least_enlargement P bs eb i.
Proof.
  intros * Hw HD E Hne. assert (VL : volume_laws (vops P)) by (rewrite E; now apply sint_volume_laws).
  destruct (select_spec P bs eb Hne) as (i & Es & _). exists i. split; [exact Es|]. exact (select_least P VL bs eb i Es).
Qed.
Print Assumptions C85_select.

(** The seeds of a split (what holds of C44). *)
Theorem C85_seeds :
  forall (w D : nat) (K T : Type) (P : Params (saabb (sint w) (S D)) K) (bnd : T -> saabb (sint w) (S D)) (cap min : nat) (values : list T) (ov : T) b1 b2 g1 g2,
  w <= 31 -> S D <= 31 -> vops P = sint_volume_ops w (S D) ->
  length values = cap -> split P bnd cap min values ov = Ok (b1, b2, g1, g2) ->
  exists i j s1 s2 m, i < j /\ nth_error (values ++ [ov]) i = Some s1 /\ nth_error (values ++ [ov]) j = Some s2 /\
    hd_error g1 = Some s1 /\ hd_error g2 = Some s2 /\ seed_volume P bnd values ov i j = Some m /\
    forall i' j' m', i' < j' -> seed_volume P bnd values ov i' j' = Some m' -> n64_cmp (vops P) m' m <> Gt.
Proof.
  intros * Hw HD E. apply C44_groups_partial.
  - rewrite E. now apply sint_volume_laws.
  - rewrite E. intros b. now apply sint_neg_inf.
Qed.
Print Assumptions C85_seeds.

(** The distribution over the two halves (what holds of C81). *)
Theorem C85_distribution :
  forall (w D : nat) (K T : Type) (P : Params (saabb (sint w) (S D)) K) (bnd : T -> saabb (sint w) (S D)) (cap min : nat) (values : list T) (ov : T) r,
  w <= 31 -> S D <= 31 -> vops P = sint_volume_ops w (S D) -> 2 * min <= cap -> length values = cap -> split P bnd cap min values ov = Ok r ->
  split_result P bnd (fun n => n <= min + 1) (fun n => n <= min) values ov r.
Proof. intros * Hw HD E. apply C81_partial. rewrite E. now apply sint_volume_laws. Qed.
Print Assumptions C85_distribution.

Example C85_heuristics_example :
  let P := sint_point_params 7 1 in let pt x := sivec 7 1 [x]%Z in
  vops P = sint_volume_ops 7 1 /\
  match split P point_bounds 4 2 [pt (-100)%Z; pt 100%Z; pt 99%Z; pt 98%Z] (pt 97%Z) with Ok (_, _, g1, g2) => length g1 + length g2 = 5 | _ => False end.
Proof. cbv zeta. split; [reflexivity|]. vm_compute. reflexivity. Qed.

(** ** Queries *)

(** A query box (C33). *)
Theorem C85_box_query :
  forall (w D : nat) (VO : VolumeOps (saabb (sint w) D)) (V : Type) (cfg : config)
    (t : rtree (saabb (sint w) D) (saabb (sint w) D) V) (q : saabb (sint w) D),
  reachable (box_params (sint_ops w) VO) cfg (valid_box (sint_ops w)) t -> valid_box (sint_ops w) q ->
  let f := intersects_filter (box_intersects_box (sint_ops w)) (box_intersects_box (sint_ops w)) q in
  exists s l, rtree_filter_iter t f = Ok s /\ iterates (iter_next_with (fun k => k) f) s l /\
    exactly (fun kv => exists p, in_box (sint_ops w) q p /\ in_box (sint_ops w) (fst kv) p) l (contents t).
Proof. intros * Hr Hq f. eapply (C33_box_query _ (sint_ops w) D VO V cfg t q f (sint_laws w) Hr Hq). now left. Qed.
Print Assumptions C85_box_query.

Local Open Scope Z_scope.

(** Nearest neighbours, every build: exact, if the squared distances fit into the type. *)
Theorem C85_nearest :
  forall (w : nat) (V : Type) (D : nat) (VO : VolumeOps (saabb (sint w) (S D)))
    (cfg : config) (PQ : PQueue (ranked (saabb (sint w) (S D)) (svec (sint w) (S D)) V (sint w)))
    (t : rtree (saabb (sint w) (S D)) (svec (sint w) (S D)) V) (p : svec (sint w) (S D)),
  pqueue_laws (ranked_cmp (int_cmp (sint_val w))) PQ -> reachable (point_params (sint_ops w) VO) cfg any_key t ->
  (forall e, In e (contents t) -> zdist2 (sint_val w) (fst e) p < 2 ^ Z.of_nat w) ->
  exists l, Permutation l (contents t) /\
    ForallOrdPairs (fun x y => zdist2 (sint_val w) (fst x) p <= zdist2 (sint_val w) (fst y) p) l /\
    iterates (asc_next PQ (euclid_points (sint_ops w) (sint_arith w) p)) (asc_new PQ (euclid_points (sint_ops w) (sint_arith w) p) t) l.
Proof.
  intros w V D VO cfg PQ t p QL Hr Hfit.
  destruct (C35_nearest_points (sint w) V (sint_ops w) (sint_arith w) (sint_val w) (- sint_half w) (sint_half w - 1) D VO cfg PQ t p (sint_int_laws w) QL Hr) as ((l & H1 & H2 & H3) & _).
  - intros e He. specialize (Hfit e He). unfold sint_half. lia.
  - exists l. auto.
Qed.
Print Assumptions C85_nearest.

(** With overflow checks: no panic on the way. *)
Theorem C85_nearest_checked :
  forall (w : nat) (V : Type) (D : nat) (VO : VolumeOps (saabb (sint w) (S D)))
    (cfg : config) (PQ : PQueue (ranked (saabb (sint w) (S D)) (svec (sint w) (S D)) V (sint w)))
    (t : rtree (saabb (sint w) (S D)) (svec (sint w) (S D)) V) (p : svec (sint w) (S D)),
  pqueue_laws (ranked_cmp (int_cmp (sint_val w))) PQ -> (1 <= min_children cfg)%nat ->
  reachable (point_params (sint_ops w) VO) cfg any_key t -> contents t <> [] ->
  (forall e, In e (contents t) -> zdist2 (sint_val w) (fst e) p < 2 ^ Z.of_nat w) ->
  exists l, Permutation l (contents t) /\
    ForallOrdPairs (fun x y => zdist2 (sint_val w) (fst x) p <= zdist2 (sint_val w) (fst y) p) l /\
    searches_without_panic PQ (checked_euclid_points (sint_ops w) (sint_checked_ops w) p) t l.
Proof.
  intros w V D VO cfg PQ t p QL Hmin Hr Hne Hfit.
  apply (C45_search_points_partial (sint w) V (sint_ops w) (sint_arith w) (sint_checked_ops w) (sint_val w) (- sint_half w) (sint_half w - 1) D VO cfg PQ t p
    (sint_int_laws w) (sint_checked_laws w) ltac:(lia) QL Hmin Hr Hne).
  intros e He. specialize (Hfit e He). unfold sint_half. lia.
Qed.
Print Assumptions C85_nearest_checked.

(** Nearest boxes, by their least squared distance; with overflow checks. *)
Theorem C85_nearest_boxes_checked :
  forall (w : nat) (V : Type) (D : nat) (VO : VolumeOps (saabb (sint w) (S D)))
    (cfg : config) (PQ : PQueue (ranked (saabb (sint w) (S D)) (saabb (sint w) (S D)) V (sint w)))
    (t : rtree (saabb (sint w) (S D)) (saabb (sint w) (S D)) V) (p : svec (sint w) (S D)) (dist : saabb (sint w) (S D) -> Z),
  pqueue_laws (ranked_cmp (int_cmp (sint_val w))) PQ -> (1 <= min_children cfg)%nat ->
  reachable (box_params (sint_ops w) VO) cfg any_key t -> contents t <> [] ->
  (forall e, In e (contents t) -> least_dist2 (sint_ops w) (sint_val w) (fst e) p (dist (fst e)) /\ dist (fst e) < 2 ^ Z.of_nat w) ->
  exists l, Permutation l (contents t) /\ ForallOrdPairs (fun x y => dist (fst x) <= dist (fst y)) l /\
    searches_without_panic PQ (checked_euclid_boxes (sint_ops w) (sint_checked_ops w) p) t l.
Proof.
  intros w V D VO cfg PQ t p dist QL Hmin Hr Hne Hfit.
  apply (C45_search_boxes_partial (sint w) V (sint_ops w) (sint_arith w) (sint_checked_ops w) (sint_val w) (- sint_half w) (sint_half w - 1) D VO cfg PQ t p dist
    (sint_int_laws w) (sint_checked_laws w) ltac:(lia) QL Hmin Hr Hne).
  intros e He. destruct (Hfit e He) as [H1 H2]. split; [exact H1|]. unfold sint_half. lia.
Qed.
Print Assumptions C85_nearest_boxes_checked.

(** [i8]: the squared distances of nine points from (0, 0), at most 127. *)
Definition i8_tree : rtree (saabb (sint 7) 2) (svec (sint 7) 2) nat :=
  final (sint_point_params 7 2) (cfg_of 4 2) (map (fun x => OInsert (i8pt x (8 - x)) (Z.to_nat x)) [1; 2; 3; 4; 5; 6; 7; 8; 9]).
Definition IQ8 : PQueue (ranked (saabb (sint 7) 2) (svec (sint 7) 2) nat (sint 7)) := list_queue (ranked_cmp (int_cmp (sint_val 7))).
Definition C85_codes (n : nat) : list nat :=
  match fx_sorted_new IQ8 (checked_euclid_points (sint_ops 7) (sint_checked_ops 7) (i8pt 0 0)) i8_tree tt with
  | (None, _) => []
  | (Some h, w) =>
    match session (traced (fx_sorted_next IQ8 (rlogged (checked_euclid_points (sint_ops 7) (sint_checked_ops 7) (i8pt 0 0))))) (repeat (fun w => w) n) h w [] with
    | Ok (os, _, _, _) => map (fun o => match o with Yield e => snd e | Done => 1000 | Panicked => 2000 end)%nat os
    | _ => []
    end
  end.
Example C85_nearest_example :
  pqueue_laws (ranked_cmp (int_cmp (sint_val 7))) IQ8 /\ (1 <= min_children (cfg_of 4 2))%nat /\
  reachable (sint_point_params 7 2) (cfg_of 4 2) any_key i8_tree /\ contents i8_tree <> [] /\
  (forall e, In e (contents i8_tree) -> zdist2 (sint_val 7) (fst e) (i8pt 0 0) < 2 ^ Z.of_nat 7) /\
  (let l := C85_codes 10 in length l = 10%nat /\ hd 0%nat l = 4%nat /\ nth 8 l 0%nat = 9%nat /\ nth 9 l 0%nat = 1000%nat).
Proof.
  split; [apply list_queue_laws, ranked_cmp_laws, int_cmp_laws|]. split; [cbn; lia|]. split; [apply final_reachable_any|].
  split. { assert (H : length (contents i8_tree) = 9%nat) by (vm_compute; reflexivity). intros E. rewrite E in H. clear E. discriminate H. }
  split; [|vm_compute; repeat split].
  assert (H : forallb (fun e => zdist2 (sint_val 7) (fst e) (i8pt 0 0) <? 128) (contents i8_tree) = true) by (vm_compute; reflexivity).
  rewrite forallb_forall in H. intros e He. apply Z.ltb_lt. exact (H e He).
Qed.

(** The squared distances must fit: in a release build a point at distance 16 (256 wraps to 0) is nearer than one at distance 1. *)
Theorem C85_fit_needed :
  let d x := sint_val 7 (point_dist_sq (sint_arith 7) (sivec 7 1 [x]) (sivec 7 1 [0])) in
  d 16 < d 1 /\ point_dist_sq_checked (sint_checked_ops 7) (sivec 7 1 [16]) (sivec 7 1 [0]) = Panic.
Proof. cbv zeta. split; [vm_compute; reflexivity|]. apply is_panic_spec. vm_compute. reflexivity. Qed.
Print Assumptions C85_fit_needed.
