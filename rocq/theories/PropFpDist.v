(** Properties C59 and C60: nearest-neighbour search with floating-point coordinates.  Vocabulary: FpSpec.v. *)
From Coq Require Import Reals Lra Floats.SpecFloat.
From Verif Require Import SortedWitness DistProof PropSorted PropDist FpDist PropFp.
Local Open Scope R_scope.

(** ** C59 the order of the computed distances; no NaN *)

(** The squared distance between finite points, computed with the plain operators of the float type, is never NaN (it may be
    infinite), so the wrapper that forbids NaN changes nothing: no panic in a debug build, no broken order in a release build. *)
Theorem C59_no_nan_points :
  forall (p e : Z) (D : nat) (a x : svec (nf p e) (S D)),
  fp_format p e -> finite_point a -> finite_point x ->
  point_dist_sq (sf_arith p e) (vmap nf_raw a) (vmap nf_raw x) <> S754_nan /\
  nf_raw (point_dist_sq (nf_arith p e) a x) = point_dist_sq (sf_arith p e) (vmap nf_raw a) (vmap nf_raw x).
Proof.
  intros p e D a x Hf Ha Hx. assert (E := point_dist_raw p e Hf D a x Ha Hx). split; [|exact E].
  unfold raw_vec in E. rewrite <- E. assert (H := nf_prop p e (point_dist_sq (nf_arith p e) a x)). intros H'. rewrite H' in H. discriminate.
Qed.
Print Assumptions C59_no_nan_points.

(** The same for the distance to a box that contains a finite point: the box may be a half-space or the whole space. *)
Theorem C59_no_nan_boxes :
  forall (p e : Z) (D : nat) (b : saabb (nf p e) (S D)) (q x : svec (nf p e) (S D)),
  fp_format p e -> finite_point q -> x_in_box b q -> finite_point x ->
  exists c, finite_point c /\ x_in_box b c /\ (forall q', finite_point q' -> x_in_box b q' -> rdist2 c x <= rdist2 q' x) /\
  point_dist_sq (sf_arith p e) (vmap nf_raw c) (vmap nf_raw x) <> S754_nan /\
  nf_raw (box_dist_sq (nf_ops p e) (nf_arith p e) b x) = point_dist_sq (sf_arith p e) (vmap nf_raw c) (vmap nf_raw x).
Proof.
  intros p e D b q x Hf Hq Hb Hx. exists (cw_min (nf_ops p e) (cw_max (nf_ops p e) x (bmin b)) (bmax b)).
  destruct (clamp_vec p e _ b q x Hx Hq Hb) as (C1 & C2 & _). split; [exact C1|]. split; [exact C2|]. split.
  - intros q' Hq' Hb'. destruct (clamp_vec p e _ b q' x Hx Hq' Hb') as (_ & _ & H). now apply (rdist2_le p e).
  - now apply C59_no_nan_points.
Qed.
Print Assumptions C59_no_nan_boxes.

(** The list is in ascending order of the distances that [d] gives. *)
Definition fp_ascending {p e : Z} {E : Type} (d : E -> nf p e) (l : list E) : Prop :=
  ForallOrdPairs (fun x y => x_le (nf_value (d x)) (nf_value (d y))) l.

(** [iter_asc_by] yields the contents, in ascending order of the computed distances, whatever lawful heap is used, and [min_by]
    returns an entry at the least computed distance; finite keys and a finite query point. *)
Theorem C59_nearest_points :
  forall (p e : Z) (V : Type) (D : nat) (VO : VolumeOps (saabb (nf p e) (S D)))
    (cfg : config) (PQ : PQueue (ranked (saabb (nf p e) (S D)) (svec (nf p e) (S D)) V (nf p e)))
    (t : rtree (saabb (nf p e) (S D)) (svec (nf p e) (S D)) V) (x : svec (nf p e) (S D)),
  fp_format p e -> pqueue_laws (ranked_cmp nf_cmp) PQ ->
  reachable (point_params (nf_ops p e) VO) cfg any_key t ->
  (forall k v, In (k, v) (contents t) -> finite_point k) -> finite_point x ->
  (exists l, iterates (asc_next PQ (euclid_points (nf_ops p e) (nf_arith p e) x)) (asc_new PQ (euclid_points (nf_ops p e) (nf_arith p e) x) t) l /\
     Permutation l (contents t) /\ fp_ascending (fun kv => point_dist_sq (nf_arith p e) (fst kv) x) l) /\
  exists o, rtree_min_by PQ (euclid_points (nf_ops p e) (nf_arith p e) x) t = Ok o /\ (o = None <-> contents t = []) /\
    forall kv, o = Some kv -> In kv (contents t) /\
      forall kv', In kv' (contents t) ->
        x_le (nf_value (point_dist_sq (nf_arith p e) (fst kv) x)) (nf_value (point_dist_sq (nf_arith p e) (fst kv') x)).
Proof.
  intros p e V D VO cfg PQ t x Hf QL Hr Hfin Hx.
  assert (Hw : wf cfg finite_point (rel_cover (point_params (nf_ops p e) VO) (box_incl (nf_ops p e))) 0%nat False (fst t) (snd t)).
  { eapply wf_ok_in; [apply (inv_cover (point_params (nf_ops p e) VO) cfg any_key (box_incl (nf_ops p e)) t (box_bounds_laws _ (nf_order p e) _) Hr)|]. intros k Hk.
    unfold keys in Hk. apply in_map_iff in Hk as ([k' v] & <- & He). exact (Hfin k' v He). }
  destruct (asc_wf _ _ _ _ _ _ PQ t _ _ (nf_cmp_laws p e) (fp_points_lawful p e Hf D VO x Hx) QL Hw) as (l & H1 & H2 & H3).
  assert (Hasc : fp_ascending (fun kv => point_dist_sq (nf_arith p e) (fst kv) x) l).
  { unfold fp_ascending, ascending in *. clear -H3. induction H3 as [|y l Hy _ IH]; constructor; [|auto].
    rewrite Forall_forall in *. intros z Hz. apply nf_cmp_le. exact (Hy z Hz). }
  split; [exists l; auto|]. destruct (first_call _ _ _ H1) as (s' & E). exists (hd_error l). unfold rtree_min_by. rewrite E.
  split; [reflexivity|]. destruct l as [|y l]; cbn [hd_error].
  - apply Permutation_nil in H2. rewrite H2. split; [tauto|discriminate].
  - split; [split; [discriminate|]; intros E'; rewrite E' in H2; now apply Permutation_sym, Permutation_nil in H2|].
    intros kv [= <-]. split; [rewrite <- H2; now left|]. intros kv' He'. rewrite <- H2 in He'.
    inversion Hasc as [|? ? Hy _]; subst. destruct He' as [<-|He']; [apply x_le_refl|]. rewrite Forall_forall in Hy. auto.
Qed.
Print Assumptions C59_nearest_points.

(** The same for boxes, each of which must contain a finite point. *)
Theorem C59_nearest_boxes :
  forall (p e : Z) (V : Type) (D : nat) (VO : VolumeOps (saabb (nf p e) (S D)))
    (cfg : config) (PQ : PQueue (ranked (saabb (nf p e) (S D)) (saabb (nf p e) (S D)) V (nf p e)))
    (t : rtree (saabb (nf p e) (S D)) (saabb (nf p e) (S D)) V) (x : svec (nf p e) (S D)),
  fp_format p e -> pqueue_laws (ranked_cmp nf_cmp) PQ ->
  reachable (box_params (nf_ops p e) VO) cfg any_key t ->
  (forall k v, In (k, v) (contents t) -> exists q, finite_point q /\ x_in_box k q) -> finite_point x ->
  (exists l, iterates (asc_next PQ (euclid_boxes (nf_ops p e) (nf_arith p e) x)) (asc_new PQ (euclid_boxes (nf_ops p e) (nf_arith p e) x) t) l /\
     Permutation l (contents t) /\ fp_ascending (fun kv => box_dist_sq (nf_ops p e) (nf_arith p e) (fst kv) x) l) /\
  exists o, rtree_min_by PQ (euclid_boxes (nf_ops p e) (nf_arith p e) x) t = Ok o /\ (o = None <-> contents t = []) /\
    forall kv, o = Some kv -> In kv (contents t) /\
      forall kv', In kv' (contents t) ->
        x_le (nf_value (box_dist_sq (nf_ops p e) (nf_arith p e) (fst kv) x)) (nf_value (box_dist_sq (nf_ops p e) (nf_arith p e) (fst kv') x)).
Proof.
  intros p e V D VO cfg PQ t x Hf QL Hr Hfin Hx.
  assert (Hw : wf cfg (fun k => exists q, finite_point q /\ x_in_box k q) (rel_cover (box_params (nf_ops p e) VO) (box_incl (nf_ops p e))) 0%nat False (fst t) (snd t)).
  { eapply wf_ok_in; [apply (inv_cover (box_params (nf_ops p e) VO) cfg any_key (box_incl (nf_ops p e)) t (box_bounds_laws _ (nf_order p e) _) Hr)|]. intros k Hk.
    unfold keys in Hk. apply in_map_iff in Hk as ([k' v] & <- & He). exact (Hfin k' v He). }
  destruct (asc_wf _ _ _ _ _ _ PQ t _ _ (nf_cmp_laws p e) (fp_boxes_lawful p e Hf D VO x Hx) QL Hw) as (l & H1 & H2 & H3).
  assert (Hasc : fp_ascending (fun kv => box_dist_sq (nf_ops p e) (nf_arith p e) (fst kv) x) l).
  { unfold fp_ascending, ascending in *. clear -H3. induction H3 as [|y l Hy _ IH]; constructor; [|auto].
    rewrite Forall_forall in *. intros z Hz. apply nf_cmp_le. exact (Hy z Hz). }
  split; [exists l; auto|]. destruct (first_call _ _ _ H1) as (s' & E). exists (hd_error l). unfold rtree_min_by. rewrite E.
  split; [reflexivity|]. destruct l as [|y l]; cbn [hd_error].
  - apply Permutation_nil in H2. rewrite H2. split; [tauto|discriminate].
  - split; [split; [discriminate|]; intros E'; rewrite E' in H2; now apply Permutation_sym, Permutation_nil in H2|].
    intros kv [= <-]. split; [rewrite <- H2; now left|]. intros kv' He'. rewrite <- H2 in He'.
    inversion Hasc as [|? ? Hy _]; subst. destruct He' as [<-|He']; [apply x_le_refl|]. rewrite Forall_forall in Hy. auto.
Qed.
Print Assumptions C59_nearest_boxes.

(** An example: the tree of doubles of C58 without its last point, a query point between the points. *)
Definition LQf {B K V : Type} {p e : Z} : PQueue (ranked B K V (nf p e)) := list_queue (ranked_cmp nf_cmp).
Lemma LQf_laws {B K V : Type} {p e : Z} : pqueue_laws (ranked_cmp nf_cmp) (@LQf B K V p e).
Proof. apply list_queue_laws, ranked_cmp_laws, nf_cmp_laws. Qed.

Example C59_example :
  fp_format 53 1024 /\ pqueue_laws (ranked_cmp nf_cmp) (@LQf (saabb n64 2) (svec n64 2) nat 53 1024) /\
  reachable PF (cfg_of 4 2) any_key fin_sample /\ (forall k v, In (k, v) (contents fin_sample) -> finite_point k) /\
  finite_point (fp ftenth (fz 3)) /\
  run_iter (asc_next LQf (euclid_points (nf_ops 53 1024) (nf_arith 53 1024) (fp ftenth (fz 3))))
    (Ok (asc_new LQf (euclid_points (nf_ops 53 1024) (nf_arith 53 1024) (fp ftenth (fz 3))) fin_sample)) 12 =
    Ok (map Some [5; 6; 3; 8; 1; 9; 10; 2; 4; 7]%nat ++ [None; None]).
Proof.
  split; [split; reflexivity|]. split; [apply LQf_laws|]. split; [apply final_reachable_any|].
  split; [|split; [apply finite_pointb; vm_compute; reflexivity|vm_compute; reflexivity]].
  intros k v Hin. assert (E : forallb (fun kv => forallb (fun x => sf_fin (nf_raw x)) (vlist (fst kv))) (contents fin_sample) = true)
    by (vm_compute; reflexivity).
  rewrite forallb_forall in E. apply finite_pointb. exact (E (k, v) Hin).
Qed.

(** ** C60 the order of the true distances: false, but true up to the rounding errors *)

(** The computed distance, with [D + 1] dimensions: either a finite number within [(1 +- 2^-p)^(D+3)] of the true squared distance,
    but for the underflow of the [D + 1] squares, or infinite, and then the true distance is about the greatest number or more. *)
Theorem C60_distance_error_partial :
  forall (p e : Z) (D : nat) (a x : svec (nf p e) (S D)),
  fp_format p e -> finite_point a -> finite_point x ->
  match nf_value (point_dist_sq (nf_arith p e) a x) with
  | XReal r =>
      (1 - fp_u p) ^ (D + 3) * rdist2 a x - INR (S D) * fp_eta p e <= r <= (1 + fp_u p) ^ (D + 3) * (rdist2 a x + INR (S D) * fp_eta p e)
  | XPlus => powerRZ 2 e <= (1 + fp_u p) ^ (D + 3) * (rdist2 a x + INR (S D) * fp_eta p e)
  | XMinus => False
  end.
Proof.
  intros p e D a x Hf Ha Hx. assert (H := dist_approx p e Hf D a x Ha Hx). rewrite (Nat.add_comm D 3).
  unfold approx, fmax_ in H. rewrite Flocq.Core.Raux.bpow_powerRZ in H. exact H.
Qed.
Print Assumptions C60_distance_error_partial.

(** Hence [iter_asc_by] is ascending in the true distance up to that error: an entry that comes before another one is at most
    that much farther away.  (Entries so far away that the distance overflows come last.) *)
Theorem C60_nearest_points_partial :
  forall (p e : Z) (V : Type) (D : nat) (VO : VolumeOps (saabb (nf p e) (S D)))
    (cfg : config) (PQ : PQueue (ranked (saabb (nf p e) (S D)) (svec (nf p e) (S D)) V (nf p e)))
    (t : rtree (saabb (nf p e) (S D)) (svec (nf p e) (S D)) V) (x : svec (nf p e) (S D)),
  fp_format p e -> pqueue_laws (ranked_cmp nf_cmp) PQ ->
  reachable (point_params (nf_ops p e) VO) cfg any_key t ->
  (forall k v, In (k, v) (contents t) -> finite_point k) -> finite_point x ->
  exists l, iterates (asc_next PQ (euclid_points (nf_ops p e) (nf_arith p e) x)) (asc_new PQ (euclid_points (nf_ops p e) (nf_arith p e) x) t) l /\
    Permutation l (contents t) /\
    ForallOrdPairs (fun y z =>
      (1 + fp_u p) ^ (D + 3) * (rdist2 (fst z) x + INR (S D) * fp_eta p e) < powerRZ 2 e ->
      (1 - fp_u p) ^ (D + 3) * rdist2 (fst y) x - INR (S D) * fp_eta p e <= (1 + fp_u p) ^ (D + 3) * (rdist2 (fst z) x + INR (S D) * fp_eta p e)) l.
Proof.
  intros p e V D VO cfg PQ t x Hf QL Hr Hfin Hx.
  destruct (C59_nearest_points p e V D VO cfg PQ t x Hf QL Hr Hfin Hx) as [(l & H1 & H2 & H3) _].
  exists l. split; [exact H1|]. split; [exact H2|].
  assert (Hl : Forall (fun kv => finite_point (fst kv)) l).
  { apply Forall_forall. intros [k v] Hin. apply (Hfin k v). now rewrite <- H2. }
  clear -H3 Hl Hf Hx. induction H3 as [|y l Hy _ IH]; constructor; inversion Hl as [|? ? Hl1 Hl2]; subst; [|auto].
  rewrite Forall_forall in *. intros z Hz Hlt. specialize (Hy z Hz).
  assert (Ay := C60_distance_error_partial p e D (fst y) x Hf Hl1 Hx). assert (Az := C60_distance_error_partial p e D (fst z) x Hf (Hl2 z Hz) Hx).
  destruct (nf_value (point_dist_sq (nf_arith p e) (fst z) x)) as [|r|]; [contradiction| |lra].
  destruct (nf_value (point_dist_sq (nf_arith p e) (fst y) x)) as [|s|]; cbn in Hy; lra || contradiction.
Qed.
Print Assumptions C60_nearest_points_partial.

(** The same for boxes: for every point [q'] of the later box there is a point [q] of the earlier one that is at most that much farther away. *)
Theorem C60_nearest_boxes_partial :
  forall (p e : Z) (V : Type) (D : nat) (VO : VolumeOps (saabb (nf p e) (S D)))
    (cfg : config) (PQ : PQueue (ranked (saabb (nf p e) (S D)) (saabb (nf p e) (S D)) V (nf p e)))
    (t : rtree (saabb (nf p e) (S D)) (saabb (nf p e) (S D)) V) (x : svec (nf p e) (S D)),
  fp_format p e -> pqueue_laws (ranked_cmp nf_cmp) PQ ->
  reachable (box_params (nf_ops p e) VO) cfg any_key t ->
  (forall k v, In (k, v) (contents t) -> exists q, finite_point q /\ x_in_box k q) -> finite_point x ->
  exists l, iterates (asc_next PQ (euclid_boxes (nf_ops p e) (nf_arith p e) x)) (asc_new PQ (euclid_boxes (nf_ops p e) (nf_arith p e) x) t) l /\
    Permutation l (contents t) /\
    ForallOrdPairs (fun y z => forall q', finite_point q' -> x_in_box (fst z) q' ->
      (1 + fp_u p) ^ (D + 3) * (rdist2 q' x + INR (S D) * fp_eta p e) < powerRZ 2 e ->
      exists q, finite_point q /\ x_in_box (fst y) q /\
      (1 - fp_u p) ^ (D + 3) * rdist2 q x - INR (S D) * fp_eta p e <= (1 + fp_u p) ^ (D + 3) * (rdist2 q' x + INR (S D) * fp_eta p e)) l.
Proof.
  intros p e V D VO cfg PQ t x Hf QL Hr Hfin Hx.
  destruct (C59_nearest_boxes p e V D VO cfg PQ t x Hf QL Hr Hfin Hx) as [(l & H1 & H2 & H3) _].
  exists l. split; [exact H1|]. split; [exact H2|].
  assert (Hl : Forall (fun kv => exists q, finite_point q /\ x_in_box (fst kv) q) l).
  { apply Forall_forall. intros [k v] Hin. apply (Hfin k v). now rewrite <- H2. }
  clear -H3 Hl Hf Hx. induction H3 as [|y l Hy _ IH]; constructor; inversion Hl as [|? ? Hl1 Hl2]; subst; [|auto].
  rewrite Forall_forall in *. intros z Hz q' Hq' Hb' Hlt. specialize (Hy z Hz). destruct Hl1 as (q & Hq & Hb).
  destruct (clamp_vec p e _ (fst y) q x Hx Hq Hb) as (C1 & C2 & _).
  destruct (clamp_vec p e _ (fst z) q' x Hx Hq' Hb') as (D1 & D2 & D3). apply (rdist2_le p e) in D3; try assumption.
  eexists. split; [exact C1|]. split; [exact C2|].
  assert (Ay := C60_distance_error_partial p e D _ x Hf C1 Hx). assert (Az := C60_distance_error_partial p e D _ x Hf D1 Hx).
  cbv beta in Hy. unfold box_dist_sq in Hy.
  assert (Hu := u_range p e Hf). assert (0 <= (1 + fp_u p) ^ (D + 3)) by (apply pow_le; lra).
  assert (K : (1 + fp_u p) ^ (D + 3) * (rdist2 (cw_min (nf_ops p e) (cw_max (nf_ops p e) x (bmin (fst z))) (bmax (fst z))) x + INR (S D) * fp_eta p e)
              <= (1 + fp_u p) ^ (D + 3) * (rdist2 q' x + INR (S D) * fp_eta p e)) by (apply Rmult_le_compat_l; lra).
  destruct (nf_value (point_dist_sq (nf_arith p e) (cw_min (nf_ops p e) (cw_max (nf_ops p e) x (bmin (fst z))) (bmax (fst z))) x)) as [|r|]; [contradiction| |lra].
  destruct (nf_value (point_dist_sq (nf_arith p e) (cw_min (nf_ops p e) (cw_max (nf_ops p e) x (bmin (fst y))) (bmax (fst y))) x)) as [|s|]; cbn in Hy; lra || contradiction.
Qed.
Print Assumptions C60_nearest_boxes_partial.

(** The order is not that of the true distances: from the origin, the point (1, t, t) is yielded before (1, t', 0), and is what
    [min_by] returns, although it is farther away; [t = 181 * 2^-34], [t' = 182 * 2^-34]. *)
Definition ff (m : Z) (ex : Z) : n64 := nf_of 53 1024 (SpecFloat.binary_normalize 53 1024 m ex false).
Definition far3 : svec n64 3 := (ff 1 0, (ff 181 (-34), (ff 181 (-34), tt))).
Definition near3 : svec n64 3 := (ff 1 0, (ff 182 (-34), (ff 0 0, tt))).
Definition zero3 : svec n64 3 := (ff 0 0, (ff 0 0, (ff 0 0, tt))).
Definition inv_tree : rtree (saabb n64 3) (svec n64 3) nat :=
  final (nf_point_params 53 1024 3) (cfg_of 4 2) [OInsert near3 0%nat; OInsert far3 1%nat].

Theorem C60_true_order_refuted :
  exists (t : rtree (saabb n64 3) (svec n64 3) nat) (x far near : svec n64 3),
  reachable (nf_point_params 53 1024 3) (cfg_of 4 2) any_key t /\ finite_point x /\
  (forall k v, In (k, v) (contents t) -> finite_point k) /\
  contents t = [(near, 0%nat); (far, 1%nat)] /\ rdist2 near x < rdist2 far x /\
  forall PQ, pqueue_laws (ranked_cmp nf_cmp) PQ ->
  rtree_min_by PQ (euclid_points (nf_ops 53 1024) (nf_arith 53 1024) x) t = Ok (Some (far, 1%nat)) /\
  iterates (asc_next PQ (euclid_points (nf_ops 53 1024) (nf_arith 53 1024) x)) (asc_new PQ (euclid_points (nf_ops 53 1024) (nf_arith 53 1024) x) t)
    [(far, 1%nat); (near, 0%nat)].
Proof.
  assert (Hc : contents inv_tree = [(near3, 0%nat); (far3, 1%nat)]) by (vm_compute; reflexivity).
  assert (Fk : forall k : svec n64 3, forallb (fun x => sf_fin (nf_raw x)) (vlist k) = true -> finite_point k).
  { intros k. rewrite forallb_forall. intros H. apply Forall_forall. intros y Hy. apply H in Hy. unfold nf_value.
    destruct (nf_raw y) as [s|s| |s m ex]; try discriminate; cbn; eauto. }
  assert (F1 : finite_point near3) by (apply Fk; vm_compute; reflexivity).
  assert (F2 : finite_point far3) by (apply Fk; vm_compute; reflexivity).
  assert (F3 : finite_point zero3) by (apply Fk; vm_compute; reflexivity).
  assert (Hfin : forall k v, In (k, v) (contents inv_tree) -> finite_point k).
  { intros k v. rewrite Hc. intros [[= <- _]|[[= <- _]|[]]]; assumption. }
  exists inv_tree, zero3, far3, near3. split; [apply final_reachable_any|]. split; [exact F3|]. split; [exact Hfin|]. split; [exact Hc|].
  assert (Hlt : nf_cmp (point_dist_sq (nf_arith 53 1024) near3 zero3) (point_dist_sq (nf_arith 53 1024) far3 zero3) = Gt) by (vm_compute; reflexivity).
  split.
  - assert (C : forall y m ex, nf_raw y = S754_finite false m ex -> coord (y : n64) = IZR (Z.pos m) * powerRZ 2 ex).
    { intros y m ex E. unfold coord, nf_value. rewrite E. cbn [sf_value]. ring. }
    assert (C0 : coord (ff 0 0) = 0) by (unfold coord, nf_value; replace (nf_raw (ff 0 0)) with (S754_zero false) by (vm_compute; reflexivity); reflexivity).
    assert (C1 := C (ff 181 (-34)) 6368371348078592%positive (-79)%Z ltac:(vm_compute; reflexivity)).
    assert (C2 := C (ff 182 (-34)) 6403555720167424%positive (-79)%Z ltac:(vm_compute; reflexivity)).
    unfold rdist2, far3, near3, zero3, vzip. cbn [vlist combine map fold_right fst snd]. rewrite C0, C1, C2.
    assert (W : 0 < powerRZ 2 (-79)) by (apply powerRZ_lt; lra). set (w := powerRZ 2 (-79)) in *. set (o := coord (ff 1 0)).
    assert (Ww : 0 < w * w) by nra.
    lra.
  - intros PQ QL.
    destruct (C59_nearest_points 53 1024 nat 2 (nf_volume_ops 53 1024 3) (cfg_of 4 2) PQ inv_tree zero3 ltac:(split; reflexivity) QL (final_reachable_any _ _ _) Hfin F3)
      as [(l & H1 & H2 & H3) (o & Eo & Ho1 & Ho2)].
    assert (G2 : Permutation l [(near3, 0%nat); (far3, 1%nat)]) by (rewrite <- Hc; exact H2).
    assert (Gin : forall kv, In kv (contents inv_tree) -> kv = (near3, 0%nat) \/ kv = (far3, 1%nat)).
    { intros kv. rewrite Hc. intros [<-|[<-|[]]]; auto. }
    assert (Gfar : In (far3, 1%nat) (contents inv_tree)) by (rewrite Hc; right; now left).
    assert (Gne : contents inv_tree <> []) by (rewrite Hc; discriminate).
    assert (Hn : ~ x_le (nf_value (point_dist_sq (nf_arith 53 1024) near3 zero3)) (nf_value (point_dist_sq (nf_arith 53 1024) far3 zero3))).
    { intros H. apply nf_cmp_le in H. contradiction. }
    split.
    + rewrite Eo. destruct o as [kv|]; [|exfalso; apply Gne; now apply Ho1].
      destruct (Ho2 kv eq_refl) as [Hin Hm]. destruct (Gin kv Hin) as [-> | ->]; [|reflexivity]. exfalso. exact (Hn (Hm (far3, 1%nat) Gfar)).
    + assert (El : l = [(far3, 1%nat); (near3, 0%nat)]).
      { apply Permutation_sym, Permutation_length_2_inv in G2 as [-> | ->]; [|reflexivity]. exfalso. inversion H3 as [|? ? Hh _]; subst.
        apply Forall_inv in Hh. cbn [fst] in Hh. exact (Hn Hh). }
      rewrite <- El. exact H1.
Qed.
Print Assumptions C60_true_order_refuted.

(** The hypothesis about the overflow holds for every distance that is not astronomical. *)
Example C60_example :
  fp_format 53 1024 /\ finite_point (fp (fz 1) (fz 2)) /\ finite_point (fp (fz 4) (fz 6)) /\
  rdist2 (fp (fz 1) (fz 2)) (fp (fz 4) (fz 6)) = 25 /\
  (1 + fp_u 53) ^ (1 + 3) * (rdist2 (fp (fz 1) (fz 2)) (fp (fz 4) (fz 6)) + INR 2 * fp_eta 53 1024) < powerRZ 2 1024.
Proof.
  assert (E : rdist2 (fp (fz 1) (fz 2)) (fp (fz 4) (fz 6)) = 25).
  { assert (C : forall z m ex, nf_raw (fz z) = S754_finite false m ex -> IZR (Z.pos m) * powerRZ 2 ex = IZR z -> coord (fz z) = IZR z).
    { intros z m ex E H. unfold coord, nf_value. rewrite E. cbn [sf_value]. rewrite <- H. ring. }
    assert (P : forall n m z, (Z.pos m = z * 2 ^ Z.of_nat n)%Z -> IZR (Z.pos m) * powerRZ 2 (- Z.of_nat n) = IZR z).
    { intros n m z ->. rewrite mult_IZR, <- pow_IZR, powerRZ_neg'. rewrite <- pow_powerRZ. field. apply pow_nonzero. lra. }
    unfold rdist2, fp, vzip. cbn [vlist combine map fold_right fst snd].
    rewrite (C 1%Z 4503599627370496%positive (-52)%Z), (C 2%Z 4503599627370496%positive (-51)%Z),
      (C 4%Z 4503599627370496%positive (-50)%Z), (C 6%Z 6755399441055744%positive (-50)%Z); try (vm_compute; reflexivity).
    - lra.
    - exact (P 50%nat _ 6%Z eq_refl).
    - exact (P 50%nat _ 4%Z eq_refl).
    - exact (P 51%nat _ 2%Z eq_refl).
    - exact (P 52%nat _ 1%Z eq_refl). }
  split; [split; reflexivity|]. split; [apply finite_pointb; vm_compute; reflexivity|]. split; [apply finite_pointb; vm_compute; reflexivity|].
  split; [exact E|]. rewrite E. assert (Hu := u_range 53 1024 ltac:(split; reflexivity)).
  assert (He := eta_pos 53 1024). assert (He1 : fp_eta 53 1024 <= 1).
  { unfold fp_eta. change (2 - 1024 - 53)%Z with (- Z.of_nat 1075)%Z. rewrite powerRZ_neg'. rewrite <- pow_powerRZ.
    rewrite <- Rinv_1. apply Rinv_le_contravar; [lra|]. apply pow_R1_Rle. lra. }
  assert (K : (1 + fp_u 53) ^ (1 + 3) <= 16).
  { replace 16 with (2 ^ (1 + 3)) by (cbn [pow Nat.add]; ring). apply pow_incr; lra. }
  assert (K2 : 1000 < powerRZ 2 1024).
  { change 1024%Z with (Z.of_nat 1024). rewrite <- (pow_powerRZ 2 1024). replace 1024%nat with (10 + 1014)%nat by reflexivity. rewrite pow_add.
    assert (H1 : 1 <= 2 ^ 1014) by (apply pow_R1_Rle; lra). generalize dependent (2 ^ 1014). intros r H1. lra. }
  assert (K3 : 0 <= (1 + fp_u 53) ^ (1 + 3)) by (apply pow_le; lra). change (INR 2) with (1 + 1).
  generalize dependent (powerRZ 2 1024). generalize dependent (fp_eta 53 1024). generalize dependent ((1 + fp_u 53) ^ (1 + 3)).
  intros a Ka Ka0 b Kb Kb1 c Kc. assert (Kd : a * (25 + (1 + 1) * b) <= 16 * (25 + (1 + 1) * 1)) by (apply Rmult_le_compat; lra). lra.
Qed.
