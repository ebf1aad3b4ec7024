(** Property C75: segments with floating-point coordinates.  Vocabulary: FpSpec.v (the number a float stands
    for), FpSegSpec.v (points of a segment in a box whose sides are moved). *)
From Coq Require Import Reals Lra Floats.SpecFloat.
From Verif Require Import Witness PropIter PropCore PropDist PropFilter PropFp PropFpDist PropFpSphere PropSeg FpDist FpSphereProof IterProof FpSegModel FpSegSpec FpSegProof.
Local Open Scope R_scope.

Lemma incl_x {p e : Z} {D : nat} (b k : saabb (nf p e) D) : box_incl (nf_ops p e) b k <-> x_incl b k.
Proof. unfold box_incl, x_incl. now rewrite !vec_le_xle. Qed.

(** ** C75: what holds *)

(** A query with a segment whose start has finite coordinates, of any reachable tree of boxes (whose coordinates may be
    infinite): exactly the entries that pass the segment's test.  So rounding never makes the result depend on the shape of the
    tree. *)
Theorem C75_query_partial :
  forall (p e : Z) (V : Type) (D : nat) (VO : VolumeOps (saabb (nf p e) D)) (cfg : config)
    (t : rtree (saabb (nf p e) D) (saabb (nf p e) D) V) (l : line (nf p e) D),
  fp_format p e -> (p <= 53)%Z -> (e <= 1024)%Z ->
  reachable (box_params (nf_ops p e) VO) cfg x_valid t -> finite_point (line_0 l) ->
  exists it found, rtree_filter_iter t (nf_line_filter p e l) = Ok it /\
    iterates (iter_next_with (fun k => k) (nf_line_filter p e l)) it found /\
    exactly (fun kv => nf_line_test p e l (fst kv) = true) found (contents t).
Proof.
  intros p e V D VO cfg t l Hf Hp He Hr H0.
  destruct (C10_filter_iter_exact _ _ _ _ (box_params (nf_ops p e) VO) cfg x_valid (box_incl (nf_ops p e)) (fun k => k) (nf_line_filter p e l) t
    (box_bounds_laws _ (nf_order p e) _)) as (it & E & Hi); [|exact Hr|].
  - intros b k Hk Ht Hb. apply incl_x in Hb. exact (line_grows_x p e Hf Hp He D l b k H0 Hb Hk Ht).
  - exists it. eexists. split; [exact E|]. split; [exact Hi|]. eexists. split; [reflexivity|]. intros kv _. reflexivity.
Qed.
Print Assumptions C75_query_partial.

(** How accurate the test is, for a box of finite coordinates: [k] is a small multiple of the relative rounding errors of the
    coordinate type and of [f64].  If it succeeds, a point of the segment lies in the box after each side has been moved outwards
    by [k] times its distance from the start; if a point of the segment lies in the box after each side has been moved
    inwards by as much, it succeeds. *)
Theorem C75_accuracy_partial :
  forall (p e : Z) (D : nat) (l : line (nf p e) D) (b : saabb (nf p e) D),
  fp_format p e -> (p <= 53)%Z -> (e <= 1024)%Z ->
  finite_point (line_0 l) -> finite_point (line_1 l) -> finite_box b -> x_valid b ->
  moderate_diffs (line_1 l) (line_0 l) -> moderate_diffs (bmin b) (line_0 l) -> moderate_diffs (bmax b) (line_0 l) ->
  let k := 3 * (fp_u p + fp_u 53) in
  (nf_line_test p e l b = true -> exists t, 0 <= t <= 1 /\ segment_near k l b t) /\
  ((exists t, 0 <= t <= 1 /\ segment_near (- k) l b t) -> nf_line_test p e l b = true).
Proof. intros p e D l b Hf Hp He H0 H1 Hb Hv M1 M2 M3 k. now apply (line_accuracy p e Hf Hp He). Qed.
Print Assumptions C75_accuracy_partial.

(** Coordinates of [N32] (and of smaller formats) up to a quarter of the range: no difference is too large or too small. *)
Lemma multiple {p e : Z} (x : nf p e) : fp_format p e -> exists z, coord x = IZR z * powerRZ 2 (3 - e - p).
Proof.
  intros [Hf1 Hf2]. unfold coord, nf_value. assert (H := proj2_sig x). fold (nf_raw x) in H.
  destruct (nf_raw x) as [s|[]| |s m ex]; cbn [sf_value]; try (exists 0%Z; lra).
  cbn [nf_ok valid_binary SpecFloat.valid_binary] in H. unfold SpecFloat.bounded in H. apply andb_prop in H as [H _].
  unfold SpecFloat.canonical_mantissa in H. apply Zeq_bool_eq in H. unfold SpecFloat.fexp, SpecFloat.emin in H.
  assert (G : (3 - e - p <= ex)%Z) by lia. exists ((if s then -1 else 1) * Z.pos m * 2 ^ (ex - (3 - e - p)))%Z.
  rewrite !mult_IZR. replace (powerRZ 2 ex) with (IZR (2 ^ (ex - (3 - e - p))) * powerRZ 2 (3 - e - p)); [destruct s; ring|].
  rewrite <- (Z2Nat.id (ex - (3 - e - p))) at 1 by lia. rewrite <- pow_IZR, pow_powerRZ, Z2Nat.id by lia. rewrite <- powerRZ_add by lra.
  f_equal. lia.
Qed.
Lemma powerRZ_le_2 a b : (a <= b)%Z -> powerRZ 2 a <= powerRZ 2 b.
Proof.
  intros H. assert (E : forall z, Flocq.Core.Raux.bpow Flocq.Core.Zaux.radix2 z = powerRZ 2 z) by (intros z; exact (Flocq.Core.Raux.bpow_powerRZ Flocq.Core.Zaux.radix2 z)).
  rewrite <- !E. now apply Flocq.Core.Raux.bpow_le.
Qed.
Lemma moderate_multiple (p e : Z) z x : (p + e <= 503)%Z -> (1 < p)%Z -> x = IZR z * powerRZ 2 (3 - e - p) -> Rabs x <= powerRZ 2 (e - 1) -> moderate e x.
Proof.
  intros He Hp Ex Hx. destruct (Z.eq_dec z 0) as [->|Hz]; [left; lra|]. right. split; [|exact Hx]. split.
  - assert (Hpos : 0 < powerRZ 2 (3 - e - p)) by (apply powerRZ_lt; lra). rewrite Ex, Rabs_mult, (Rabs_pos_eq (powerRZ _ _)) by lra. rewrite <- abs_IZR.
    assert (1 <= IZR (Z.abs z)) by (apply IZR_le; lia). assert (powerRZ 2 (-500) <= powerRZ 2 (3 - e - p)) by (apply powerRZ_le_2; lia).
    assert (1 * powerRZ 2 (3 - e - p) <= IZR (Z.abs z) * powerRZ 2 (3 - e - p)) by (apply Rmult_le_compat_r; lra). lra.
  - eapply Rle_trans; [exact Hx|]. apply powerRZ_le_2. lia.
Qed.
Lemma moderate_small {p e : Z} {D : nat} (a b : svec (nf p e) D) : fp_format p e -> (p + e <= 503)%Z ->
  Forall (fun x => Rabs (coord x) <= powerRZ 2 (e - 2)) (vlist a) -> Forall (fun x => Rabs (coord x) <= powerRZ 2 (e - 2)) (vlist b) -> moderate_diffs a b.
Proof.
  intros Hf He. unfold moderate_diffs. induction D as [|D IH]; intros Ha Hb; cbn [vlist]; [constructor|].
  inversion Ha as [|? ? A1 A2]; inversion Hb as [|? ? B1 B2]; subst. constructor; [|now apply IH].
  destruct (multiple (fst a) Hf) as (z & Ez), (multiple (fst b) Hf) as (z' & Ez'). destruct Hf as [Hf1 Hf2].
  apply (moderate_multiple p e (z - z')); [exact He|exact Hf1| |].
  - rewrite Ez, Ez', minus_IZR. ring.
  - replace (e - 1)%Z with (e - 2 + 1)%Z by lia. rewrite powerRZ_add by lra. rewrite powerRZ_1.
    apply Flocq.Core.Raux.Rabs_le_inv in A1, B1. apply Rabs_le. lra.
Qed.

Definition small_box {p e : Z} {D : nat} (b : saabb (nf p e) D) : Prop :=
  finite_box b /\ Forall (fun x => Rabs (coord x) <= powerRZ 2 (e - 2)) (vlist (bmin b)) /\ Forall (fun x => Rabs (coord x) <= powerRZ 2 (e - 2)) (vlist (bmax b)).
Definition small_point {p e : Z} {D : nat} (a : svec (nf p e) D) : Prop :=
  finite_point a /\ Forall (fun x => Rabs (coord x) <= powerRZ 2 (e - 2)) (vlist a).

(** A box that shares a point with the segment meets its bounds. *)
Lemma meets_bounds {p e : Z} {D : nat} (l : line (nf p e) D) (b : saabb (nf p e) D) k t :
  finite_point (line_0 l) -> finite_point (line_1 l) -> finite_box b -> 0 <= k -> 0 <= t <= 1 -> segment_near (- k) l b t ->
  box_intersects_box (nf_ops p e) (nf_line_bounds p e l) b = true.
Proof.
  intros H0 H1 [H2 H3] Hk Ht H. apply (intersects_box_iff (nf_ops p e)). unfold segment_near in H. rewrite !vec_le_xle.
  unfold nf_line_bounds, line_bounds, xle. cbn [bmin bmax]. destruct b as [bl bh], l as [o q]. cbn [bmin bmax line_0 line_1] in *.
  assert (V : forall x : nf p e, (exists r, nf_value x = XReal r) -> nf_value x = XReal (coord x)) by (intros x (r & E); unfold coord; now rewrite E).
  induction D as [|D IH]; [split; constructor|]. inversion H0 as [|? ? A0 B0]; inversion H1 as [|? ? A1 B1]; inversion H2 as [|? ? A2 B2]; inversion H3 as [|? ? A3 B3]; subst.
  cbn [in_moved_box vmap vmap2 part_way fst snd] in H. destruct H as [[G1 G2] G3].
  destruct (IH (snd o) (snd q) (snd bl) (snd bh)) as [I1 I2]; try assumption.
  assert (P1 := Rabs_pos (coord (fst bl) - coord (fst o))). assert (P2 := Rabs_pos (coord (fst bh) - coord (fst o))).
  assert (Q1 : coord (fst bl) <= coord (fst o) + t * (coord (fst q) - coord (fst o)) <= coord (fst bh)) by nra.
  assert (Ax : forall o q l h : nf p e, (exists r, nf_value o = XReal r) -> (exists r, nf_value q = XReal r) -> (exists r, nf_value l = XReal r) -> (exists r, nf_value h = XReal r) ->
    coord l <= coord o + t * (coord q - coord o) <= coord h ->
    x_le (nf_value (s_min (nf_ops p e) o q)) (nf_value h) /\ x_le (nf_value l) (nf_value (s_max (nf_ops p e) o q))).
  { clear - V Ht. intros o q l h Ho Hq Hl Hh Hx. assert (L := nf_le p e o q). unfold s_min, s_max. rewrite (V _ Ho), (V _ Hq) in L. cbn [x_le] in L.
    destruct (s_le (nf_ops p e) o q); rewrite (V _ Ho), (V _ Hq), (V _ Hl), (V _ Hh); cbn [x_le].
    - assert (coord o <= coord q) by now apply L. nra.
    - assert (~ coord o <= coord q) by (intros C; apply L in C; discriminate). nra. }
  destruct (Ax _ _ _ _ A0 A1 A2 A3 Q1) as [X1 X2]. split; (apply Forall2_cons; [|assumption]); assumption.
Qed.

(** Both queries, with the segment itself or with its bounds for the inner nodes, over a tree of boxes whose sides are neither
    too far from nor too close to the start of the segment: what is yielded is at most slightly off the segment and what is
    not yielded meets it at most slightly. *)
Theorem C75_near_query_partial :
  forall (p e : Z) (V : Type) (D : nat) (VO : VolumeOps (saabb (nf p e) D)) (cfg : config)
    (t : rtree (saabb (nf p e) D) (saabb (nf p e) D) V) (l : line (nf p e) D) (f : SpatialFilter (saabb (nf p e) D) (saabb (nf p e) D)),
  fp_format p e -> (p <= 53)%Z -> (e <= 1024)%Z ->
  reachable (box_params (nf_ops p e) VO) cfg x_valid t ->
  finite_point (line_0 l) -> finite_point (line_1 l) -> moderate_diffs (line_1 l) (line_0 l) ->
  (forall k v, In (k, v) (contents t) -> finite_box k /\ moderate_diffs (bmin k) (line_0 l) /\ moderate_diffs (bmax k) (line_0 l)) ->
  f = nf_line_filter p e l \/ f = nf_bounded_line_filter p e l ->
  let k := 3 * (fp_u p + fp_u 53) in
  exists it found rest, rtree_filter_iter t f = Ok it /\ iterates (iter_next_with (fun k => k) f) it found /\
    sublist found (contents t) /\ Permutation (contents t) (found ++ rest) /\
    Forall (fun kv => exists t, 0 <= t <= 1 /\ segment_near k l (fst kv) t) found /\
    Forall (fun kv => ~ exists t, 0 <= t <= 1 /\ segment_near (- k) l (fst kv) t) rest.
Proof.
  intros p e V D VO cfg t l f Hf Hp He Hr H0 H1 M1 Hc Hft k. set (P := box_params (nf_ops p e) VO) in *.
  set (okk := fun b : saabb (nf p e) D => x_valid b /\ finite_box b /\ moderate_diffs (bmin b) (line_0 l) /\ moderate_diffs (bmax b) (line_0 l)).
  assert (Hv := proj1 (inv_any P cfg x_valid t Hr)). apply wf_ok in Hv. rewrite Forall_forall in Hv.
  assert (Hall : forall kv, In kv (contents t) -> okk (fst kv)).
  { intros [b v] Hi. split; [exact (Hv _ Hi)|exact (Hc b v Hi)]. }
  assert (Hw : wf cfg okk (rel_cover P (box_incl (nf_ops p e))) 0%nat False (fst t) (snd t)).
  { eapply wf_ok_in; [apply (inv_cover P cfg x_valid (box_incl (nf_ops p e)) t (box_bounds_laws _ (nf_order p e) _) Hr)|]. intros b Hb.
    unfold keys in Hb. apply in_map_iff in Hb as ([k' v] & <- & Hi). exact (Hall _ Hi). }
  assert (Hk : 0 <= k).
  { unfold k, fp_u. assert (0 < powerRZ 2 (- p)) by (apply powerRZ_lt; lra). assert (0 < powerRZ 2 (- (53))) by (apply powerRZ_lt; lra). lra. }
  assert (Hg : forall b c, okk c -> box_intersects_box (nf_ops p e) (nf_line_bounds p e l) c = true -> test_key f c = true -> box_incl (nf_ops p e) b c -> test_bounds f b = true).
  { intros b c (Vc & Fc & _) Hm Ht Hi. destruct Hft as [-> | ->].
    - apply incl_x in Hi. exact (line_grows_x p e Hf Hp He D l b c H0 Hi Vc Ht).
    - exact (box_intersects_grows (nf_ops p e) D (nf_order p e) (nf_line_bounds p e l) b c Hi Hm). }
  destruct (filter_iter_found (fun k => k) f P cfg okk (box_incl (nf_ops p e))
    (fun b => box_intersects_box (nf_ops p e) (nf_line_bounds p e l) b = true) Hg t 0%nat False Hw)
    as (it & found & rest & E1 & E2 & E3 & E4 & E5 & E6).
  exists it, found, rest. split; [exact E1|]. split; [exact E2|]. split; [exact E3|]. split; [exact E4|].
  assert (Hin : forall kv, In kv (found ++ rest) -> okk (fst kv)) by (intros kv Hi; apply Hall; now rewrite E4).
  rewrite Forall_forall in E5, E6. split; apply Forall_forall; intros [b v] Hi.
  - destruct (Hin (b, v)) as (Vb & Fb & M2 & M3); [apply in_or_app; now left|].
    apply (line_accuracy p e Hf Hp He); try assumption. destruct Hft as [-> | ->]; exact (E5 _ Hi).
  - destruct (Hin (b, v)) as (Vb & Fb & M2 & M3); [apply in_or_app; now right|]. intros Hn. apply (E6 _ Hi). split.
    + assert (Ht : nf_line_test p e l b = true) by now apply (line_accuracy p e Hf Hp He). destruct Hft as [-> | ->]; exact Ht.
    + destruct Hn as (tt & Ht & Hn). exact (meets_bounds l b k tt H0 H1 Fb Hk Ht Hn).
Qed.
Print Assumptions C75_near_query_partial.

(** [N32]: it is enough that no coordinate exceeds [2^126], a quarter of the range. *)
Theorem C75_n32_query_partial :
  forall (V : Type) (D : nat) (VO : VolumeOps (saabb n32 D)) (cfg : config) (t : rtree (saabb n32 D) (saabb n32 D) V)
    (l : line n32 D) (f : SpatialFilter (saabb n32 D) (saabb n32 D)),
  reachable (box_params (nf_ops 24 128) VO) cfg x_valid t ->
  finite_point (line_0 l) -> finite_point (line_1 l) ->
  Forall (fun x => Rabs (coord x) <= powerRZ 2 126) (vlist (line_0 l) ++ vlist (line_1 l)) ->
  (forall k v, In (k, v) (contents t) -> finite_box k /\ Forall (fun x => Rabs (coord x) <= powerRZ 2 126) (vlist (bmin k) ++ vlist (bmax k))) ->
  f = nf_line_filter 24 128 l \/ f = nf_bounded_line_filter 24 128 l ->
  let k := 3 * (fp_u 24 + fp_u 53) in
  exists it found rest, rtree_filter_iter t f = Ok it /\ iterates (iter_next_with (fun k => k) f) it found /\
    sublist found (contents t) /\ Permutation (contents t) (found ++ rest) /\
    Forall (fun kv => exists t, 0 <= t <= 1 /\ segment_near k l (fst kv) t) found /\
    Forall (fun kv => ~ exists t, 0 <= t <= 1 /\ segment_near (- k) l (fst kv) t) rest.
Proof.
  intros V D VO cfg t l f Hr H0 H1 Hs Hc Hft. assert (Hf : fp_format 24 128) by (split; reflexivity).
  apply Forall_app in Hs as [S0 S1].
  apply (C75_near_query_partial 24 128 V D VO cfg t l f); try assumption; try lia.
  - apply moderate_small; (assumption || lia).
  - intros k v Hi. destruct (Hc k v Hi) as [Hb Hs]. apply Forall_app in Hs as [S2 S3]. split; [exact Hb|].
    split; apply moderate_small; (assumption || lia).
Qed.
Print Assumptions C75_n32_query_partial.

(** ** C75: what does not hold *)

(** A query of a tree that is a single leaf. *)
Lemma leaf_found {B K V : Type} (f : SpatialFilter B K) (t : rtree B K V) b es :
  t = (0%nat, Node b (CLeaf es)) -> test_bounds f b = true ->
  exists it, rtree_filter_iter t f = Ok it /\ iterates (iter_next_with (fun k => k) f) it (filter (fun kv => test_key f (fst kv)) es).
Proof.
  intros -> Hb. unfold rtree_filter_iter, filter_iter_new. cbn [snd node_bounds]. rewrite Hb.
  destruct (iter_new_spec (fun k => k) f (0%nat, Node b (CLeaf es)) Logic.I) as (it & E & H1 & H2). exists it. split; [exact E|].
  assert (H2' : filter (fun kv => test_key f (fst kv)) es = pending (fun k => k) f it) by (symmetry; exact H2).
  rewrite H2'. now apply (stack_iterates (fun k => k) f).
Qed.
(** The query of a tree whose only entry fails the test. *)
Lemma one_missed {B K V : Type} (f : SpatialFilter B K) (P : Params B K) cfg ok (t : rtree B K V) k v : reachable P cfg ok t -> contents t = [(k, v)] ->
  test_key f k = false -> exists it, rtree_filter_iter t f = Ok it /\ iterates (iter_next_with (fun k => k) f) it [].
Proof.
  intros Hr Hc Ht. destruct (filter_iter_any (fun k => k) f P cfg t (reachable_weaken P cfg ok any_key t (fun _ _ => Logic.I) Hr)) as (it & l & E & Hi & Hs).
  rewrite Hc in Hs. cbn [filter fst] in Hs. rewrite Ht in Hs. inversion Hs; subst. now exists it.
Qed.
(** A tree of one box. *)
Definition one_box (p e : Z) {D : nat} (b : saabb (nf p e) D) : rtree (saabb (nf p e) D) (saabb (nf p e) D) nat :=
  final (nf_box_params p e D) (cfg_of 4 2) [OInsert b 7%nat].
Lemma one_box_reachable (p e : Z) {D : nat} (b : saabb (nf p e) D) : x_valid b -> reachable (nf_box_params p e D) (cfg_of 4 2) x_valid (one_box p e b).
Proof. intros H. apply final_reachable. constructor; [exact H|constructor]. Qed.
Lemma valid_xb {p e : Z} {D : nat} (b : saabb (nf p e) D) : all_le (nf_ops p e) (bmin b) (bmax b) = true -> x_valid b.
Proof. intros H. apply (all_le_spec (nf_ops p e)) in H. now apply vec_le_xle. Qed.
Lemma coord_raw {p e : Z} (x : nf p e) (s : bool) m ex z ex' : nf_raw x = S754_finite s m ex -> (ex <= ex')%Z -> (Z.pos m = z * 2 ^ (ex' - ex))%Z ->
  coord x = (if s then -1 else 1) * (IZR z * powerRZ 2 ex').
Proof.
  intros E H1 H2. rewrite (coord_fin _ _ _ _ E), H2, mult_IZR. replace (powerRZ 2 ex') with (IZR (2 ^ (ex' - ex)) * powerRZ 2 ex); [ring|].
  rewrite <- (Z2Nat.id (ex' - ex)) at 1 by lia. rewrite <- pow_IZR, pow_powerRZ, Z2Nat.id by lia. rewrite <- powerRZ_add by lra. f_equal. lia.
Qed.
Lemma coord_zero {p e : Z} (x : nf p e) s : nf_raw x = S754_zero s -> coord x = 0.
Proof. unfold coord, nf_value. now intros ->. Qed.

Definition b1 (x y : n64) : saabb n64 1 := {| bmin := (x, tt) : svec n64 1; bmax := (y, tt) : svec n64 1 |}.
Definition b2 (x y z w : n64) : saabb n64 2 := {| bmin := (x, (y, tt)) : svec n64 2; bmax := (z, (w, tt)) : svec n64 2 |}.

Lemma ff0 : coord (ff 0 0) = 0.
Proof. apply (coord_zero _ false). vm_compute. reflexivity. Qed.
Lemma ff1 : coord (ff 1 0) = 1.
Proof. rewrite (coord_raw (ff 1 0) false 4503599627370496 (-52) 1 0); [cbn; lra|vm_compute; reflexivity|lia|reflexivity]. Qed.
Lemma ff49 : coord (ff 49 0) = 49.
Proof. rewrite (coord_raw (ff 49 0) false 6896136929411072 (-47) 49 0); [cbn; lra|vm_compute; reflexivity|lia|reflexivity]. Qed.
Lemma ff5 : coord (ff 5 0) = 5.
Proof. rewrite (coord_raw (ff 5 0) false 5629499534213120 (-50) 5 0); [cbn; lra|vm_compute; reflexivity|lia|reflexivity]. Qed.
Lemma ff49' : coord (ff 6896136929411073 (-47)) = 49 + powerRZ 2 (-47).
Proof.
  rewrite (coord_raw (ff 6896136929411073 (-47)) false 6896136929411073 (-47) 6896136929411073 (-47)); [|vm_compute; reflexivity|lia|reflexivity].
  replace (IZR 6896136929411073) with (49 * 2 ^ 47 + 1) by (rewrite pow_IZR, <- mult_IZR, <- plus_IZR; apply f_equal; reflexivity).
  change (powerRZ 2 (-47)) with (/ 2 ^ 47). field.
Qed.

(** The segment from (0, 0) to (49, 1) ends in a corner of the box, but the query does not yield the box. *)
Definition l75 : line n64 2 := {| line_0 := (ff 0 0, (ff 0 0, tt)) : svec n64 2; line_1 := (ff 49 0, (ff 1 0, tt)) : svec n64 2 |}.
Definition k75 : saabb n64 2 := b2 (ff 0 0) (ff 1 0) (ff 49 0) (ff 5 0).
Theorem C75_missed_refuted :
  exists (t : rtree (saabb n64 2) (saabb n64 2) nat) (l : line n64 2) (b : saabb n64 2) it,
  reachable (nf_box_params 53 1024 2) (cfg_of 4 2) x_valid t /\ contents t = [(b, 7%nat)] /\ finite_box b /\
  finite_point (line_0 l) /\ finite_point (line_1 l) /\ (exists t, 0 <= t <= 1 /\ segment_near 0 l b t) /\
  rtree_filter_iter t (nf_line_filter 53 1024 l) = Ok it /\ iterates (iter_next_with (fun k => k) (nf_line_filter 53 1024 l)) it [].
Proof.
  assert (Hv : x_valid k75) by (apply valid_xb; vm_compute; reflexivity).
  assert (Hr := one_box_reachable 53 1024 k75 Hv). assert (Hc : contents (one_box 53 1024 k75) = [(k75, 7%nat)]) by (vm_compute; reflexivity).
  destruct (one_missed (nf_line_filter 53 1024 l75) _ _ _ _ _ _ Hr Hc) as (it & E & Hi); [vm_compute; reflexivity|].
  exists (one_box 53 1024 k75), l75, k75, it. split; [exact Hr|]. split; [exact Hc|].
  split; [split; apply finite_pointb'; vm_compute; reflexivity|]. split; [apply finite_pointb'; vm_compute; reflexivity|].
  split; [apply finite_pointb'; vm_compute; reflexivity|]. split; [|split; [exact E|exact Hi]].
  exists 1. split; [lra|]. unfold segment_near, k75, l75, b2. cbn [bmin bmax line_0 line_1 vmap vmap2 part_way in_moved_box fst snd].
  rewrite ff0, ff1, ff49, ff5. repeat split; lra.
Qed.
Print Assumptions C75_missed_refuted.

(** The segment from 0 to 49 does not reach the box, but the query yields it. *)
Definition l75' : line n64 1 := {| line_0 := (ff 0 0, tt) : svec n64 1; line_1 := (ff 49 0, tt) : svec n64 1 |}.
Definition k75' : saabb n64 1 := b1 (ff 6896136929411073 (-47)) (ff 60 0).
Lemma k75'_off : ~ exists t, 0 <= t <= 1 /\ segment_near 0 l75' k75' t.
Proof.
  intros (t & Ht & H). unfold segment_near, k75', l75', b1 in H. cbn [bmin bmax line_0 line_1 vmap vmap2 part_way in_moved_box fst snd] in H.
  rewrite ff0, ff49, ff49' in H. assert (0 < powerRZ 2 (-47)) by (apply powerRZ_lt; lra). nra.
Qed.
Theorem C75_false_positive_refuted :
  exists (t : rtree (saabb n64 1) (saabb n64 1) nat) (l : line n64 1) (b : saabb n64 1) it,
  reachable (nf_box_params 53 1024 1) (cfg_of 4 2) x_valid t /\ contents t = [(b, 7%nat)] /\ finite_box b /\
  finite_point (line_0 l) /\ finite_point (line_1 l) /\ (~ exists t, 0 <= t <= 1 /\ segment_near 0 l b t) /\
  rtree_filter_iter t (nf_line_filter 53 1024 l) = Ok it /\ iterates (iter_next_with (fun k => k) (nf_line_filter 53 1024 l)) it [(b, 7%nat)].
Proof.
  assert (Hv : x_valid k75') by (apply valid_xb; vm_compute; reflexivity).
  assert (Hr := one_box_reachable 53 1024 k75' Hv). assert (Hc : contents (one_box 53 1024 k75') = [(k75', 7%nat)]) by (vm_compute; reflexivity).
  assert (Ht : one_box 53 1024 k75' = (0%nat, Node (node_bounds (snd (one_box 53 1024 k75'))) (CLeaf [(k75', 7%nat)]))) by (vm_compute; reflexivity).
  destruct (leaf_found (nf_line_filter 53 1024 l75') _ _ _ Ht) as (it & E & Hi); [vm_compute; reflexivity|].
  exists (one_box 53 1024 k75'), l75', k75', it. split; [exact Hr|]. split; [exact Hc|].
  split; [split; apply finite_pointb'; vm_compute; reflexivity|]. split; [apply finite_pointb'; vm_compute; reflexivity|].
  split; [apply finite_pointb'; vm_compute; reflexivity|]. split; [exact k75'_off|]. split; [exact E|].
  cbn [filter fst] in Hi. assert (Ek : test_key (nf_line_filter 53 1024 l75') k75' = true) by (vm_compute; reflexivity). rewrite Ek in Hi. exact Hi.
Qed.
Print Assumptions C75_false_positive_refuted.

(** With the bounds of the segment for the inner nodes, whether that entry is yielded depends on the other entries. *)
Theorem C75_bounded_depends_on_tree_refuted :
  exists (t t' : rtree (saabb n64 1) (saabb n64 1) nat) (l : line n64 1) (b : saabb n64 1) it it' found,
  reachable (nf_box_params 53 1024 1) (cfg_of 4 2) x_valid t /\ reachable (nf_box_params 53 1024 1) (cfg_of 4 2) x_valid t' /\
  In (b, 7%nat) (contents t) /\ In (b, 7%nat) (contents t') /\ finite_point (line_0 l) /\ finite_point (line_1 l) /\
  rtree_filter_iter t (nf_bounded_line_filter 53 1024 l) = Ok it /\ iterates (iter_next_with (fun k => k) (nf_bounded_line_filter 53 1024 l)) it [] /\
  rtree_filter_iter t' (nf_bounded_line_filter 53 1024 l) = Ok it' /\ iterates (iter_next_with (fun k => k) (nf_bounded_line_filter 53 1024 l)) it' found /\
  In (b, 7%nat) found.
Proof.
  set (z := b1 (ff 0 0) (ff 1 0)). set (t' := final (nf_box_params 53 1024 1) (cfg_of 4 2) [OInsert k75' 7%nat; OInsert z 0%nat]).
  assert (Hv : x_valid k75') by (apply valid_xb; vm_compute; reflexivity). assert (Hz : x_valid z) by (apply valid_xb; vm_compute; reflexivity).
  assert (Ht : t' = (0%nat, Node (node_bounds (snd t')) (CLeaf [(k75', 7%nat); (z, 0%nat)]))) by (vm_compute; reflexivity).
  destruct (leaf_found (nf_bounded_line_filter 53 1024 l75') _ _ _ Ht) as (it' & E' & Hi'); [vm_compute; reflexivity|].
  exists (one_box 53 1024 k75'), t', l75', k75', [], it'. eexists.
  split; [now apply one_box_reachable|]. split; [apply final_reachable; constructor; [exact Hv|constructor; [exact Hz|constructor]]|].
  split; [vm_compute; now left|]. split; [rewrite Ht; now left|]. split; [apply finite_pointb'; vm_compute; reflexivity|].
  split; [apply finite_pointb'; vm_compute; reflexivity|]. split; [|split; [|split; [exact E'|split; [exact Hi'|]]]].
  - unfold rtree_filter_iter, filter_iter_new.
    match goal with |- (if ?c then _ else _) = _ => assert (Ef : c = false) by (vm_compute; reflexivity) end.
    rewrite Ef. reflexivity.
  - apply (stack_iterates (fun k : saabb n64 1 => k) (nf_bounded_line_filter 53 1024 l75') []). intros [|i] x; discriminate.
  - apply filter_In. split; [now left|]. vm_compute. reflexivity.
Qed.
Print Assumptions C75_bounded_depends_on_tree_refuted.

(** Without the bounds on the coordinates the error is not small: a direction that overflows, and one whose inverse does. *)
Definition l75_far : line n64 2 :=
  {| line_0 := (ff (-1) 1023, (ff 0 0, tt)) : svec n64 2; line_1 := (ff 1 1023, (ff 1 0, tt)) : svec n64 2 |}.
Definition k75_far : saabb n64 2 := b2 (ff 1 0) (ff 0 0) (ff 2 0) (ff 1 (-4)).
Theorem C75_far_off_refuted :
  exists (t : rtree (saabb n64 2) (saabb n64 2) nat) (l : line n64 2) (b : saabb n64 2) it,
  reachable (nf_box_params 53 1024 2) (cfg_of 4 2) x_valid t /\ contents t = [(b, 7%nat)] /\ finite_box b /\
  finite_point (line_0 l) /\ finite_point (line_1 l) /\ (~ exists t, 0 <= t <= 1 /\ segment_near (1 / 4) l b t) /\
  rtree_filter_iter t (nf_line_filter 53 1024 l) = Ok it /\ iterates (iter_next_with (fun k => k) (nf_line_filter 53 1024 l)) it [(b, 7%nat)].
Proof.
  assert (Hv : x_valid k75_far) by (apply valid_xb; vm_compute; reflexivity).
  assert (Hr := one_box_reachable 53 1024 k75_far Hv). assert (Hc : contents (one_box 53 1024 k75_far) = [(k75_far, 7%nat)]) by (vm_compute; reflexivity).
  assert (Ht : one_box 53 1024 k75_far = (0%nat, Node (node_bounds (snd (one_box 53 1024 k75_far))) (CLeaf [(k75_far, 7%nat)]))) by (vm_compute; reflexivity).
  destruct (leaf_found (nf_line_filter 53 1024 l75_far) _ _ _ Ht) as (it & E & Hi); [vm_compute; reflexivity|].
  exists (one_box 53 1024 k75_far), l75_far, k75_far, it. split; [exact Hr|]. split; [exact Hc|].
  split; [split; apply finite_pointb'; vm_compute; reflexivity|]. split; [apply finite_pointb'; vm_compute; reflexivity|].
  split; [apply finite_pointb'; vm_compute; reflexivity|]. split; [|split; [exact E|]].
  - intros (t & Ht' & H). unfold segment_near, k75_far, l75_far, b2 in H. cbn [bmin bmax line_0 line_1 vmap vmap2 part_way in_moved_box fst snd] in H.
    assert (E1 : coord (ff (-1) 1023) = - powerRZ 2 1023) by (rewrite (coord_raw (ff (-1) 1023) true 4503599627370496 971 1 1023); [ring|vm_compute; reflexivity|lia|reflexivity]).
    assert (E2 : coord (ff 1 1023) = powerRZ 2 1023) by (rewrite (coord_raw (ff 1 1023) false 4503599627370496 971 1 1023); [ring|vm_compute; reflexivity|lia|reflexivity]).
    assert (E3 : coord (ff 1 (-4)) = 1 / 16).
    { rewrite (coord_raw (ff 1 (-4)) false 4503599627370496 (-56) 1 (-4)); [|vm_compute; reflexivity|lia|reflexivity]. change (powerRZ 2 (-4)) with (/ 2 ^ 4). lra. }
    rewrite ff0, ff1, E1, E2, E3 in H. destruct H as ((G1 & _) & (_ & G2) & _).
    assert (Hm : 1 <= powerRZ 2 1023) by (change 1 with (powerRZ 2 0); apply powerRZ_le_2; lia).
    set (m := powerRZ 2 1023) in *. rewrite (Rabs_pos_eq (1 / 16 - 0)) in G2 by lra. rewrite (Rabs_pos_eq (1 - - m)) in G1 by lra. nra.
  - cbn [filter fst] in Hi. assert (Ek : test_key (nf_line_filter 53 1024 l75_far) k75_far = true) by (vm_compute; reflexivity). rewrite Ek in Hi. exact Hi.
Qed.
Print Assumptions C75_far_off_refuted.

Definition l75_tiny : line n64 1 := {| line_0 := (ff 0 0, tt) : svec n64 1; line_1 := (ff 3 (-1074), tt) : svec n64 1 |}.
Definition k75_tiny : saabb n64 1 := b1 (ff 1 (-1074)) (ff 2 (-1074)).
Theorem C75_missed_tiny_refuted :
  exists (t : rtree (saabb n64 1) (saabb n64 1) nat) (l : line n64 1) (b : saabb n64 1) it,
  reachable (nf_box_params 53 1024 1) (cfg_of 4 2) x_valid t /\ contents t = [(b, 7%nat)] /\ finite_box b /\
  finite_point (line_0 l) /\ finite_point (line_1 l) /\ (exists t, 0 <= t <= 1 /\ segment_near (- (1 / 4)) l b t) /\
  rtree_filter_iter t (nf_line_filter 53 1024 l) = Ok it /\ iterates (iter_next_with (fun k => k) (nf_line_filter 53 1024 l)) it [].
Proof.
  assert (Hv : x_valid k75_tiny) by (apply valid_xb; vm_compute; reflexivity).
  assert (Hr := one_box_reachable 53 1024 k75_tiny Hv). assert (Hc : contents (one_box 53 1024 k75_tiny) = [(k75_tiny, 7%nat)]) by (vm_compute; reflexivity).
  destruct (one_missed (nf_line_filter 53 1024 l75_tiny) _ _ _ _ _ _ Hr Hc) as (it & E & Hi); [vm_compute; reflexivity|].
  exists (one_box 53 1024 k75_tiny), l75_tiny, k75_tiny, it. split; [exact Hr|]. split; [exact Hc|].
  split; [split; apply finite_pointb'; vm_compute; reflexivity|]. split; [apply finite_pointb'; vm_compute; reflexivity|].
  split; [apply finite_pointb'; vm_compute; reflexivity|]. split; [|split; [exact E|exact Hi]].
  assert (E1 : coord (ff 1 (-1074)) = powerRZ 2 (-1074)) by (rewrite (coord_raw (ff 1 (-1074)) false 1 (-1074) 1 (-1074)); [ring|vm_compute; reflexivity|lia|reflexivity]).
  assert (E2 : coord (ff 2 (-1074)) = 2 * powerRZ 2 (-1074)) by (rewrite (coord_raw (ff 2 (-1074)) false 2 (-1074) 2 (-1074)); [ring|vm_compute; reflexivity|lia|reflexivity]).
  assert (E3 : coord (ff 3 (-1074)) = 3 * powerRZ 2 (-1074)) by (rewrite (coord_raw (ff 3 (-1074)) false 3 (-1074) 3 (-1074)); [ring|vm_compute; reflexivity|lia|reflexivity]).
  exists (7 / 15). split; [lra|]. unfold segment_near, k75_tiny, l75_tiny, b1. cbn [bmin bmax line_0 line_1 vmap vmap2 part_way in_moved_box fst snd].
  rewrite ff0, E1, E2, E3. assert (0 < powerRZ 2 (-1074)) by (apply powerRZ_lt; lra). set (m := powerRZ 2 (-1074)) in *.
  rewrite !Rabs_pos_eq by lra. repeat split; lra.
Qed.
Print Assumptions C75_missed_tiny_refuted.

(** A tree of height 2 of boxes with coordinates that are multiples of 1/2 and one segment, ray and box with a coordinate 1/10
    ([N32]). *)
Definition smallb (p e : Z) (x : spec_float) : bool :=
  match x with S754_zero _ => true | S754_finite _ m ex => ((Z.pos m <? 2 ^ p) && (0 <=? p) && (ex + p <=? e - 2))%Z | _ => false end.
Lemma smallb_spec {p e : Z} (x : nf p e) : smallb p e (nf_raw x) = true -> (exists r, nf_value x = XReal r) /\ Rabs (coord x) <= powerRZ 2 (e - 2).
Proof.
  unfold coord, nf_value. destruct (nf_raw x) as [s|s| |s m ex]; try discriminate; cbn [smallb sf_value]; intros H.
  { split; [eauto|]. rewrite Rabs_R0. apply Rlt_le, powerRZ_lt. lra. }
  apply andb_prop in H as [H H3]. apply andb_prop in H as [H1 H2]. apply Z.ltb_lt in H1. apply Z.leb_le in H2, H3. split; [eauto|].
  rewrite !Rabs_mult. replace (Rabs (if s then -1 else 1)) with 1 by (destruct s; unfold Rabs; destruct (Rcase_abs _); lra).
  rewrite (Rabs_pos_eq (IZR _)) by (apply IZR_le; lia). rewrite (Rabs_pos_eq (powerRZ 2 ex)) by (apply Rlt_le, powerRZ_lt; lra).
  apply Rle_trans with (powerRZ 2 p * powerRZ 2 ex); [|rewrite <- powerRZ_add by lra; apply powerRZ_le_2; lia].
  apply Rmult_le_compat_r; [apply Rlt_le, powerRZ_lt; lra|]. rewrite Rmult_1_l. rewrite <- (Z2Nat.id p) by exact H2.
  rewrite <- pow_powerRZ, pow_IZR. apply IZR_le. rewrite Z2Nat.id by exact H2. lia.
Qed.
Lemma smallb_all {p e : Z} (l : list (nf p e)) : forallb (fun x => smallb p e (nf_raw x)) l = true ->
  Forall (fun x => exists r, nf_value x = XReal r) l /\ Forall (fun x => Rabs (coord x) <= powerRZ 2 (e - 2)) l.
Proof. rewrite forallb_forall. intros H. split; apply Forall_forall; intros x Hx; apply (smallb_spec x (H x Hx)). Qed.
Definition h2 (x y : Z) : svec n32 2 := (fs x (-1), (fs y (-1), tt)).
Definition hb (x y z w : Z) : saabb n32 2 := {| bmin := h2 x y; bmax := h2 z w |}.
Definition tenth32 : n32 := nf_of 24 128 (SFdiv 24 128 (nf_raw (fs 1 0)) (nf_raw (fs 10 0))).
Definition ops75 : list (op (saabb n32 2) nat) :=
  [ OInsert (hb 0 0 1 1) 1; OInsert (hb 5 5 9 9) 2; OInsert (hb 1 4 2 8) 3; OInsert (hb 3 2 7 2) 4; OInsert (hb 0 0 9 9) 5;
    OInsert (hb 0 0 1 1) 6; OInsert (hb 5 1 5 1) 7; ORemove (hb 1 4 2 8);
    OInsert {| bmin := (tenth32, (tenth32, tt)) : svec n32 2; bmax := h2 1 17 |} 8 ]%nat.
Definition t75 : rtree (saabb n32 2) (saabb n32 2) nat := final (nf_box_params 24 128 2) (cfg_of 4 2) ops75.
Definition q75 : line n32 2 := {| line_0 := h2 0 9; line_1 := h2 9 0 |}.
Definition q76 : ray n32 2 := {| ray_origin := h2 0 6; ray_n := (fs 3 0, (tenth32, tt)) : svec n32 2 |}.
Definition small75 (b : saabb n32 2) : bool := forallb (fun x => smallb 24 128 (nf_raw x)) (vlist (bmin b) ++ vlist (bmax b)).
Lemma t75_reachable : reachable (box_params (nf_ops 24 128) (nf_volume_ops 24 128 2)) (cfg_of 4 2) x_valid t75.
Proof.
  apply (final_reachable (nf_box_params 24 128 2)). assert (E : forallb (fun o => match op_key o with Some k => all_le (nf_ops 24 128) (bmin k) (bmax k) | None => true end) ops75 = true)
    by (vm_compute; reflexivity).
  rewrite forallb_forall in E. apply Forall_forall. intros o Ho. specialize (E o Ho). destruct o; try exact Logic.I; apply valid_xb; exact E.
Qed.
Lemma t75_small : forall k v, In (k, v) (contents t75) -> finite_box k /\ Forall (fun x => Rabs (coord x) <= powerRZ 2 126) (vlist (bmin k) ++ vlist (bmax k)).
Proof.
  assert (E : forallb (fun kv => small75 (fst kv)) (contents t75) = true) by (vm_compute; reflexivity).
  rewrite forallb_forall in E. intros k v Hi. destruct (smallb_all _ (E (k, v) Hi)) as [H1 H2]. split; [|exact H2].
  apply Forall_app in H1. exact H1.
Qed.
Example C75_example :
  reachable (box_params (nf_ops 24 128) (nf_volume_ops 24 128 2)) (cfg_of 4 2) x_valid t75 /\ fst t75 = 1%nat /\
  finite_point (line_0 q75) /\ finite_point (line_1 q75) /\
  Forall (fun x => Rabs (coord x) <= powerRZ 2 126) (vlist (line_0 q75) ++ vlist (line_1 q75)) /\
  (forall k v, In (k, v) (contents t75) -> finite_box k /\ Forall (fun x => Rabs (coord x) <= powerRZ 2 126) (vlist (bmin k) ++ vlist (bmax k))) /\
  moderate_diffs (line_1 q75) (line_0 q75) /\
  run_iter (iter_next_with (fun k => k) (nf_line_filter 24 128 q75)) (rtree_filter_iter t75 (nf_line_filter 24 128 q75)) 8 =
    Ok (map Some [4; 5; 8]%nat ++ repeat None 5) /\
  run_iter (iter_next_with (fun k => k) (nf_bounded_line_filter 24 128 q75)) (rtree_filter_iter t75 (nf_bounded_line_filter 24 128 q75)) 8 =
    Ok (map Some [4; 5; 8]%nat ++ repeat None 5).
Proof.
  destruct (smallb_all (vlist (line_0 q75) ++ vlist (line_1 q75))) as [H1 H2]; [vm_compute; reflexivity|].
  destruct (proj1 (Forall_app _ _ _) H1) as [F0 F1]. destruct (proj1 (Forall_app _ _ _) H2) as [S0 S1].
  split; [exact t75_reachable|]. split; [vm_compute; reflexivity|]. split; [exact F0|]. split; [exact F1|]. split; [exact H2|]. split; [exact t75_small|].
  split; [apply moderate_small; [split; reflexivity|lia|exact S1|exact S0]|]. split; vm_compute; reflexivity.
Qed.
