(** Property C74: sphere queries with floating-point coordinates.  Vocabulary: FpSpec.v (the number a float stands for, [rdist2],
    [fp_u], [fp_eta]). *)
From Coq Require Import Reals Lra Floats.SpecFloat.
From Verif Require Import Witness PropFp PropFpDist FpDist IterProof PropDist FpSphereModel FpSphereProof.
Local Open Scope R_scope.

(** ** What holds *)

(** A query with a sphere of finite center and radius [r >= 0], of any reachable tree of finite points: the entries it yields
    are at most slightly outside of the sphere and the entries it does not yield are at most slightly inside; [uc] is the
    relative rounding error of the coordinate type, [u] and [eta] the errors of [f64]. *)
Theorem C74_query_partial :
  forall (p e : Z) (V : Type) (D : nat) (VO : VolumeOps (saabb (nf p e) (S D))) (cfg : config)
    (t : rtree (saabb (nf p e) (S D)) (svec (nf p e) (S D)) V) (s : sphere (nf p e) (S D)),
  fp_format p e -> (p <= 53)%Z -> (e <= 1024)%Z ->
  reachable (point_params (nf_ops p e) VO) cfg any_key t ->
  (forall k v, In (k, v) (contents t) -> finite_point k) ->
  finite_point (center s) -> (exists r, nf_value (radius s) = XReal r) -> 0 <= coord (radius s) ->
  let r2 := coord (radius s) * coord (radius s) in
  let u := fp_u 53 in let uc := fp_u p in let eta := fp_eta 53 1024 in
  exists it l rest, rtree_filter_iter t (nf_sphere_filter p e s) = Ok it /\
    iterates (iter_next_with (fun k => k) (nf_sphere_filter p e s)) it l /\
    sublist l (contents t) /\ Permutation (contents t) (l ++ rest) /\
    Forall (fun kv => nf_sphere_test p e s (fst kv) = true) l /\
    ((1 + u) * r2 + eta < powerRZ 2 1024 ->
     Forall (fun kv => (1 - u) ^ (D + 1) * ((1 - uc) ^ 2 * rdist2 (fst kv) (center s)) - INR (D + 1) * eta <= (1 + u) * r2 + eta) l) /\
    Forall (fun kv => (1 - u) * r2 - eta < (1 + u) ^ (D + 1) * ((1 + uc) ^ 2 * rdist2 (fst kv) (center s) + INR (D + 1) * eta)) rest.
Proof.
  intros p e V D VO cfg t s Hf Hp He Hr Hfin Hc Hrad Hr0 r2 u uc eta.
  assert (Hw : wf cfg finite_point (rel_cover (point_params (nf_ops p e) VO) (box_incl (nf_ops p e))) 0%nat False (fst t) (snd t)).
  { eapply wf_ok_in; [apply (inv_cover (point_params (nf_ops p e) VO) cfg any_key (box_incl (nf_ops p e)) t (box_bounds_laws _ (nf_order p e) _) Hr)|]. intros k Hk.
    unfold keys in Hk. apply in_map_iff in Hk as ([k' v] & <- & Hi). exact (Hfin k' v Hi). }
  assert (Hu := u_range 53 1024 Hf64). assert (Huc := u_range p e Hf). assert (Het := eta_pos 53 1024). fold u in Hu. fold uc in Huc. fold eta in Het.
  assert (Hin : forall k : svec (nf p e) (S D), finite_point k ->
    (1 + u) ^ (D + 1) * ((1 + uc) ^ 2 * rdist2 k (center s) + INR (D + 1) * eta) <= (1 - u) * r2 - eta -> rdist2 k (center s) <= r2).
  { intros k Hk H. assert (Hd : 0 <= rdist2 k (center s)).
    { unfold rdist2. generalize (vzip k (center s)). intros z. induction z as [|x z IHz]; cbn [map fold_right]; [lra|]. assert (Hx := Rle_0_sqr (coord (fst x) - coord (snd x))). unfold Rsqr in Hx. lra. }
    assert (K1 : 1 <= (1 + u) ^ (D + 1)) by (apply pow_R1_Rle; lra). assert (K2 : 1 <= (1 + uc) ^ 2) by (apply pow_R1_Rle; lra).
    assert (K3 : 0 <= INR (D + 1) * eta) by (apply Rmult_le_pos; [apply pos_INR|lra]).
    assert (K4 : 1 * rdist2 k (center s) <= (1 + uc) ^ 2 * rdist2 k (center s)) by (apply Rmult_le_compat_r; lra).
    set (x := (1 + uc) ^ 2 * rdist2 k (center s)) in *. assert (K5 : 1 * (x + INR (D + 1) * eta) <= (1 + u) ^ (D + 1) * (x + INR (D + 1) * eta)) by (apply Rmult_le_compat_r; lra).
    assert (0 <= r2) by (unfold r2; nra). assert (0 <= u * r2) by (apply Rmult_le_pos; lra). lra. }
  destruct (filter_iter_found (fun k => k) (nf_sphere_filter p e s) (point_params (nf_ops p e) VO) cfg finite_point (box_incl (nf_ops p e))
    (fun k => x_in_box (nf_sphere_bounds p e s) k) (fun b k _ Hb _ Hi => box_found p e D VO s b k Hb Hi) t 0%nat False Hw)
    as (it & l & rest & H1 & H2 & H3 & H4 & H5 & H6).
  assert (Hfl : forall kv, In kv (l ++ rest) -> finite_point (fst kv)).
  { intros [k v] Hi. apply (Hfin k v). now rewrite H4. }
  exists it, l, rest. split; [exact H1|]. split; [exact H2|]. split; [exact H3|]. split; [exact H4|]. split; [exact H5|]. split.
  - intros Hov. rewrite Forall_forall in *. intros kv Hi. apply (accepted_inside p e Hf Hp He D s (fst kv)); try assumption;
      [apply Hfl, in_or_app; now left| |exact (H5 kv Hi)]. rewrite Flocq.Core.Raux.bpow_powerRZ. exact Hov.
  - rewrite Forall_forall in *. intros kv Hi. apply Rnot_le_lt. intros Hle.
    assert (Hk : finite_point (fst kv)) by (apply Hfl, in_or_app; now right).
    apply (H6 kv Hi). split; [now apply (inside_accepted p e Hf Hp He D s (fst kv))|]. apply (near_box p e Hf); try assumption. now apply Hin.
Qed.
Print Assumptions C74_query_partial.

(** Coordinates that are integers of absolute value at most [M], where all differences and squares are exact: the query yields
    exactly the entries inside of the sphere. *)
Theorem C74_integers_partial :
  forall (p e : Z) (V : Type) (D : nat) (VO : VolumeOps (saabb (nf p e) (S D))) (cfg : config)
    (t : rtree (saabb (nf p e) (S D)) (svec (nf p e) (S D)) V) (s : sphere (nf p e) (S D)) (M r : Z),
  fp_format p e -> (p <= 53)%Z -> (e <= 1024)%Z -> (0 <= M)%Z -> (2 * M <= 2 ^ p)%Z -> (Z.of_nat (S D) * (2 * M * (2 * M)) <= 2 ^ 53)%Z ->
  reachable (point_params (nf_ops p e) VO) cfg any_key t ->
  (forall k v, In (k, v) (contents t) -> Forall (fun x => exists z, nf_value x = XReal (IZR z) /\ (Z.abs z <= M)%Z) (vlist k)) ->
  Forall (fun x => exists z, nf_value x = XReal (IZR z) /\ (Z.abs z <= M)%Z) (vlist (center s)) ->
  nf_value (radius s) = XReal (IZR r) -> (0 <= r)%Z -> (r * r <= 2 ^ 53)%Z ->
  exists it l, rtree_filter_iter t (nf_sphere_filter p e s) = Ok it /\
    iterates (iter_next_with (fun k => k) (nf_sphere_filter p e s)) it l /\
    exactly (fun kv => rdist2 (fst kv) (center s) <= IZR r * IZR r) l (contents t).
Proof.
  intros p e V D VO cfg t s M r Hf Hp He HM0 HM HD Hr Hfin Hc Hrad Hr0 Hr1.
  assert (G : forall v : svec (nf p e) (S D), Forall (fun x => exists z, nf_value x = XReal (IZR z) /\ (Z.abs z <= M)%Z) (vlist v) ->
    finite_point v /\ Forall (int_at p e M) (vlist v)).
  { intros v Hv. split; (eapply Forall_impl; [|exact Hv]); intros x (z & E & B); [eauto|]. split; [eauto|]. exists z. unfold coord. rewrite E. auto. }
  destruct (G _ Hc) as [Fc Ic]. assert (Ecr : coord (radius s) = IZR r) by (unfold coord; now rewrite Hrad).
  assert (T : forall k : svec (nf p e) (S D), Forall (int_at p e M) (vlist k) -> (nf_sphere_test p e s k = true <-> rdist2 k (center s) <= IZR r * IZR r)).
  { intros k Hk. rewrite <- Ecr. apply (test_int p e Hf Hp He M D s k); try assumption; [eauto|]. exists r. auto. }
  assert (Hw : wf cfg (fun k => finite_point k /\ Forall (int_at p e M) (vlist k)) (rel_cover (point_params (nf_ops p e) VO) (box_incl (nf_ops p e))) 0%nat False (fst t) (snd t)).
  { eapply wf_ok_in; [apply (inv_cover (point_params (nf_ops p e) VO) cfg any_key (box_incl (nf_ops p e)) t (box_bounds_laws _ (nf_order p e) _) Hr)|]. intros k Hk.
    unfold keys in Hk. apply in_map_iff in Hk as ([k' v] & <- & Hi). exact (G _ (Hfin k' v Hi)). }
  destruct (filter_iter_wf (fun k => k) (nf_sphere_filter p e s) (point_params (nf_ops p e) VO) cfg (fun k => finite_point k /\ Forall (int_at p e M) (vlist k))
    (box_incl (nf_ops p e)) t 0%nat False) as (it & E & Hi); [|exact Hw|].
  - intros b k [Hk1 Hk2] Ht Hb. apply (box_found p e D VO s b k); [|exact Hb]. apply (near_box p e Hf); try assumption; [eauto|rewrite Ecr; now apply IZR_le|].
    rewrite Ecr. now apply T.
  - exists it. eexists. split; [exact E|]. split; [exact Hi|]. eexists. split; [reflexivity|]. intros [k v] Hin.
    cbn [test_key nf_sphere_filter bounded_intersects_filter fst]. apply T, G, (Hfin k v Hin).
Qed.
Print Assumptions C74_integers_partial.

(** No NaN: neither the checks of a debug build panic nor does a comparison go wrong; the raw operators are used here. *)
Theorem C74_no_nan_partial :
  forall (p e : Z) (D : nat) (s : sphere (nf p e) (S D)) (k : svec (nf p e) (S D)),
  fp_format p e -> (p <= 53)%Z -> (e <= 1024)%Z ->
  finite_point k -> finite_point (center s) -> (exists r, nf_value (radius s) = XReal r) ->
  Forall (fun c => SFsub p e (nf_raw c) (nf_raw (radius s)) <> S754_nan /\ SFadd p e (nf_raw c) (nf_raw (radius s)) <> S754_nan) (vlist (center s)) /\
  Forall (fun x => x <> S754_nan) (vlist (vmap2 (SFsub p e) (vmap nf_raw k) (vmap nf_raw (center s)))) /\
  sphere_intersects_point (sf_arith p e) sf_into_f64 f64_arith f64_le
    {| center := vmap nf_raw (center s); radius := nf_raw (radius s) |} (vmap nf_raw k) = nf_sphere_test p e s k /\
  sq_mag f64_arith (vmap sf_into_f64 (vmap2 (SFsub p e) (vmap nf_raw k) (vmap nf_raw (center s)))) <> S754_nan /\
  f64_mul (sf_into_f64 (nf_raw (radius s))) (sf_into_f64 (nf_raw (radius s))) <> S754_nan.
Proof.
  intros p e D s k Hf Hp He Hk Hc Hr.
  assert (NN : forall q e' x, nf_ok q e' x = true -> x <> S754_nan) by (intros q e' x H E; rewrite E in H; discriminate).
  assert (Ev : forall (n : nat) (a c : svec (nf p e) n), finite_point a -> finite_point c ->
    vmap2 (SFsub p e) (vmap nf_raw a) (vmap nf_raw c) = vmap nf_raw (vmap2 (a_sub (nf_arith p e)) a c)).
  { induction n as [|n IH]; intros a c Ha Hc'; [reflexivity|]. inversion Ha; inversion Hc'; subst. cbn [vmap vmap2 fst snd].
    f_equal; [symmetry; now apply (asub_raw p e Hf)|now apply IH]. }
  assert (Em : forall (n : nat) (a : svec (nf p e) n), vmap sf_into_f64 (vmap nf_raw a) = vmap (fun x => sf_into_f64 (nf_raw x)) a).
  { induction n as [|n IH]; intros a; [reflexivity|]. cbn [vmap fst snd]. now rewrite IH. }
  split; [|split; [|split; [|split]]].
  - assert (Fr := finite_value_SF _ _ _ Hr). eapply Forall_impl; [|exact Hc]. intros c Hc'. assert (Fc := finite_value_SF _ _ _ Hc').
    split; apply (NN p e); [now apply (sub_spec p e Hf)|now apply (add_ok p e Hf)].
  - rewrite (Ev _ k (center s) Hk Hc). rewrite vlist_vmap. apply Forall_forall. intros x Hx. apply in_map_iff in Hx as (y & <- & _). apply (NN p e), nf_prop.
  - unfold nf_sphere_test, sphere_intersects_point. cbn [center radius a_sub sf_arith].
    rewrite (Ev _ k (center s) Hk Hc), Em. reflexivity.
  - rewrite (Ev _ k (center s) Hk Hc), Em, (sq_mag_raw p e Hf Hp He). apply (NN 53%Z 1024%Z), nf_prop.
  - rewrite <- (up_raw p e Hf Hp He). change f64_mul with (SFmul 53 1024). rewrite <- (amul_raw 53 1024 Hf64). apply (NN 53%Z 1024%Z), nf_prop.
Qed.
Print Assumptions C74_no_nan_partial.

(** ** What does not *)
Lemma coord_fin {p e : Z} (x : nf p e) s m ex : nf_raw x = S754_finite s m ex -> coord x = (if s then -1 else 1) * IZR (Z.pos m) * powerRZ 2 ex.
Proof. intros E. unfold coord, nf_value. now rewrite E. Qed.
Lemma coord_int {p e : Z} (x : nf p e) (s : bool) m n z : nf_raw x = S754_finite s m (- Z.of_nat n) ->
  (Z.pos m = z * 2 ^ Z.of_nat n)%Z -> coord x = (if s then -1 else 1) * IZR z.
Proof.
  intros E H. rewrite (coord_fin _ _ _ _ E), H, mult_IZR, <- pow_IZR, powerRZ_neg', <- pow_powerRZ. field. apply pow_nonzero. lra.
Qed.
Lemma finite_pointb' {p e : Z} {D : nat} (k : svec (nf p e) D) : forallb (fun x => sf_fin (nf_raw x)) (vlist k) = true -> finite_point k.
Proof.
  rewrite forallb_forall. intros H. apply Forall_forall. intros y Hy. apply H in Hy. unfold nf_value.
  destruct (nf_raw y) as [s|s| |s m ex]; try discriminate; cbn; eauto.
Qed.
Lemma finite_b {p e : Z} (x : nf p e) : sf_fin (nf_raw x) = true -> exists r, nf_value x = XReal r.
Proof. unfold nf_value. destruct (nf_raw x) as [s|s| |s m ex]; try discriminate; cbn; eauto. Qed.

(** [m * 2^ex] as an [N32]. *)
Definition fs (m : Z) (ex : Z) : n32 := nf_of 24 128 (SpecFloat.binary_normalize 24 128 m ex false).
Definition PF32 : Params (saabb n32 2) (svec n32 2) := nf_point_params 24 128 2.

(** [N64]: the point is inside of the sphere, but the rounded sum of its squared coordinates exceeds the rounded square of the radius. *)
Definition in64 : svec n64 2 := (ff 407370276139 0, (ff 5602008562 0, tt)).
Definition s64 : sphere n64 2 := {| center := (ff 0 0, (ff 0 0, tt)) : svec n64 2; radius := ff 407408792715 0 |}.
Theorem C74_missed_n64_refuted :
  exists (t : rtree (saabb n64 2) (svec n64 2) nat) (s : sphere n64 2) (k : svec n64 2) it,
  reachable (nf_point_params 53 1024 2) (cfg_of 4 2) any_key t /\ contents t = [(k, 7%nat)] /\ finite_point k /\
  finite_point (center s) /\ (exists r, nf_value (radius s) = XReal r) /\ 0 <= coord (radius s) /\
  rdist2 k (center s) <= coord (radius s) * coord (radius s) /\
  rtree_filter_iter t (nf_sphere_filter 53 1024 s) = Ok it /\ iterates (iter_next_with (fun k => k) (nf_sphere_filter 53 1024 s)) it [].
Proof.
  assert (Hc : contents (final (nf_point_params 53 1024 2) (cfg_of 4 2) [OInsert in64 7%nat]) = [(in64, 7%nat)]) by (vm_compute; reflexivity).
  assert (Hr := final_reachable_any (nf_point_params 53 1024 2) (cfg_of 4 2) [OInsert in64 7%nat]).
  destruct (filter_iter_any (fun k => k) (nf_sphere_filter 53 1024 s64) (nf_point_params 53 1024 2) (cfg_of 4 2) _ Hr) as (it & l & E & Hi & Hs).
  exists (final (nf_point_params 53 1024 2) (cfg_of 4 2) [OInsert in64 7%nat]), s64, in64, it.
  assert (E1 : coord (ff 407370276139 0) = 1 * IZR 407370276139) by (apply (coord_int _ false 6674354604261376 14); vm_compute; reflexivity).
  assert (E2 : coord (ff 5602008562 0) = 1 * IZR 5602008562) by (apply (coord_int _ false 5874131729907712 20); vm_compute; reflexivity).
  assert (E3 : coord (ff 407408792715 0) = 1 * IZR 407408792715) by (apply (coord_int _ false 6674985659842560 14); vm_compute; reflexivity).
  assert (E0 : coord (ff 0 0) = 0) by (unfold coord, nf_value; replace (nf_raw (ff 0 0)) with (S754_zero false) by (vm_compute; reflexivity); reflexivity).
  split; [exact Hr|]. split; [exact Hc|]. split; [apply finite_pointb'; vm_compute; reflexivity|].
  split; [apply finite_pointb'; vm_compute; reflexivity|]. split; [apply finite_b; vm_compute; reflexivity|].
  cbn [radius center s64]. rewrite E3. split; [lra|].
  split; [unfold rdist2, in64, vzip; cbn [vlist combine map fold_right fst snd]; rewrite E0, E1, E2; lra|].
  split; [exact E|]. rewrite Hc in Hs. cbn [filter fst] in Hs.
  assert (Et : test_key (nf_sphere_filter 53 1024 s64) in64 = false) by (vm_compute; reflexivity).
  rewrite Et in Hs. inversion Hs; subst l. exact Hi.
Qed.
Print Assumptions C74_missed_n64_refuted.

(** [N32]: the difference of the first coordinates is rounded up. *)
Definition in32 : svec n32 2 := (fs 9015342 0, (fs 10963306 0, tt)).
Definition s32 : sphere n32 2 := {| center := (fs (-3) (-2), (fs 0 0, tt)) : svec n32 2; radius := fs 14194030 0 |}.
Theorem C74_missed_n32_refuted :
  exists (t : rtree (saabb n32 2) (svec n32 2) nat) (s : sphere n32 2) (k : svec n32 2) it,
  reachable (nf_point_params 24 128 2) (cfg_of 4 2) any_key t /\ contents t = [(k, 7%nat)] /\ finite_point k /\
  finite_point (center s) /\ (exists r, nf_value (radius s) = XReal r) /\ 0 <= coord (radius s) /\
  rdist2 k (center s) <= coord (radius s) * coord (radius s) /\
  rtree_filter_iter t (nf_sphere_filter 24 128 s) = Ok it /\ iterates (iter_next_with (fun k => k) (nf_sphere_filter 24 128 s)) it [].
Proof.
  assert (Hc : contents (final (nf_point_params 24 128 2) (cfg_of 4 2) [OInsert in32 7%nat]) = [(in32, 7%nat)]) by (vm_compute; reflexivity).
  assert (Hr := final_reachable_any (nf_point_params 24 128 2) (cfg_of 4 2) [OInsert in32 7%nat]).
  destruct (filter_iter_any (fun k => k) (nf_sphere_filter 24 128 s32) (nf_point_params 24 128 2) (cfg_of 4 2) _ Hr) as (it & l & E & Hi & Hs).
  exists (final (nf_point_params 24 128 2) (cfg_of 4 2) [OInsert in32 7%nat]), s32, in32, it.
  assert (E1 : coord (fs 9015342 0) = 1 * IZR 9015342) by (apply (coord_int _ false 9015342 0); vm_compute; reflexivity).
  assert (E2 : coord (fs 10963306 0) = 1 * IZR 10963306) by (apply (coord_int _ false 10963306 0); vm_compute; reflexivity).
  assert (E3 : coord (fs 14194030 0) = 1 * IZR 14194030) by (apply (coord_int _ false 14194030 0); vm_compute; reflexivity).
  assert (E4 : coord (fs (-3) (-2)) = - (3 / 4)).
  { rewrite (coord_fin (fs (-3) (-2)) true 12582912 (- Z.of_nat 24)) by (vm_compute; reflexivity). rewrite powerRZ_neg', <- pow_powerRZ.
    replace (IZR 12582912) with (3 * 2 ^ 22) by (rewrite pow_IZR, <- mult_IZR; apply f_equal; reflexivity).
    replace (2 ^ 24) with (4 * 2 ^ 22) by (rewrite !pow_IZR, <- mult_IZR; apply f_equal; reflexivity). field. }
  assert (E0 : coord (fs 0 0) = 0) by (unfold coord, nf_value; replace (nf_raw (fs 0 0)) with (S754_zero false) by (vm_compute; reflexivity); reflexivity).
  split; [exact Hr|]. split; [exact Hc|]. split; [apply finite_pointb'; vm_compute; reflexivity|].
  split; [apply finite_pointb'; vm_compute; reflexivity|]. split; [apply finite_b; vm_compute; reflexivity|].
  cbn [radius center s32]. rewrite E3. split; [lra|].
  split; [unfold rdist2, in32, vzip; cbn [vlist combine map fold_right fst snd]; rewrite E0, E1, E2, E4; lra|].
  split; [exact E|]. rewrite Hc in Hs. cbn [filter fst] in Hs.
  assert (Et : test_key (nf_sphere_filter 24 128 s32) in32 = false) by (vm_compute; reflexivity).
  rewrite Et in Hs. inversion Hs; subst l. exact Hi.
Qed.
Print Assumptions C74_missed_n32_refuted.

(** Two entries of one leaf. *)
Definition two_tree (x y : n64) : rtree (saabb n64 1) (svec n64 1) nat :=
  final (nf_point_params 53 1024 1) (cfg_of 4 2) [OInsert ((x, tt) : svec n64 1) 0%nat; OInsert ((y, tt) : svec n64 1) 7%nat].
(** An iterator over the entries of a tree that is a single leaf whose bounds meet the sphere. *)
Lemma leaf_query {V : Type} (p e : Z) (D : nat) (s : sphere (nf p e) (S D)) (t : rtree (saabb (nf p e) (S D)) (svec (nf p e) (S D)) V) b es :
  t = (0%nat, Node b (CLeaf es)) -> test_bounds (nf_sphere_filter p e s) b = true ->
  exists it, rtree_filter_iter t (nf_sphere_filter p e s) = Ok it /\
    iterates (iter_next_with (fun k => k) (nf_sphere_filter p e s)) it (filter (fun kv => nf_sphere_test p e s (fst kv)) es).
Proof.
  intros -> Hb. unfold rtree_filter_iter, filter_iter_new. cbn [snd node_bounds]. rewrite Hb.
  destruct (iter_new_spec (fun k => k) (nf_sphere_filter p e s) (0%nat, Node b (CLeaf es)) Logic.I) as (it & E & H1 & H2). exists it. split; [exact E|].
  assert (H2' : filter (fun kv => nf_sphere_test p e s (fst kv)) es = pending (fun k => k) (nf_sphere_filter p e s) it) by (symmetry; exact H2).
  rewrite H2'. now apply (stack_iterates (fun k => k) (nf_sphere_filter p e s)).
Qed.

(** Radii whose square overflows or underflows: the error is not small. The sphere of radius [2^700] around 0 yields the point
    [2^800], that of radius [2^-700] the point [2^-600]. *)
Theorem C74_far_outside_refuted :
  forall (m : Z), m = 700%Z \/ m = (-700)%Z ->
  exists (t : rtree (saabb n64 1) (svec n64 1) nat) (s : sphere n64 1) (k : svec n64 1) it l,
  reachable (nf_point_params 53 1024 1) (cfg_of 4 2) any_key t /\ (forall k v, In (k, v) (contents t) -> finite_point k) /\
  finite_point (center s) /\ nf_value (radius s) = XReal (powerRZ 2 m) /\
  rtree_filter_iter t (nf_sphere_filter 53 1024 s) = Ok it /\ iterates (iter_next_with (fun k => k) (nf_sphere_filter 53 1024 s)) it l /\
  In (k, 7%nat) l /\ rdist2 k (center s) = powerRZ 2 (m + 100) * powerRZ 2 (m + 100).
Proof.
  intros m Hm.
  set (s := {| center := (ff 0 0, tt) : svec n64 1; radius := ff 1 m |} : sphere n64 1). set (k := (ff 1 (m + 100), tt) : svec n64 1).
  assert (E0 : coord (ff 0 0) = 0) by (unfold coord, nf_value; replace (nf_raw (ff 0 0)) with (S754_zero false) by (vm_compute; reflexivity); reflexivity).
  assert (V : forall ex, nf_raw (ff 1 ex) = S754_finite false 4503599627370496 (ex - 52) -> nf_value (ff 1 ex) = XReal (powerRZ 2 ex)).
  { intros ex E. unfold nf_value. rewrite E. cbn [sf_value]. f_equal. unfold Z.sub. rewrite powerRZ_add by lra. replace (powerRZ 2 (-(52))) with (/ 2 ^ 52) by reflexivity.
    replace (IZR 4503599627370496) with (2 ^ 52) by (rewrite pow_IZR; apply f_equal; reflexivity). field. }
  assert (V1 : nf_value (ff 1 m) = XReal (powerRZ 2 m)) by (apply V; destruct Hm as [-> | ->]; vm_compute; reflexivity).
  assert (V2 : nf_value (ff 1 (m + 100)) = XReal (powerRZ 2 (m + 100))) by (apply V; destruct Hm as [-> | ->]; vm_compute; reflexivity).
  assert (Hc : contents (two_tree (ff 0 0) (ff 1 (m + 100))) = [((ff 0 0, tt), 0%nat); (k, 7%nat)]) by (destruct Hm as [-> | ->]; vm_compute; reflexivity).
  set (t := two_tree (ff 0 0) (ff 1 (m + 100))) in *.
  assert (Ht : t = (0%nat, Node (node_bounds (snd t)) (CLeaf [((ff 0 0, tt), 0%nat); (k, 7%nat)])))
    by (unfold t, k; destruct Hm as [-> | ->]; vm_compute; reflexivity).
  assert (Hb : test_bounds (nf_sphere_filter 53 1024 s) (node_bounds (snd t)) = true) by (unfold t, s; destruct Hm as [-> | ->]; vm_compute; reflexivity).
  destruct (leaf_query 53 1024 0 s _ _ _ Ht Hb) as (it & E & Hi).
  exists t, s, k, it. eexists. split; [apply final_reachable_any|]. split; [|split; [|split; [exact V1|split; [exact E|split; [exact Hi|split]]]]].
  - rewrite Hc. intros k' v [[= <- _]|[[= <- _]|[]]]; [apply finite_pointb'; vm_compute; reflexivity|]. constructor; [eauto|constructor].
  - apply finite_pointb'. vm_compute. reflexivity.
  - apply filter_In. split; [right; now left|]. destruct Hm as [-> | ->]; vm_compute; reflexivity.
  - unfold rdist2, vzip. cbn [vlist combine map fold_right fst snd s k center]. rewrite E0.
    assert (E2 : coord (ff 1 (m + 100)) = powerRZ 2 (m + 100)) by (unfold coord; now rewrite V2). rewrite E2. ring.
Qed.
Print Assumptions C74_far_outside_refuted.

(** Whether the query yields an entry that the sphere's test accepts depends on the other entries: [2^24] for the center [-1] and
    the radius [2^24] ([N32]). *)
Definition edge_sphere : sphere n32 1 := {| center := (fs (-1) 0, tt) : svec n32 1; radius := fs 16777216 0 |}.
Definition edge_point : svec n32 1 := (fs 16777216 0, tt).
Theorem C74_depends_on_tree_refuted :
  exists (t t' : rtree (saabb n32 1) (svec n32 1) nat) (s : sphere n32 1) (k : svec n32 1) it it' l',
  reachable (nf_point_params 24 128 1) (cfg_of 4 2) any_key t /\ reachable (nf_point_params 24 128 1) (cfg_of 4 2) any_key t' /\
  In (k, 7%nat) (contents t) /\ In (k, 7%nat) (contents t') /\ nf_sphere_test 24 128 s k = true /\
  rtree_filter_iter t (nf_sphere_filter 24 128 s) = Ok it /\ iterates (iter_next_with (fun k => k) (nf_sphere_filter 24 128 s)) it [] /\
  rtree_filter_iter t' (nf_sphere_filter 24 128 s) = Ok it' /\ iterates (iter_next_with (fun k => k) (nf_sphere_filter 24 128 s)) it' l' /\
  In (k, 7%nat) l'.
Proof.
  set (t' := final (nf_point_params 24 128 1) (cfg_of 4 2) [OInsert edge_point 7%nat; OInsert ((fs 0 0, tt) : svec n32 1) 0%nat]).
  assert (Ht : t' = (0%nat, Node (node_bounds (snd t')) (CLeaf [(edge_point, 7%nat); ((fs 0 0, tt), 0%nat)]))) by (vm_compute; reflexivity).
  assert (Hb : test_bounds (nf_sphere_filter 24 128 edge_sphere) (node_bounds (snd t')) = true) by (vm_compute; reflexivity).
  destruct (leaf_query 24 128 0 edge_sphere t' _ _ Ht Hb) as (it' & E' & Hi').
  exists (final (nf_point_params 24 128 1) (cfg_of 4 2) [OInsert edge_point 7%nat]), t', edge_sphere, edge_point, [], it'. eexists.
  split; [apply final_reachable_any|]. split; [apply final_reachable_any|].
  split; [vm_compute; now left|]. split; [rewrite Ht; now left|]. split; [vm_compute; reflexivity|]. split; [|split; [|split; [exact E'|split; [exact Hi'|]]]].
  - unfold rtree_filter_iter, filter_iter_new.
    match goal with |- (if ?c then _ else _) = _ => assert (Ef : c = false) by (vm_compute; reflexivity) end.
    rewrite Ef. reflexivity.
  - apply (stack_iterates (fun k : svec n32 1 => k) (nf_sphere_filter 24 128 edge_sphere) []). intros [|i] x; discriminate.
  - apply filter_In. split; [now left|]. vm_compute. reflexivity.
Qed.
Print Assumptions C74_depends_on_tree_refuted.

(** The integer a float stands for. *)
Definition int_of (x : spec_float) : Z :=
  match x with S754_finite s m ex => (if s then -1 else 1) * (Z.pos m / 2 ^ (- ex)) | _ => 0 end.
Definition is_int (x : spec_float) : bool :=
  match x with
  | S754_zero _ => true
  | S754_finite s m ex => ((ex <=? 0) && (Z.pos m =? (Z.pos m / 2 ^ (- ex)) * 2 ^ (- ex)))%Z
  | _ => false
  end.
Lemma int_value {p e : Z} (x : nf p e) : is_int (nf_raw x) = true -> nf_value x = XReal (IZR (int_of (nf_raw x))).
Proof.
  unfold nf_value. destruct (nf_raw x) as [s|s| |s m ex]; try discriminate; intros H; [reflexivity|]. cbn [is_int int_of sf_value] in *.
  apply andb_prop in H as [H1 H2]. apply Z.leb_le in H1. apply Z.eqb_eq in H2. f_equal. rewrite H2 at 1. rewrite !mult_IZR.
  rewrite Rmult_assoc. f_equal; [now destruct s|]. rewrite Rmult_assoc. rewrite <- (Rmult_1_r (IZR (Z.pos m / 2 ^ (- ex)))) at 2. f_equal.
  rewrite <- (Z2Nat.id (- ex)) by lia. rewrite <- pow_IZR, pow_powerRZ, Z2Nat.id by lia. rewrite <- powerRZ_add by lra.
  replace (- ex + ex)%Z with 0%Z by lia. reflexivity.
Qed.
Definition ints (M : Z) (l : list spec_float) : bool := forallb (fun x => is_int x && (Z.abs (int_of x) <=? M)%Z) l.
Lemma ints_spec {p e : Z} {D : nat} (M : Z) (k : svec (nf p e) D) : ints M (map nf_raw (vlist k)) = true ->
  Forall (fun x => exists z, nf_value x = XReal (IZR z) /\ (Z.abs z <= M)%Z) (vlist k).
Proof.
  unfold ints. rewrite forallb_forall. intros H. apply Forall_forall. intros x Hx.
  specialize (H (nf_raw x) (in_map _ _ _ Hx)). apply andb_prop in H as [H1 H2]. apply Z.leb_le in H2.
  exists (int_of (nf_raw x)). split; [now apply int_value|exact H2].
Qed.

(** A tree of height 2 of points with integer coordinates (as [N32]); the sphere around (6, 5) of radius 5 yields the point at
    distance exactly 5, but not the one in the corner of its bounding box. *)
Definition f2 (x y : Z) : svec n32 2 := (fs x 0, (fs y 0, tt)).
Definition ops74 : list (op (svec n32 2) nat) :=
  map (fun z => OInsert (f2 (fst (fst z)) (snd (fst z))) (snd z))
    [((0, 0)%Z, 0%nat); ((9, 9)%Z, 1%nat); ((2, 9)%Z, 2%nat); ((4, 5)%Z, 3%nat); ((6, 1)%Z, 4%nat); ((10, 8)%Z, 5%nat); ((-7, 3)%Z, 6%nat); ((6, 10)%Z, 7%nat); ((1, 1)%Z, 8%nat)].
Definition t74 : rtree (saabb n32 2) (svec n32 2) nat := final PF32 (cfg_of 4 2) ops74.
Definition s74 : sphere n32 2 := {| center := f2 6 5; radius := fs 5 0 |}.
Example C74_example :
  fp_format 24 128 /\ (24 <= 53)%Z /\ (128 <= 1024)%Z /\ reachable PF32 (cfg_of 4 2) any_key t74 /\ fst t74 = 1%nat /\
  (forall k v, In (k, v) (contents t74) -> finite_point k) /\ finite_point (center s74) /\ (exists r, nf_value (radius s74) = XReal r) /\ 0 <= coord (radius s74) /\
  (2 * 100 <= 2 ^ 24)%Z /\ (Z.of_nat 2 * (2 * 100 * (2 * 100)) <= 2 ^ 53)%Z /\
  (forall k v, In (k, v) (contents t74) -> Forall (fun x => exists z, nf_value x = XReal (IZR z) /\ (Z.abs z <= 100)%Z) (vlist k)) /\
  Forall (fun x => exists z, nf_value x = XReal (IZR z) /\ (Z.abs z <= 100)%Z) (vlist (center s74)) /\
  nf_value (radius s74) = XReal (IZR 5) /\
  run_iter (iter_next_with (fun k => k) (nf_sphere_filter 24 128 s74)) (rtree_filter_iter t74 (nf_sphere_filter 24 128 s74)) 8 =
    Ok (map Some [3; 4; 1; 5; 7]%nat ++ repeat None 3).
Proof.
  assert (Ff : forall k : svec n32 2, Forall (fun x => exists z, nf_value x = XReal (IZR z) /\ (Z.abs z <= 100)%Z) (vlist k) -> finite_point k).
  { intros k Hk. eapply Forall_impl; [|exact Hk]. intros x (z & E & _). exact (ex_intro _ _ E). }
  assert (Hi : forall k v, In (k, v) (contents t74) -> Forall (fun x => exists z, nf_value x = XReal (IZR z) /\ (Z.abs z <= 100)%Z) (vlist k)).
  { intros k v Hin. assert (E : forallb (fun kv => ints 100 (map nf_raw (vlist (fst kv)))) (contents t74) = true) by (vm_compute; reflexivity).
    rewrite forallb_forall in E. apply ints_spec. exact (E (k, v) Hin). }
  assert (Hv : nf_value (radius s74) = XReal (IZR 5)).
  { assert (E : int_of (nf_raw (radius s74)) = 5%Z) by (vm_compute; reflexivity). rewrite <- E. apply int_value. vm_compute. reflexivity. }
  split; [split; reflexivity|]. split; [discriminate|]. split; [discriminate|]. split; [apply final_reachable_any|]. split; [vm_compute; reflexivity|].
  split; [intros k v Hin; exact (Ff k (Hi k v Hin))|].
  split; [apply finite_pointb'; vm_compute; reflexivity|]. split; [exact (ex_intro _ _ Hv)|]. split; [unfold coord; rewrite Hv; apply IZR_le; lia|].
  split; [vm_compute; discriminate|]. split; [vm_compute; discriminate|]. split; [exact Hi|]. split; [apply ints_spec; vm_compute; reflexivity|].
  split; [exact Hv|]. vm_compute. reflexivity.
Qed.
