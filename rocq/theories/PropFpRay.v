(** Property C76: rays with floating-point coordinates.  Vocabulary: FpSpec.v, FpSegSpec.v. *)
From Coq Require Import Reals Lra Floats.SpecFloat.
From Verif Require Import Witness PropIter PropCore PropDist PropFilter PropFp PropFpDist PropFpSphere PropSeg FpDist FpSphereProof IterProof FpSegModel FpSegSpec FpSegProof PropFpSeg.
Local Open Scope R_scope.

(** ** C76: what holds *)
Theorem C76_query_partial :
  forall (p e : Z) (V : Type) (D : nat) (VO : VolumeOps (saabb (nf p e) (S D))) (cfg : config)
    (t : rtree (saabb (nf p e) (S D)) (saabb (nf p e) (S D)) V) (r : ray (nf p e) (S D)),
  fp_format p e -> (p <= 53)%Z -> (e <= 1024)%Z ->
  reachable (box_params (nf_ops p e) VO) cfg x_valid t -> finite_point (ray_origin r) ->
  exists it found, rtree_filter_iter t (nf_ray_filter p e r) = Ok it /\
    iterates (iter_next_with (fun k => k) (nf_ray_filter p e r)) it found /\
    exactly (fun kv => nf_ray_test p e r (fst kv) = true) found (contents t).
Proof.
  intros p e V D VO cfg t r Hf Hp He Hr H0.
  destruct (C10_filter_iter_exact _ _ _ _ (box_params (nf_ops p e) VO) cfg x_valid (box_incl (nf_ops p e)) (fun k => k) (nf_ray_filter p e r) t
    (box_bounds_laws _ (nf_order p e) _)) as (it & E & Hi); [|exact Hr|].
  - intros b k Hk Ht Hb. apply incl_x in Hb. exact (ray_grows_x p e Hf Hp He D r b k H0 Hb Hk Ht).
  - exists it. eexists. split; [exact E|]. split; [exact Hi|]. eexists. split; [reflexivity|]. intros kv _. reflexivity.
Qed.
Print Assumptions C76_query_partial.

(** The test treats the ray as a line in both directions, and asks for more than one common point.  If it succeeds, a point of
    that line lies in the box after each side has been moved outwards by [k] times its distance from the origin; if two points of
    the line lie in the box after each side has been moved inwards by as much, and (for a line that does not move along the
    first axis) the origin lies strictly between the sides of that axis, it succeeds. *)
Theorem C76_accuracy_partial :
  forall (p e : Z) (D : nat) (r : ray (nf p e) (S D)) (b : saabb (nf p e) (S D)),
  fp_format p e -> (p <= 53)%Z -> (e <= 1024)%Z ->
  finite_point (ray_origin r) -> finite_point (ray_n r) -> finite_box b -> x_valid b ->
  moderate_point (ray_n r) -> moderate_diffs (bmin b) (ray_origin r) -> moderate_diffs (bmax b) (ray_origin r) ->
  let k := 3 * (fp_u p + fp_u 53) in
  (nf_ray_test p e r b = true -> exists t, ray_near k r b t) /\
  ((coord (fst (ray_n r)) = 0 -> coord (fst (bmin b)) < coord (fst (ray_origin r)) < coord (fst (bmax b))) ->
   (exists t t', t < t' /\ ray_near (- k) r b t /\ ray_near (- k) r b t') -> nf_ray_test p e r b = true).
Proof. intros p e D r b Hf Hp He H0 H1 Hb Hv M1 M2 M3 k. now apply (ray_accuracy p e Hf Hp He). Qed.
Print Assumptions C76_accuracy_partial.

Lemma moderate_small_point {p e : Z} {D : nat} (a : svec (nf p e) D) : fp_format p e -> (p + e <= 503)%Z ->
  Forall (fun x => Rabs (coord x) <= powerRZ 2 (e - 2)) (vlist a) -> moderate_point a.
Proof.
  intros Hf He H. unfold moderate_point. eapply Forall_impl; [|exact H]. intros x Hx. destruct (multiple x Hf) as (z & Ez). destruct Hf.
  apply (moderate_multiple p e z); try assumption. eapply Rle_trans; [exact Hx|]. apply powerRZ_le_2. lia.
Qed.

(** [N32], with coordinates up to a quarter of the range. *)
Theorem C76_n32_query_partial :
  forall (V : Type) (D : nat) (VO : VolumeOps (saabb n32 (S D))) (cfg : config) (t : rtree (saabb n32 (S D)) (saabb n32 (S D)) V)
    (r : ray n32 (S D)),
  reachable (box_params (nf_ops 24 128) VO) cfg x_valid t ->
  finite_point (ray_origin r) -> finite_point (ray_n r) ->
  Forall (fun x => Rabs (coord x) <= powerRZ 2 126) (vlist (ray_origin r) ++ vlist (ray_n r)) ->
  (forall k v, In (k, v) (contents t) -> finite_box k /\ Forall (fun x => Rabs (coord x) <= powerRZ 2 126) (vlist (bmin k) ++ vlist (bmax k))) ->
  coord (fst (ray_n r)) <> 0 ->
  let k := 3 * (fp_u 24 + fp_u 53) in
  exists it found rest, rtree_filter_iter t (nf_ray_filter 24 128 r) = Ok it /\ iterates (iter_next_with (fun k => k) (nf_ray_filter 24 128 r)) it found /\
    sublist found (contents t) /\ Permutation (contents t) (found ++ rest) /\
    Forall (fun kv => exists t, ray_near k r (fst kv) t) found /\
    Forall (fun kv => ~ exists t t', t < t' /\ ray_near (- k) r (fst kv) t /\ ray_near (- k) r (fst kv) t') rest.
Proof.
  intros V D VO cfg t r Hr H0 H1 Hs Hc Hx k. assert (Hf : fp_format 24 128) by (split; reflexivity).
  apply Forall_app in Hs as [S0 S1].
  assert (Hv := proj1 (inv_any (box_params (nf_ops 24 128) VO) cfg x_valid t Hr)). apply wf_ok in Hv. rewrite Forall_forall in Hv.
  assert (Acc : forall kv, In kv (contents t) -> (nf_ray_test 24 128 r (fst kv) = true -> exists t, ray_near k r (fst kv) t) /\
    ((exists t t', t < t' /\ ray_near (- k) r (fst kv) t /\ ray_near (- k) r (fst kv) t') -> nf_ray_test 24 128 r (fst kv) = true)).
  { intros [b v] Hi. destruct (Hc b v Hi) as [Hb Hs]. apply Forall_app in Hs as [S2 S3]. cbn [fst].
    destruct (ray_accuracy 24 128 Hf ltac:(lia) ltac:(lia) D r b H0 H1 Hb (Hv _ Hi)) as [A1 A2].
    - apply moderate_small_point; (assumption || lia).
    - apply moderate_small; (assumption || lia).
    - apply moderate_small; (assumption || lia).
    - split; [exact A1|]. intros H. apply A2; [intros; contradiction|exact H]. }
  destruct (C76_query_partial 24 128 V D VO cfg t r Hf ltac:(lia) ltac:(lia) Hr H0) as (it & found & E & Hi & g & -> & Hg).
  exists it, (filter g (contents t)), (filter (fun x => negb (g x)) (contents t)). split; [exact E|]. split; [exact Hi|].
  split; [generalize (contents t); intros m; induction m as [|x m IH]; cbn; [constructor|destruct (g x); constructor; exact IH]|].
  split; [generalize (contents t); intros m; induction m as [|x m IH]; cbn; [constructor|destruct (g x); cbn; [now constructor|rewrite <- Permutation_middle; now constructor]]|].
  split; apply Forall_forall; intros kv Hin; apply filter_In in Hin as [Hin Eg]; destruct (Acc kv Hin) as [A1 A2].
  - apply A1, Hg; assumption.
  - intros H. apply A2, (Hg kv Hin) in H. rewrite H in Eg. discriminate.
Qed.
Print Assumptions C76_n32_query_partial.

(** ** C76: what does not hold *)
Definition r76 (x y : n64) : ray n64 2 := {| ray_origin := (ff 0 0, (ff 0 0, tt)) : svec n64 2; ray_n := (x, (y, tt)) : svec n64 2 |}.
Ltac int_coord x v := let H := fresh "Ec" in
  assert (H : coord x = v) by (unfold coord; rewrite (int_value x) by (vm_compute; reflexivity); apply f_equal; vm_compute; reflexivity).

(** A box behind the origin is yielded. *)
Definition k76 : saabb n64 2 := b2 (ff (-5) 0) (ff (-5) 0) (ff (-3) 0) (ff (-3) 0).
Theorem C76_behind_refuted :
  exists (t : rtree (saabb n64 2) (saabb n64 2) nat) (r : ray n64 2) (b : saabb n64 2) it,
  reachable (nf_box_params 53 1024 2) (cfg_of 4 2) x_valid t /\ contents t = [(b, 7%nat)] /\ finite_box b /\
  finite_point (ray_origin r) /\ finite_point (ray_n r) /\ (~ exists t, 0 <= t /\ ray_near 0 r b t) /\
  rtree_filter_iter t (nf_ray_filter 53 1024 r) = Ok it /\ iterates (iter_next_with (fun k => k) (nf_ray_filter 53 1024 r)) it [(b, 7%nat)].
Proof.
  assert (Hv : x_valid k76) by (apply valid_xb; vm_compute; reflexivity).
  assert (Hr := one_box_reachable 53 1024 k76 Hv). assert (Hc : contents (one_box 53 1024 k76) = [(k76, 7%nat)]) by (vm_compute; reflexivity).
  assert (Ht : one_box 53 1024 k76 = (0%nat, Node (node_bounds (snd (one_box 53 1024 k76))) (CLeaf [(k76, 7%nat)]))) by (vm_compute; reflexivity).
  destruct (leaf_found (nf_ray_filter 53 1024 (r76 (ff 1 0) (ff 1 0))) _ _ _ Ht) as (it & E & Hi); [vm_compute; reflexivity|].
  exists (one_box 53 1024 k76), (r76 (ff 1 0) (ff 1 0)), k76, it. split; [exact Hr|]. split; [exact Hc|].
  split; [split; apply finite_pointb'; vm_compute; reflexivity|]. split; [apply finite_pointb'; vm_compute; reflexivity|].
  split; [apply finite_pointb'; vm_compute; reflexivity|]. split; [|split; [exact E|]].
  - intros (t & Ht' & H). unfold ray_near, k76, r76, b2 in H. cbn [bmin bmax ray_origin ray_n vmap vmap2 along in_moved_box fst snd] in H.
    int_coord (ff (-3) 0) (-3). rewrite ff0, ff1, Ec in H. lra.
  - cbn [filter fst] in Hi. assert (Ek : test_key (nf_ray_filter 53 1024 (r76 (ff 1 0) (ff 1 0))) k76 = true) by (vm_compute; reflexivity). rewrite Ek in Hi. exact Hi.
Qed.
Print Assumptions C76_behind_refuted.

(** A ray along a side of the box, orthogonal to the first axis, and a flat box crossed by the ray: not yielded. *)
Definition k76_face : saabb n64 2 := b2 (ff 0 0) (ff 1 0) (ff 5 0) (ff 2 0).
Theorem C76_on_face_refuted :
  exists (t : rtree (saabb n64 2) (saabb n64 2) nat) (r : ray n64 2) (b : saabb n64 2) it,
  reachable (nf_box_params 53 1024 2) (cfg_of 4 2) x_valid t /\ contents t = [(b, 7%nat)] /\ finite_box b /\
  finite_point (ray_origin r) /\ finite_point (ray_n r) /\ (forall t, 1 <= t <= 2 -> ray_near 0 r b t) /\
  rtree_filter_iter t (nf_ray_filter 53 1024 r) = Ok it /\ iterates (iter_next_with (fun k => k) (nf_ray_filter 53 1024 r)) it [].
Proof.
  assert (Hv : x_valid k76_face) by (apply valid_xb; vm_compute; reflexivity).
  assert (Hr := one_box_reachable 53 1024 k76_face Hv). assert (Hc : contents (one_box 53 1024 k76_face) = [(k76_face, 7%nat)]) by (vm_compute; reflexivity).
  destruct (one_missed (nf_ray_filter 53 1024 (r76 (ff 0 0) (ff 1 0))) _ _ _ _ _ _ Hr Hc) as (it & E & Hi); [vm_compute; reflexivity|].
  exists (one_box 53 1024 k76_face), (r76 (ff 0 0) (ff 1 0)), k76_face, it. split; [exact Hr|]. split; [exact Hc|].
  split; [split; apply finite_pointb'; vm_compute; reflexivity|]. split; [apply finite_pointb'; vm_compute; reflexivity|].
  split; [apply finite_pointb'; vm_compute; reflexivity|]. split; [|split; [exact E|exact Hi]].
  intros t Ht. unfold ray_near, k76_face, r76, b2. cbn [bmin bmax ray_origin ray_n vmap vmap2 along in_moved_box fst snd].
  int_coord (ff 2 0) 2. rewrite ff0, ff1, ff5, Ec. repeat split; lra.
Qed.
Print Assumptions C76_on_face_refuted.

Definition k76_flat : saabb n64 2 := b2 (ff 5 0) (ff (-1) 0) (ff 5 0) (ff 1 0).
Theorem C76_flat_box_refuted :
  exists (t : rtree (saabb n64 2) (saabb n64 2) nat) (r : ray n64 2) (b : saabb n64 2) it,
  reachable (nf_box_params 53 1024 2) (cfg_of 4 2) x_valid t /\ contents t = [(b, 7%nat)] /\ finite_box b /\
  finite_point (ray_origin r) /\ finite_point (ray_n r) /\ ray_near 0 r b 5 /\
  rtree_filter_iter t (nf_ray_filter 53 1024 r) = Ok it /\ iterates (iter_next_with (fun k => k) (nf_ray_filter 53 1024 r)) it [].
Proof.
  assert (Hv : x_valid k76_flat) by (apply valid_xb; vm_compute; reflexivity).
  assert (Hr := one_box_reachable 53 1024 k76_flat Hv). assert (Hc : contents (one_box 53 1024 k76_flat) = [(k76_flat, 7%nat)]) by (vm_compute; reflexivity).
  destruct (one_missed (nf_ray_filter 53 1024 (r76 (ff 1 0) (ff 0 0))) _ _ _ _ _ _ Hr Hc) as (it & E & Hi); [vm_compute; reflexivity|].
  exists (one_box 53 1024 k76_flat), (r76 (ff 1 0) (ff 0 0)), k76_flat, it. split; [exact Hr|]. split; [exact Hc|].
  split; [split; apply finite_pointb'; vm_compute; reflexivity|]. split; [apply finite_pointb'; vm_compute; reflexivity|].
  split; [apply finite_pointb'; vm_compute; reflexivity|]. split; [|split; [exact E|exact Hi]].
  unfold ray_near, k76_flat, r76, b2. cbn [bmin bmax ray_origin ray_n vmap vmap2 along in_moved_box fst snd].
  int_coord (ff (-1) 0) (-1). rewrite ff0, ff1, ff5, Ec. repeat split; lra.
Qed.
Print Assumptions C76_flat_box_refuted.

Example C76_example :
  reachable (box_params (nf_ops 24 128) (nf_volume_ops 24 128 2)) (cfg_of 4 2) x_valid t75 /\ fst t75 = 1%nat /\
  finite_point (ray_origin q76) /\ finite_point (ray_n q76) /\
  Forall (fun x => Rabs (coord x) <= powerRZ 2 126) (vlist (ray_origin q76) ++ vlist (ray_n q76)) /\
  (forall k v, In (k, v) (contents t75) -> finite_box k /\ Forall (fun x => Rabs (coord x) <= powerRZ 2 126) (vlist (bmin k) ++ vlist (bmax k))) /\
  coord (fst (ray_n q76)) <> 0 /\
  run_iter (iter_next_with (fun k => k) (nf_ray_filter 24 128 q76)) (rtree_filter_iter t75 (nf_ray_filter 24 128 q76)) 8 =
    Ok (map Some [5; 2; 8]%nat ++ repeat None 5).
Proof.
  destruct (smallb_all (vlist (ray_origin q76) ++ vlist (ray_n q76))) as [H1 H2]; [vm_compute; reflexivity|].
  destruct (proj1 (Forall_app _ _ _) H1) as [F0 F1].
  split; [exact t75_reachable|]. split; [vm_compute; reflexivity|]. split; [exact F0|]. split; [exact F1|]. split; [exact H2|]. split; [exact t75_small|].
  split; [|vm_compute; reflexivity]. int_coord (fst (ray_n q76)) 3. rewrite Ec. lra.
Qed.
