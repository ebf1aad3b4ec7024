(** Property C39: sphere queries.  Vocabulary: RealSpec.v (real points, [rdist2], [ball_in_range]). *)
From Coq Require Import Reals Lra.
From Flocq Require Import Core.
From Coq Require Import Floats.SpecFloat.
From Verif Require Import Witness RealSpec SphereModel SphereProof IterProof BoxDistProof.

(** ** Exact arithmetic *)

(** [R] as the scalar and as the float. *)
Definition real_arith : ArithOps R := {| a_add := Rplus; a_sub := Rminus; a_mul := Rmult |}.

(** In exact arithmetic a sphere of radius [r >= 0] matches exactly the points at distance at most [r] from its center, and
    its bounding box contains them. *)
Theorem C39_exact_arithmetic_partial :
  forall (D : nat) (s : sphere R (Datatypes.S D)) (p : svec R (Datatypes.S D)),
  (sphere_intersects_point real_arith (fun r : R => r) real_arith Rle_bool s p = true <->
     (rdist2 p (center s) <= radius s * radius s)%R) /\
  ((0 <= radius s)%R -> sphere_intersects_point real_arith (fun r : R => r) real_arith Rle_bool s p = true ->
     real_in_box (fun r : R => r) (sphere_bounds real_arith s) p).
Proof.
  intros D s p.
  assert (E : sq_mag real_arith (vmap (fun r : R => r) (vmap2 Rminus p (center s))) = rdist2 p (center s)).
  { unfold sq_mag. cbn [a_add a_mul real_arith]. rewrite fold_add_R. unfold rdist2. cbn [vzip vlist combine map fold_right vmap vmap2 fst snd].
    f_equal. destruct p as [p0 p], s as [[c0 c] r]. cbn [center fst snd].
    clear. induction D as [|D IH]; [reflexivity|]. cbn. now rewrite IH. }
  assert (H : sphere_intersects_point real_arith (fun r : R => r) real_arith Rle_bool s p = true <-> (rdist2 p (center s) <= radius s * radius s)%R).
  { unfold sphere_intersects_point. cbn [a_sub a_mul real_arith] in *. rewrite E.
    destruct (Rle_bool_spec (rdist2 p (center s)) (radius s * radius s)); split; auto; try discriminate. lra. }
  split; [exact H|]. intros Hr Ht. apply H in Ht. clear H E. destruct s as [c r]. cbn [center radius] in *.
  unfold sphere_bounds, real_in_box. cbn [center radius bmin bmax a_sub a_add real_arith].
  induction (Datatypes.S D) as [|n IH]; [split; constructor|]. destruct p as [p0 p], c as [c0 c].
  assert (En : rdist2 ((p0, p) : svec R (Datatypes.S n)) (c0, c) = ((p0 - c0) * (p0 - c0) + rdist2 p c)%R) by reflexivity.
  rewrite En in Ht. assert (Hn : (0 <= rdist2 p c)%R).
  { unfold rdist2. induction (vzip p c) as [|x l IHl]; cbn; [lra|]. assert (Hx := Rle_0_sqr (fst x - snd x)). unfold Rsqr in Hx. lra. }
  assert (Hs := Rle_0_sqr (p0 - c0)). unfold Rsqr in Hs.
  destruct (IH c p) as [IH1 IH2]; [lra|]. cbn [vmap vlist fst snd].
  assert (H0 : (- r <= p0 - c0 <= r)%R) by (split; nra).
  split; apply Forall2_cons; try assumption; lra.
Qed.
Print Assumptions C39_exact_arithmetic_partial.

(** ** [i32] coordinates, [f64] distances *)

(** A sphere near the upper end of the coordinates: its bounding box wraps around, and a query with it misses its own
    center. *)
Definition far_sphere : sphere i32 1 := {| center := p1 2000000000; radius := i32_of 200000000 |}.
Theorem C39_bounds_overflow_refuted :
  exists (t : rtree (saabb i32 1) (svec i32 1) nat) (s : sphere i32 1) (k : svec i32 1) it,
  reachable P1 (cfg_of 4 2) any_key t /\ rtree_get P1 (self_borrow P1) t k = Ok (Some 7) /\
  (0 <= i32_val (radius s))%Z /\
  (rdist2 (real_point i32_real k) (real_point i32_real (center s)) <= i32_real (radius s) * i32_real (radius s))%R /\
  i32_sphere_test s k = true /\
  rtree_filter_iter t (i32_sphere_filter s) = Ok it /\ iterates (iter_next_with (fun k => k) (i32_sphere_filter s)) it [].
Proof.
  exists (final P1 (cfg_of 4 2) [OInsert (p1 2000000000) 7]), far_sphere, (p1 2000000000), [].
  split; [apply final_reachable_any|]. split; [vm_compute; reflexivity|]. split; [vm_compute; discriminate|]. split.
  - assert (E : rdist2 (real_point i32_real (p1 2000000000)) (real_point i32_real (center far_sphere)) = 0%R).
    { unfold rdist2. cbn. rewrite Rminus_diag_eq by reflexivity. lra. }
    rewrite E. apply Rle_0_sqr.
  - split; [vm_compute; reflexivity|]. split.
    + unfold rtree_filter_iter, filter_iter_new.
      assert (Ef : test_bounds (i32_sphere_filter far_sphere) (node_bounds (snd (final P1 (cfg_of 4 2) [OInsert (p1 2000000000) 7]))) = false) by (vm_compute; reflexivity).
      rewrite Ef. reflexivity.
    + apply (stack_iterates (fun k : svec i32 1 => k) (i32_sphere_filter far_sphere) []). intros [|i] x; discriminate.
Qed.
Print Assumptions C39_bounds_overflow_refuted.

(** A negative radius: the sphere matches points (its square is positive), but its bounding box is inverted, so the query
    finds none of them. *)
Definition neg_sphere : sphere i32 1 := {| center := p1 0; radius := i32_of (-3) |}.
Theorem C39_negative_radius_refuted :
  exists (t : rtree (saabb i32 1) (svec i32 1) nat) (s : sphere i32 1) (k : svec i32 1) it,
  reachable P1 (cfg_of 4 2) any_key t /\ rtree_get P1 (self_borrow P1) t k = Ok (Some 7) /\
  i32_sphere_test s k = true /\ ~ in_box i32_ops (i32_sphere_bounds s) k /\
  rtree_filter_iter t (i32_sphere_filter s) = Ok it /\ iterates (iter_next_with (fun k => k) (i32_sphere_filter s)) it [].
Proof.
  exists (final P1 (cfg_of 4 2) [OInsert (p1 2) 7]), neg_sphere, (p1 2), [].
  split; [apply final_reachable_any|]. split; [vm_compute; reflexivity|]. split; [vm_compute; reflexivity|]. split.
  - intros H. apply in_box_iff in H. vm_compute in H. discriminate.
  - split.
    + unfold rtree_filter_iter, filter_iter_new.
      assert (Ef : test_bounds (i32_sphere_filter neg_sphere) (node_bounds (snd (final P1 (cfg_of 4 2) [OInsert (p1 2) 7]))) = false) by (vm_compute; reflexivity).
      rewrite Ef. reflexivity.
    + apply (stack_iterates (fun k : svec i32 1 => k) (i32_sphere_filter neg_sphere) []). intros [|i] x; discriminate.
Qed.
Print Assumptions C39_negative_radius_refuted.

(** A large radius: the squared distance is rounded, and a point outside the sphere is matched. *)
Theorem C39_rounding_refuted :
  exists (s : sphere i32 2) (k : svec i32 2),
  (0 <= i32_val (radius s))%Z /\ ball_in_range (i32_val (radius s)) (center s) /\ i32_sphere_test s k = true /\
  ~ (rdist2 (real_point i32_real k) (real_point i32_real (center s)) <= i32_real (radius s) * i32_real (radius s))%R.
Proof.
  exists {| center := pt 0 0; radius := i32_of 1073741824 |}, (pt 1073741824 1).
  split; [vm_compute; discriminate|]. split; [repeat split; vm_compute; discriminate|]. split; [vm_compute; reflexivity|].
  rewrite rdist2_diffs. unfold i32_real. rewrite <- mult_IZR. intros H. apply le_IZR in H. vm_compute in H. apply H. reflexivity.
Qed.
Print Assumptions C39_rounding_refuted.

(** What holds: for a radius that is not negative and a sphere inside the range of the coordinates, the bounding box
    contains every point the sphere matches, and a query of any reachable tree of points yields exactly the entries the
    sphere matches (in whatever position relative to the sphere the stored points are).  Up to a radius of 94906265
    ([r * r < 2^53]) these are exactly the points at distance at most [r]. *)
Theorem C39_sphere_query_partial :
  forall (D : nat) (V : Type) (cfg : config) (t : rtree (saabb i32 (Datatypes.S D)) (svec i32 (Datatypes.S D)) V) (s : sphere i32 (Datatypes.S D)),
  (Z.of_nat D < 2 ^ 53)%Z -> reachable (i32_point_params (Datatypes.S D)) cfg any_key t ->
  (0 <= i32_val (radius s))%Z -> ball_in_range (i32_val (radius s)) (center s) ->
  (forall p, i32_sphere_test s p = true -> in_box i32_ops (i32_sphere_bounds s) p) /\
  exists it l, rtree_filter_iter t (i32_sphere_filter s) = Ok it /\ iterates (iter_next_with (fun k => k) (i32_sphere_filter s)) it l /\
    exactly (fun kv => i32_sphere_test s (fst kv) = true) l (contents t) /\
    ((i32_val (radius s) <= 94906265)%Z ->
     exactly (fun kv => (rdist2 (real_point i32_real (fst kv)) (real_point i32_real (center s)) <=
                         i32_real (radius s) * i32_real (radius s))%R) l (contents t)).
Proof.
  intros D V cfg t s HD Hr Hs HB. split.
  - intros p Hp. apply near_in_bounds; auto. apply near_diffs; auto. now apply accepted_near.
  - destruct (filter_iter_exact (fun k => k) (i32_sphere_filter s) (i32_point_params (Datatypes.S D)) cfg any_key (box_incl i32_ops) t) as (it & E & Hi);
      [apply box_bounds_laws, i32_laws|now apply sphere_lawful|exact Hr|].
    exists it. eexists. split; [exact E|]. split; [exact Hi|]. split.
    + eexists. split; [reflexivity|]. intros [k v] _. reflexivity.
    + intros Hr2. eexists. split; [reflexivity|]. intros [k v] _. cbn [test_key i32_sphere_filter bounded_intersects_filter fst].
      rewrite (test_exact D s k HD) by (auto; lia). rewrite rdist2_diffs. unfold i32_real. rewrite <- mult_IZR.
      split; [apply IZR_le|apply le_IZR].
Qed.
Print Assumptions C39_sphere_query_partial.

(** A sphere that matches some of the points of the sample tree (of height 2): the point (9, 9) at distance exactly 5, but not
    (2, 9) in the corner of its bounding box. *)
Definition s39 : sphere i32 2 := {| center := pt 6 5; radius := i32_of 5 |}.
Example C39_example :
  reachable PP (cfg_of 4 2) any_key sample /\ (0 <= i32_val (radius s39))%Z /\ ball_in_range (i32_val (radius s39)) (center s39) /\
  run_iter (iter_next_with (fun k => k) (i32_sphere_filter s39)) (rtree_filter_iter sample (i32_sphere_filter s39)) 12 =
    Ok (map Some [9; 5; 11; 6; 17; 10; 2; 15] ++ repeat None 4).
Proof.
  split; [exact sample_reachable|]. split; [vm_compute; discriminate|]. split; [repeat split; vm_compute; discriminate|].
  vm_compute. reflexivity.
Qed.
