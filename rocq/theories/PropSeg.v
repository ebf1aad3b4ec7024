(** Properties C37 and C38: segments and rays against boxes.  Vocabulary: RealSpec.v (real points, boxes, [part_way], [along]),
    SegSpec.v (exact arithmetic, [segment_hits], [ray_hits]). *)
From Coq Require Import Reals Lra.
From Flocq Require Import Core.
From Coq Require Import Floats.SpecFloat.
From Verif Require Import Witness SegSpec SegQuery.
Local Open Scope R_scope.

Lemma validb_ok D (b : saabb i32 D) : valid_boxb b = true -> valid_box i32_ops b.
Proof. apply all_le_spec. Qed.

Ltac points :=
  split; repeat apply Forall2_cons; try apply Forall2_nil; cbv beta;
  repeat match goal with |- context [i32_val (i32_of ?z)] => change (i32_val (i32_of z)) with z end; lra.

(** ** C37: segments, exact arithmetic *)

(** In exact arithmetic (with IEEE infinities and NaN for the divisions by zero), for every dimension, the test is exact for
    every segment, including degenerate and axis-parallel ones, and every box that is not inverted. *)
Theorem C37_exact_arithmetic_partial :
  forall (D : nat) (l : line R D) (b : saabb R D),
  Forall2 Rle (vlist (bmin b)) (vlist (bmax b)) ->
  line_intersects_box Rminus EFin exact_ops l b = true <->
  exists t : R, 0 <= t <= 1 /\ real_in_box (fun r => r) b (part_way (line_0 l) (line_1 l) t).
Proof.
  intros D l b Hv. unfold line_intersects_box, exact_ops.
  assert (He : forall n (bmn bmx o d : svec R n), exact_at (fun r => r) Rminus EFin bmn bmx o d).
  { induction n as [|n IH]; intros; cbn [exact_at]; [exact Logic.I|]. repeat split. apply IH. }
  rewrite (line_test_axes (fun r => r) (fun r => r) Rminus EFin D b (line_0 l) (line_delta Rminus l) (He _ _ _ _ _)).
  assert (Ha := axes_valid (fun r : R => r) D b (line_0 l) (line_delta Rminus l) Hv). rewrite Forall_forall in Ha.
  assert (Ein : forall t, real_in_box (fun r => r) b (part_way (line_0 l) (line_1 l) t) <->
     Forall (axis_in t) (axes (fun r => r) (bmin b) (bmax b) (line_0 l) (line_delta Rminus l))).
  { intros t. rewrite <- in_box_axes, between_along. assert (Em : forall n (v : svec R n), vmap (fun r => r) v = v).
    { induction n as [|n IH]; intros v; [destruct v; reflexivity|]. destruct v. cbn. now rewrite IH. }
    rewrite !Em. reflexivity. }
  split; intros (t & Ht & H); exists t; (split; [exact Ht|]); [apply Ein|apply Ein in H]; rewrite Forall_forall in *;
    intros a Hin; apply exact_axis; auto.
Qed.
Print Assumptions C37_exact_arithmetic_partial.

(** The bounds of a segment contain all its points. *)
Theorem C37_bounds_contain :
  forall (N : Type) (S : ScalarOps N) (val : N -> R) (D : nat) (l : line N D) (t : R),
  (forall a b, (s_le S a b = true -> val a <= val b) /\ (s_le S a b = false -> val b <= val a)) -> 0 <= t <= 1 ->
  real_in_box val (line_bounds S l) (part_way (real_point val (line_0 l)) (real_point val (line_1 l)) t).
Proof.
  intros N S val D [a b] t HS Ht. unfold real_in_box, line_bounds, real_point. cbn [bmin bmax line_0 line_1].
  induction D as [|D IH]; [split; apply Forall2_nil|]. cbn [vlist cw_min cw_max part_way vmap vmap2 fst snd].
  destruct (IH (snd a) (snd b)) as [I1 I2]. destruct (HS (fst a) (fst b)) as [H1 H2].
  split; (apply Forall2_cons; [|assumption]); unfold s_min, s_max; destruct (s_le S (fst a) (fst b)); (specialize (H1 eq_refl) || specialize (H2 eq_refl)); nra.
Qed.
Print Assumptions C37_bounds_contain.

(** The scalar [i32] satisfies the hypothesis, and a segment that runs downwards. *)
Example C37_bounds_contain_i32 : forall a b : i32,
  (s_le i32_ops a b = true -> i32_real a <= i32_real b) /\ (s_le i32_ops a b = false -> i32_real b <= i32_real a).
Proof.
  intros a b. cbn [s_le i32_ops]. split; intros H; apply IZR_le; [now apply Z.leb_le in H|]. apply Z.leb_gt in H. lia.
Qed.

(** ** C37: [i32] coordinates, parameters in [f64] *)

(** Rounding: the segment from (0,0) to (49,1) ends in a corner of the box, but the test fails, since 49 * (1/49) < 1. *)
Definition l37 : line i32 2 := {| line_0 := pt 0 0; line_1 := pt 49 1 |}.
Theorem C37_rounding_refuted :
  exists (l : line i32 2) (b : saabb i32 2),
  valid_box i32_ops b /\ (exists t, 0 <= t <= 1 /\ segment_hits l b t) /\ i32_line_test l b = false.
Proof.
  exists l37, (bx 0 1 49 5). split; [apply validb_ok; vm_compute; reflexivity|]. split; [|vm_compute; reflexivity].
  exists 1. split; [lra|]. unfold segment_hits, real_in_box. cbn. unfold i32_real. cbn.
  points.
Qed.
Print Assumptions C37_rounding_refuted.

(** Overflow: the direction of a long segment wraps around (a panic in a debug build). *)
Theorem C37_overflow_refuted :
  exists (l : line i32 1) (b : saabb i32 1),
  valid_box i32_ops b /\ (exists t, 0 <= t <= 1 /\ segment_hits l b t) /\ i32_line_test l b = false.
Proof.
  exists {| line_0 := p1 (-2000000000); line_1 := p1 2000000000 |}, {| bmin := p1 (-5); bmax := p1 5 |}.
  split; [apply validb_ok; vm_compute; reflexivity|]. split; [|vm_compute; reflexivity].
  exists (1 / 2). split; [lra|]. unfold segment_hits, real_in_box. cbn. unfold i32_real. cbn.
  points.
Qed.
Print Assumptions C37_overflow_refuted.

(** What holds: if no difference overflows and the segment spans at most 2^25 in each dimension, a positive answer is right,
    and a segment that shares more than one point with the box is found.  (Both fail only by rounding, when the segment just
    touches the box in one point.) *)
Theorem C37_i32_partial :
  forall (D : nat) (l : line i32 D) (b : saabb i32 D),
  valid_box i32_ops b -> within 33554432 (line_1 l) (line_0 l) -> no_wraps (bmin b) (line_0 l) -> no_wraps (bmax b) (line_0 l) ->
  (i32_line_test l b = true -> exists t, 0 <= t <= 1 /\ segment_hits l b t) /\
  ((exists t t', 0 <= t /\ t < t' /\ t' <= 1 /\ segment_hits l b t /\ segment_hits l b t') -> i32_line_test l b = true).
Proof.
  intros D l b Hv Hw H1 H2. assert (Hn := within_no_wraps 33554432 D _ _ ltac:(lia) Hw).
  assert (Hi : Forall (int_axis 2147483648 33554432) (axes i32_real (bmin b) (bmax b) (line_0 l) (line_delta i32_sub l))).
  { apply iaxes_int; [exact Hv|now apply no_wraps_within|now apply no_wraps_within|]. apply delta_bounded; [lia|exact Hw]. }
  rewrite (line_test_i32 D l b H1 H2). split.
  - intros H. apply segment_sound in H; [|exact Hi]. destruct H as (t & Ht & H). exists t. split; [exact Ht|]. now apply segment_axes.
  - intros (t & t' & H0 & Ht & H1' & G & G'). apply segment_complete; [exact Hi|]. exists t, t'.
    rewrite segment_axes in G, G' by exact Hn. auto 6.
Qed.
Print Assumptions C37_i32_partial.

(** A segment through the interior of a box, and one that passes it. *)
Example C37_i32_example :
  (valid_box i32_ops (bx 3 3 6 8) /\ within 33554432 (line_1 {| line_0 := pt 0 0; line_1 := pt 10 12 |}) (pt 0 0) /\
   no_wraps (bmin (bx 3 3 6 8)) (pt 0 0) /\ no_wraps (bmax (bx 3 3 6 8)) (pt 0 0)) /\
  i32_line_test {| line_0 := pt 0 0; line_1 := pt 10 12 |} (bx 3 3 6 8) = true /\
  i32_line_test {| line_0 := pt 0 0; line_1 := pt 10 4 |} (bx 3 3 6 8) = false.
Proof.
  split; [|split; vm_compute; reflexivity].
  split; [apply validb_ok; vm_compute; reflexivity|]. split; [|split; repeat split; vm_compute; discriminate].
  unfold within. cbn [vlist line_1 pt fst snd]. repeat apply Forall2_cons; try apply Forall2_nil; vm_compute; discriminate.
Qed.

(** Queries: over a tree of boxes in a window less than [2^31] wide, with both ends of the segment in the window, both filters
    (the segment itself, and the segment with its bounds for the inner nodes) yield exactly the entries whose box passes the
    test, whatever the rounding. *)
Theorem C37_line_query_partial :
  forall (D : nat) (V : Type) (VO : VolumeOps (saabb i32 D)) (cfg : config) (t : rtree (saabb i32 D) (saabb i32 D) V)
    (window : saabb i32 D) (l : line i32 D) (f : SpatialFilter (saabb i32 D) (saabb i32 D)),
  reachable (box_params i32_ops VO) cfg (valid_box i32_ops) t -> narrow window ->
  (forall e, In e (contents t) -> box_incl i32_ops window (fst e)) ->
  in_box i32_ops window (line_0 l) -> in_box i32_ops window (line_1 l) ->
  f = i32_line_filter l \/ f = i32_bounded_line_filter l ->
  exists it found, rtree_filter_iter t f = Ok it /\ iterates (iter_next_with (fun k => k) f) it found /\
    exactly (fun kv => i32_line_test l (fst kv) = true) found (contents t).
Proof.
  intros D V VO cfg t W l f Hr HW HT H0 H1 Hf.
  destruct (window_wf i32_ops i32_laws i32_antisym VO W cfg t _ Hr HT) as (lo & strict & Hw).
  assert (HF : filter_lawful (box_params i32_ops VO) (fun k => k) (incl_in i32_ops W) (fun k => valid_box i32_ops k /\ box_incl i32_ops W k) (test_bounds f) (test_key f)).
  { destruct Hf as [-> | ->]; [now apply line_lawful|now apply bounded_line_lawful]. }
  destruct (filter_iter_wf (fun k => k) f (box_params i32_ops VO) cfg _ (incl_in i32_ops W) t lo strict HF Hw) as (s & E & Hi).
  exists s. eexists. split; [exact E|]. split; [exact Hi|]. eexists. split; [reflexivity|].
  intros [k v] _. destruct Hf as [-> | ->]; reflexivity.
Qed.
Print Assumptions C37_line_query_partial.

Definition q37 : line i32 2 := {| line_0 := pt 0 9; line_1 := pt 9 0 |}.
Lemma box_sample_in_window : forall e, In e (contents box_sample) -> box_incl i32_ops (bx 0 0 9 9) (fst e).
Proof.
  assert (H : forallb (fun e => all_le i32_ops (bmin (bx 0 0 9 9)) (bmin (fst e)) && all_le i32_ops (bmax (fst e)) (bmax (bx 0 0 9 9)))
                (contents box_sample) = true) by (vm_compute; reflexivity).
  rewrite forallb_forall in H. intros e He. specialize (H e He). apply andb_true_iff in H as [H1 H2]. split; apply all_le_spec; assumption.
Qed.
Example C37_query_example :
  reachable PB (cfg_of 4 2) (valid_box i32_ops) box_sample /\ narrow (bx 0 0 9 9) /\
  (forall e, In e (contents box_sample) -> box_incl i32_ops (bx 0 0 9 9) (fst e)) /\
  in_box i32_ops (bx 0 0 9 9) (line_0 q37) /\ in_box i32_ops (bx 0 0 9 9) (line_1 q37) /\
  run_iter (iter_next_with (fun k => k) (i32_line_filter q37)) (rtree_filter_iter box_sample (i32_line_filter q37)) 7 =
    Ok (map Some [4; 5]%nat ++ repeat None 5) /\
  run_iter (iter_next_with (fun k => k) (i32_bounded_line_filter q37)) (rtree_filter_iter box_sample (i32_bounded_line_filter q37)) 7 =
    Ok (map Some [4; 5]%nat ++ repeat None 5).
Proof.
  split; [exact box_sample_reachable|]. split; [repeat split; vm_compute; discriminate|]. split; [exact box_sample_in_window|].
  split; [apply in_box_iff; vm_compute; reflexivity|]. split; [apply in_box_iff; vm_compute; reflexivity|].
  split; vm_compute; reflexivity.
Qed.

(** ** C38: rays *)

(** A box behind the origin is accepted: the parameters are not restricted to [t >= 0]. *)
Theorem C38_behind_refuted :
  exists (r : ray i32 2) (b : saabb i32 2),
  valid_box i32_ops b /\ i32_ray_test r b = true /\ ~ exists t, 0 <= t /\ ray_hits r b t.
Proof.
  exists {| ray_origin := pt 0 0; ray_n := pt 1 1 |}, (bx (-5) (-5) (-3) (-3)).
  split; [apply validb_ok; vm_compute; reflexivity|]. split; [vm_compute; reflexivity|].
  intros (t & Ht & _ & H). unfold ray_hits in H. cbn in H. inversion H as [|? ? ? ? H1 _]; subst. unfold i32_real in H1. cbn in H1. lra.
Qed.
Print Assumptions C38_behind_refuted.

(** A ray along a side of the box, orthogonal to the first axis, is rejected although it runs through points of the box: the
    first dimension divides zero by zero. *)
Theorem C38_on_face_refuted :
  exists (r : ray i32 2) (b : saabb i32 2),
  valid_box i32_ops b /\ i32_ray_test r b = false /\ (forall t, 1 <= t <= 2 -> ray_hits r b t).
Proof.
  exists {| ray_origin := pt 0 0; ray_n := pt 0 1 |}, (bx 0 1 5 2).
  split; [apply validb_ok; vm_compute; reflexivity|]. split; [vm_compute; reflexivity|].
  intros t Ht. unfold ray_hits, real_in_box. cbn. unfold i32_real. cbn.
  points.
Qed.
Print Assumptions C38_on_face_refuted.

(** A flat box crossed by the ray is rejected (the comparison is strict). *)
Theorem C38_flat_box_refuted :
  exists (r : ray i32 2) (b : saabb i32 2),
  valid_box i32_ops b /\ i32_ray_test r b = false /\ ray_hits r b 5.
Proof.
  exists {| ray_origin := pt 0 0; ray_n := pt 1 0 |}, (bx 5 (-1) 5 1).
  split; [apply validb_ok; vm_compute; reflexivity|]. split; [vm_compute; reflexivity|].
  unfold ray_hits, real_in_box. cbn. unfold i32_real. cbn. points.
Qed.
Print Assumptions C38_flat_box_refuted.

(** What the test decides in exact arithmetic: whether the line through the origin, in both directions, shares more than one
    point with the box, and, if it does not move along the first axis, lies strictly inside the box in that dimension. *)
Theorem C38_exact_arithmetic_partial :
  forall (D : nat) (r : ray R (S D)) (b : saabb R (S D)),
  Forall2 Rle (vlist (bmin b)) (vlist (bmax b)) ->
  ray_intersects_box Rminus EFin exact_ops r b = true <->
  (fst (ray_n r) = 0 -> fst (bmin b) < fst (ray_origin r) < fst (bmax b)) /\
  exists t t' : R, t < t' /\ real_in_box (fun r => r) b (along (ray_origin r) (ray_n r) t) /\
                   real_in_box (fun r => r) b (along (ray_origin r) (ray_n r) t').
Proof.
  intros D r b Hv. unfold ray_intersects_box, exact_ops.
  assert (He : forall n (bmn bmx o d : svec R n), exact_at (fun r => r) Rminus EFin bmn bmx o d).
  { induction n as [|n IH]; intros; cbn [exact_at]; [exact Logic.I|]. repeat split. apply IH. }
  assert (Hv0 : fst (bmin b) <= fst (bmax b)) by (cbn [vlist] in Hv; now inversion Hv).
  rewrite (ray_test_axes (fun r => r) (fun r => r) Rminus EFin D b (ray_origin r) (ray_n r) (He _ _ _ _ _) Hv0).
  assert (Ha := axes_valid (fun r : R => r) _ b (ray_origin r) (ray_n r) Hv).
  assert (Ein : forall t, real_in_box (fun r => r) b (along (ray_origin r) (ray_n r) t) <->
     Forall (axis_in t) (axes (fun r => r) (bmin b) (bmax b) (ray_origin r) (ray_n r))).
  { intros t. rewrite <- in_box_axes. assert (Em : forall n (v : svec R n), vmap (fun r => r) v = v).
    { induction n as [|n IH]; intros v; [destruct v; reflexivity|]. destruct v. cbn. now rewrite IH. }
    rewrite !Em. reflexivity. }
  assert (K := inside_strict_iff _ Ha). assert (K' := allowed_strict_iff (fun r => r) (fun a b H => H) eq_refl _ Ha).
  rewrite K', <- K. split; intros [H1 (t & t' & Ht & H2 & H3)]; (split; [exact H1|]); exists t, t'; (split; [exact Ht|]); split; now apply Ein.
Qed.
Print Assumptions C38_exact_arithmetic_partial.

(** The same for [i32] rays and boxes of moderate size, up to rounding at a single point. *)
Theorem C38_i32_partial :
  forall (D : nat) (r : ray i32 (S D)) (b : saabb i32 (S D)),
  valid_box i32_ops b -> within 33554432 (bmin b) (ray_origin r) -> within 33554432 (bmax b) (ray_origin r) -> bounded_by 33554432 (ray_n r) ->
  (i32_ray_test r b = true -> exists t, ray_hits r b t) /\
  ((i32_val (fst (ray_n r)) = 0%Z -> (i32_val (fst (bmin b)) < i32_val (fst (ray_origin r)) < i32_val (fst (bmax b)))%Z) ->
   (exists t t', t < t' /\ ray_hits r b t /\ ray_hits r b t') -> i32_ray_test r b = true).
Proof.
  intros D r b Hv H1 H2 H3.
  assert (Hi : Forall (int_axis 33554432 33554432) (axes i32_real (bmin b) (bmax b) (ray_origin r) (ray_n r))) by (now apply iaxes_int).
  rewrite (ray_test_i32 D r b Hv) by (apply (within_no_wraps 33554432); [lia|assumption]). split.
  - intros [_ H]. apply ray_sound in H; [|exact Hi]. destruct H as (t & H). exists t. apply in_box_axes, H.
  - intros H0 (t & t' & Ht & G & G'). split.
    + intros E. apply eq_IZR in E. specialize (H0 E). destruct H0. split; apply IZR_lt; assumption.
    + apply ray_complete; [exact Hi|]. exists t, t'. split; [exact Ht|]. split; apply in_box_axes; assumption.
Qed.
Print Assumptions C38_i32_partial.

(** A ray through the interior of a box. *)
Example C38_i32_example :
  let r := {| ray_origin := pt 0 0; ray_n := pt 3 4 |} in let b := bx 3 3 6 8 in
  (valid_box i32_ops b /\ within 33554432 (bmin b) (ray_origin r) /\ within 33554432 (bmax b) (ray_origin r) /\ bounded_by 33554432 (ray_n r)) /\
  i32_ray_test r b = true /\ i32_ray_test {| ray_origin := pt 0 0; ray_n := pt 3 1 |} b = false.
Proof.
  cbv zeta. split; [|split; vm_compute; reflexivity].
  split; [apply validb_ok; vm_compute; reflexivity|]. unfold within, bounded_by. cbn [vlist bmin bmax bx ray_origin ray_n pt fst snd].
  split; [|split]; [| |repeat apply Forall_cons; try apply Forall_nil; vm_compute; discriminate];
    unfold ibox; cbn [bmin bmax vlist]; repeat apply Forall2_cons; try apply Forall2_nil; vm_compute; discriminate.
Qed.

(** Queries with a ray yield exactly the entries whose box passes the test. *)
Theorem C38_ray_query_partial :
  forall (D : nat) (V : Type) (VO : VolumeOps (saabb i32 (S D))) (cfg : config) (t : rtree (saabb i32 (S D)) (saabb i32 (S D)) V)
    (window : saabb i32 (S D)) (r : ray i32 (S D)),
  reachable (box_params i32_ops VO) cfg (valid_box i32_ops) t -> narrow window ->
  (forall e, In e (contents t) -> box_incl i32_ops window (fst e)) -> in_box i32_ops window (ray_origin r) ->
  exists it found, rtree_filter_iter t (i32_ray_filter r) = Ok it /\ iterates (iter_next_with (fun k => k) (i32_ray_filter r)) it found /\
    exactly (fun kv => i32_ray_test r (fst kv) = true) found (contents t).
Proof.
  intros D V VO cfg t W r Hr HW HT H0.
  destruct (window_wf i32_ops i32_laws i32_antisym VO W cfg t _ Hr HT) as (lo & strict & Hw).
  destruct (filter_iter_wf (fun k => k) (i32_ray_filter r) (box_params i32_ops VO) cfg _ (incl_in i32_ops W) t lo strict (ray_lawful D W VO r HW H0) Hw) as (s & E & Hi).
  exists s. eexists. split; [exact E|]. split; [exact Hi|]. eexists. split; [reflexivity|]. intros [k v] _. reflexivity.
Qed.
Print Assumptions C38_ray_query_partial.

Definition q38 : ray i32 2 := {| ray_origin := pt 0 6; ray_n := pt 3 1 |}.
Example C38_query_example :
  reachable PB (cfg_of 4 2) (valid_box i32_ops) box_sample /\ narrow (bx 0 0 9 9) /\
  (forall e, In e (contents box_sample) -> box_incl i32_ops (bx 0 0 9 9) (fst e)) /\ in_box i32_ops (bx 0 0 9 9) (ray_origin q38) /\
  run_iter (iter_next_with (fun k => k) (i32_ray_filter q38)) (rtree_filter_iter box_sample (i32_ray_filter q38)) 7 =
    Ok (map Some [5; 2]%nat ++ repeat None 5).
Proof.
  split; [exact box_sample_reachable|]. split; [repeat split; vm_compute; discriminate|]. split; [exact box_sample_in_window|].
  split; [apply in_box_iff; vm_compute; reflexivity|]. vm_compute. reflexivity.
Qed.
