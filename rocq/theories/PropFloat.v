(** Properties C36, C47: the squared distance of two boxes.  Vocabulary: RealSpec.v. *)
From Coq Require Import Reals Lra.
From Flocq Require Import Core.
From Coq Require Import Floats.SpecFloat.
From Verif Require Import Witness BoxJoinProof LeftJoinProof.

(** ** C36 [sq_dist_to] is the squared distance of two boxes *)

(** In exact arithmetic (real coordinates, any dimension, any two non-empty boxes) the result is the least squared
    distance of a point of one box and a point of the other. *)
Theorem C36_box_distance :
  forall (D : nat) (a b : saabb R (Datatypes.S D)),
  (exists x, real_in_box (fun r : R => r) a x) -> (exists y, real_in_box (fun r : R => r) b y) ->
  closest2 (fun r : R => r) a b (sq_dist_to Rminus (fun r : R => r) Rcompare Rplus Rmult 0%R a b).
Proof. intros D a b Ha Hb. exact (sq_dist_closest D a b Ha Hb). Qed.
Print Assumptions C36_box_distance.

(** Hence a join filter testing [sq_dist_to < limit] on bounds keeps every pair of bounds that contains a pair of keys
    passing the same test. *)
Theorem C36_never_prunes :
  forall (D : nat) (b0 b1 k0 k1 : saabb R (Datatypes.S D)) (limit : R),
  (exists x, real_in_box (fun r : R => r) k0 x) -> (exists y, real_in_box (fun r : R => r) k1 y) ->
  (forall x, real_in_box (fun r : R => r) k0 x -> real_in_box (fun r : R => r) b0 x) ->
  (forall x, real_in_box (fun r : R => r) k1 x -> real_in_box (fun r : R => r) b1 x) ->
  (sq_dist_to Rminus (fun r : R => r) Rcompare Rplus Rmult 0 k0 k1 < limit)%R ->
  (sq_dist_to Rminus (fun r : R => r) Rcompare Rplus Rmult 0 b0 b1 < limit)%R.
Proof.
  intros D b0 b1 k0 k1 limit H0 H1 G0 G1 Hlt.
  destruct (sq_dist_closest D k0 k1 H0 H1) as [(x & y & Hx & Hy & E) _].
  destruct (sq_dist_closest D b0 b1) as [_ Hmin]; [eauto|eauto|]. specialize (Hmin x y (G0 x Hx) (G1 y Hy)). lra.
Qed.
Print Assumptions C36_never_prunes.

(** Two boxes that are apart in one dimension and overlap in the other, inside larger ones. *)
Definition rbox (a b c d : R) : saabb R 2 := {| bmin := (a, (b, tt)); bmax := (c, (d, tt)) |}.
Local Open Scope R_scope.
Example C36_example :
  (exists x, real_in_box (fun r : R => r) (rbox 0 0 1 1) x) /\ (exists y, real_in_box (fun r : R => r) (rbox 3.5 (1/2) 4 9) y) /\
  (forall x, real_in_box (fun r : R => r) (rbox 0 0 1 1) x -> real_in_box (fun r : R => r) (rbox (-1) 0 2 1) x) /\
  sq_dist_to Rminus (fun r : R => r) Rcompare Rplus Rmult 0 (rbox 0 0 1 1) (rbox 3.5 (1/2) 4 9) = 6.25.
Proof.
  split; [exists (0, (0, tt)); split; repeat constructor; cbn; lra|].
  split; [exists (4, (1, tt)); split; repeat constructor; cbn; lra|]. split.
  - intros x [H1 H2]. destruct x as [x0 [x1 []]]. cbn in *. inversion H1 as [|? ? ? ? E1 F1]; inversion F1; inversion H2 as [|? ? ? ? E2 F2]; inversion F2; subst.
    repeat (first [apply Forall2_nil | apply Forall2_cons | split]); cbn; lra.
  - unfold sq_dist_to, axis_gap. cbn [axis_gaps fold_left rbox bmin bmax fst snd]. unfold axis_gap. rewrite !f_max_R.
    replace (Rmax (Rmax (3.5 - 1) (0 - 4)) 0) with 2.5; [replace (Rmax (Rmax (1 / 2 - 1) (0 - 9)) 0) with 0; [lra|]|].
    + rewrite (Rmax_left (1/2 - 1)) by lra. rewrite Rmax_right; lra.
    + rewrite (Rmax_left (3.5 - 1)) by lra. rewrite Rmax_left; lra.
Qed.
Local Close Scope R_scope.

(** ** C47 [sq_dist_to] on [i32] boxes *)

(** The coordinates are subtracted as [i32] before the conversion to [f64]: a box more than [2^31] wide is at a positive
    distance from itself. *)
Theorem C47_wide_boxes_refuted :
  ~ (forall (a b : saabb i32 1), valid_box i32_ops a -> valid_box i32_ops b ->
     forall m, closest2 i32_real a b (IZR m) -> SFeqb (i32_sq_dist a b) (f64_of_Z m) = true).
Proof.
  intros H. set (w := ibox 1 [-2000000000]%Z [2000000000]%Z).
  assert (Hv : valid_box i32_ops w) by (apply all_le_spec; vm_compute; reflexivity).
  specialize (H w w Hv Hv 0%Z). assert (E : SFeqb (i32_sq_dist w w) (f64_of_Z 0) = false) by (vm_compute; reflexivity).
  rewrite E in H. discriminate H. split; [|intros x y _ _; cbn; rewrite Rplus_0_r; apply Rle_0_sqr].
  exists (0%R, tt), (0%R, tt).
  assert (Hin : real_in_box i32_real w (0%R, tt)).
  { unfold real_in_box, i32_real, w. split; (apply Forall2_cons; [apply IZR_le; vm_compute; discriminate|apply Forall2_nil]). }
  split; [exact Hin|]. split; [exact Hin|]. unfold rdist2. cbn. lra.
Qed.
Print Assumptions C47_wide_boxes_refuted.

(** As long as no coordinate difference of the two boxes overflows [i32]: the result is a finite number; if the least squared
    distance [m] is at most [2^53] it is exactly [m]; it is zero exactly when the boxes meet; and it does not grow when
    the boxes grow. *)
Theorem C47_box_distance_partial :
  forall (D : nat) (a b : saabb i32 (Datatypes.S D)),
  valid_box i32_ops a -> valid_box i32_ops b -> fits a b -> (Z.of_nat D < 2 ^ 53)%Z ->
  exists m : Z, closest2 i32_real a b (IZR m) /\ (0 <= m)%Z /\
    ((m <= 2 ^ 53)%Z -> SFeqb (i32_sq_dist a b) (f64_of_Z m) = true) /\
    (forall q, (0 <= q <= 2 ^ 53)%Z -> SFltb (i32_sq_dist a b) (f64_of_Z q) = true <-> (m < q)%Z) /\
    (SFeqb (i32_sq_dist a b) (f64_of_Z 0) = true <-> boxes_meet i32_ops a b) /\
    (forall a' b', box_incl i32_ops a' a -> box_incl i32_ops b' b -> fits a' b' ->
       SFleb (i32_sq_dist a' b') (i32_sq_dist a b) = true).
Proof.
  intros D a b Ha Hb Hf HD. exists (zgap2 i32_val a b). assert (Hle : forall x y, s_le i32_ops x y = (i32_val x <=? i32_val y)%Z) by reflexivity.
  assert (Hc := closest_gap i32_ops i32_val Hle _ a b Ha Hb). split; [exact Hc|]. assert (Hn := squares_nonneg (box_gaps i32_val a b)).
  split; [exact Hn|]. assert (Hrep := sq_dist_rep D a b Hf HD). repeat split.
  - intros Hm. rewrite (rep_eqb _ _ _ _ Hrep (rep_of_Z (zgap2 i32_val a b) ltac:(rewrite Z.abs_eq; [exact Hm|exact Hn]))).
    apply Req_bool_true. apply rgap2_exact. exact Hm.
  - rewrite (rep_lt _ _ _ _ Hrep (rep_of_Z q ltac:(rewrite Z.abs_eq; lia))). intros Hlt. apply (rgap2_lt_iff (box_gaps i32_val a b) q); [lia|].
    destruct (Rlt_bool_spec (rgap2 (box_gaps i32_val a b)) (IZR q)); [assumption|discriminate].
  - rewrite (rep_lt _ _ _ _ Hrep (rep_of_Z q ltac:(rewrite Z.abs_eq; lia))). intros Hlt. apply Rlt_bool_true.
    apply (rgap2_lt_iff (box_gaps i32_val a b) q); [lia|exact Hlt].
  - rewrite (rep_eqb _ _ _ _ Hrep (rep_of_Z 0 ltac:(vm_compute; discriminate))). intros H0.
    destruct (Req_bool_spec (rgap2 (box_gaps i32_val a b)) 0) as [E|]; [|discriminate]. apply rgap2_zero in E.
    apply (boxes_meet_iff i32_ops i32_laws); [assumption|assumption|]. apply gaps_zero_meet, E.
  - rewrite (rep_eqb _ _ _ _ Hrep (rep_of_Z 0 ltac:(vm_compute; discriminate))). intros Hm. apply Req_bool_true. apply rgap2_zero.
    apply (boxes_meet_iff i32_ops i32_laws) in Hm; [|assumption|assumption]. apply gaps_zero_meet, Hm.
  - intros a' b' Ia Ib Hf'. rewrite (rep_le _ _ _ _ (sq_dist_rep D a' b' Hf' HD) Hrep). apply Rle_bool_true. apply rgap2_mono.
    apply gaps_mono; assumption.
Qed.
Print Assumptions C47_box_distance_partial.

(** A distance join (filter [sq_dist_to < r * r], as in the crate's own tests) and left join of two trees of [i32] boxes whose keys
    lie in a window less than [2^31] wide: exactly the pairs of entries whose distance is less than [r]. *)
Theorem C47_distance_join_partial :
  forall (V0 V1 : Type) (D : nat) (VO0 VO1 : VolumeOps (saabb i32 (Datatypes.S D))) (cfg0 cfg1 : config)
    (a : rtree (saabb i32 (Datatypes.S D)) (saabb i32 (Datatypes.S D)) V0)
    (b : rtree (saabb i32 (Datatypes.S D)) (saabb i32 (Datatypes.S D)) V1)
    (window : saabb i32 (Datatypes.S D)) (r : Z),
  reachable (box_params i32_ops VO0) cfg0 (valid_box i32_ops) a -> reachable (box_params i32_ops VO1) cfg1 (valid_box i32_ops) b ->
  narrow window -> (Z.of_nat D < 2 ^ 53)%Z -> (0 <= r)%Z -> (r * r <= 2 ^ 53)%Z ->
  (forall e, In e (contents a) -> box_incl i32_ops window (fst e)) -> (forall e, In e (contents b) -> box_incl i32_ops window (fst e)) ->
  let f := {| jtest_bounds := closer_than r; jtest_key := closer_than r |} in
  let near (k0 k1 : saabb i32 (Datatypes.S D)) := exists m, closest2 i32_real k0 k1 m /\ (m < IZR (r * r))%R in
  (forall e0 e1, In e0 (contents a) -> In e1 (contents b) -> closer_than r (fst e0) (fst e1) = true <-> near (fst e0) (fst e1)) /\
  (exists s l, rtree_join a b f = Ok s /\ iterates (join_next (fun k => k) (fun k => k) f) s l /\
    Permutation l (filter (fun p => closer_than r (fst (fst p)) (fst (snd p))) (list_prod (contents a) (contents b)))) /\
  (exists s l, rtree_left_join a b = Ok s /\ iterates (left_join_next f) s l /\ map fst l = contents a /\
    forall e sr, In (e, sr) l ->
      iterates (iter_next_with (fun k => k) (joining_filter (fun k => k) f (fst e))) sr
        (filter (fun kv => closer_than r (fst e) (fst kv)) (contents b))).
Proof.
  intros V0 V1 D VO0 VO1 cfg0 cfg1 a b W r Ra Rb HW HD Hr Hrr Ha Hb f near.
  assert (Ga := window_wf i32_ops i32_laws i32_antisym VO0 W cfg0 a _ Ra Ha).
  assert (Gb := window_wf i32_ops i32_laws i32_antisym VO1 W cfg1 b _ Rb Hb).
  assert (HF : join_filter_lawful (box_params i32_ops VO0) (box_params i32_ops VO1) (fun k => k) (fun k => k) (incl_in i32_ops W) (incl_in i32_ops W)
     (fun k => valid_box i32_ops k /\ box_incl i32_ops W k) (fun k => valid_box i32_ops k /\ box_incl i32_ops W k) (jtest_bounds f) (jtest_key f)).
  { intros b0 b1 k0 k1 [Vk0 Wk0] [Vk1 Wk1] Hk [I0 W0] [I1 W1]. cbn [f jtest_bounds jtest_key key_bounds box_params] in *.
    apply closer_than_iff in Hk; auto; [apply closer_than_iff; auto|].
    - apply (fits_in _ W); auto; eauto using valid_incl.
    - assert (H := zgap2_mono _ k0 k1 b0 b1 I0 I1). lia.
    - eapply fits_in; eauto. }
  assert (Hle : forall x y, s_le i32_ops x y = (i32_val x <=? i32_val y)%Z) by reflexivity.
  split; [|split].
  - intros e0 e1 He0 He1. destruct (good_cover _ _ _ _ _ _ Ga e0 He0) as [[Vk0 Wk0] _], (good_cover _ _ _ _ _ _ Gb e1 He1) as [[Vk1 Wk1] _].
    assert (Hf : fits (fst e0) (fst e1)) by (eapply fits_in; eauto). rewrite closer_than_iff; auto.
    assert (Hc := closest_gap i32_ops i32_val Hle _ _ _ Vk0 Vk1). split.
    + intros Hlt. exists (IZR (zgap2 i32_val (fst e0) (fst e1))). split; [exact Hc|apply IZR_lt, Hlt].
    + intros (m & Hm & Hlt). assert (E := closest_unique _ _ _ _ _ _ Hc Hm). rewrite <- E in Hlt. now apply lt_IZR.
  - exact (join_exact_good _ _ f _ _ cfg0 cfg1 _ _ _ _ HF a b Ga Gb).
  - destruct (left_join_exact_good (fun k => k) (fun k => k) (fun k => k) f _ _ cfg0 cfg1 _ _ _ _ HF (fun k => eq_refl) a b) as (s & l & H1 & H2 & H3 & H4); [|exact Ga|exact Gb|].
    + intros k [_ Hk]. split; [apply (box_incl_refl i32_ops i32_laws)|exact Hk].
    + exists s, l. split; [exact H1|]. split; [exact H2|]. split; [exact H3|]. intros e sr Hin. rewrite Forall_forall in H4. exact (H4 _ Hin).
Qed.
Print Assumptions C47_distance_join_partial.

(** The tree of boxes joined with itself, distance less than 2; its keys lie in [[0,9] x [0,9]]. *)
Definition box_inclb {D} (a b : saabb i32 D) : bool := all_le i32_ops (bmin a) (bmin b) && all_le i32_ops (bmax b) (bmax a).
Definition near2 : JoinFilter (saabb i32 2) (saabb i32 2) (saabb i32 2) (saabb i32 2) :=
  {| jtest_bounds := closer_than 2; jtest_key := closer_than 2 |}.
Definition join_values {S A C V W} (next : S -> res (option ((A * V) * (C * W)) * S)) (start : res S) (n : nat) : res (list (option (V * W))) :=
  let* s := start in res_map (map (option_map (fun p => (snd (fst p), snd (snd p))))) (calls next n s).
Example C47_example :
  reachable (box_params i32_ops (i32_volume_ops 2)) (cfg_of 4 2) (valid_box i32_ops) box_sample /\
  narrow (bx 0 0 9 9) /\ (forall e, In e (contents box_sample) -> box_incl i32_ops (bx 0 0 9 9) (fst e)) /\
  fits (bx (-1000000000) (-5) 7 (-4)) (bx 1000000000 1000 1000000001 2000) /\
  res_map (fun l => length (filter (fun o => match o with Some _ => true | None => false end) l))
    (join_values (join_next (fun k => k) (fun k => k) near2) (rtree_join box_sample box_sample near2) 40) = Ok 20.
Proof.
  split; [exact box_sample_reachable|]. split; [|split; [|split]].
  - repeat split; vm_compute; discriminate.
  - assert (H : forallb (fun e => box_inclb (bx 0 0 9 9) (fst e)) (contents box_sample) = true) by (vm_compute; reflexivity).
    rewrite forallb_forall in H. intros e He. specialize (H e He). apply andb_true_iff in H as [H1 H2]. split; apply all_le_spec; assumption.
  - repeat split; vm_compute; discriminate.
  - vm_compute. reflexivity.
Qed.
