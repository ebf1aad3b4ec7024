(** Property C45, continued: whole searches in builds with overflow checks.  Vocabulary: SearchSpec.v, DistSpec.v. *)
From Verif Require Import SortedWitness SearchProof.
Local Open Scope Z_scope.

(** Signed integer points: in a tree that is not empty, under any configuration with [min_children >= 1], if the squared
    distances from the query point to the stored keys fit, a search in a build with overflow checks does not panic and
    yields the contents in ascending order of the true squared distance. *)
Theorem C45_search_points_partial :
  forall (N V : Type) (S : ScalarOps N) (A : ArithOps N) (C : CheckedOps N) (val : N -> Z) (lo hi : Z) (D : nat)
    (VO : VolumeOps (saabb N (Datatypes.S D))) (cfg : config)
    (PQ : PQueue (ranked (saabb N (Datatypes.S D)) (svec N (Datatypes.S D)) V N))
    (t : rtree (saabb N (Datatypes.S D)) (svec N (Datatypes.S D)) V) (p : svec N (Datatypes.S D)),
  int_laws S A val lo hi -> checked_laws C val lo hi -> lo <= - hi -> pqueue_laws (ranked_cmp (int_cmp val)) PQ ->
  (1 <= min_children cfg)%nat -> reachable (point_params S VO) cfg any_key t -> contents t <> [] ->
  (forall e, In e (contents t) -> zdist2 val (fst e) p <= hi) ->
  exists l, Permutation l (contents t) /\ ForallOrdPairs (fun x y => zdist2 val (fst x) p <= zdist2 val (fst y) p) l /\
    searches_without_panic PQ (checked_euclid_points S C p) t l.
Proof.
  intros N V S A C val lo hi D VO cfg PQ t p L CL Hs QL Hmin Hr Hne Hfit.
  apply (distance_search S A val lo hi L C (point_params S VO) cfg eq_refl PQ QL t Hmin Hr Hne p (fun k => point_dist_sq_checked C k p)
    (fun k => zdist2 val k p)).
  - intros e He. exact (point_dist_checked S A val lo hi L C CL Hs D (fst e) p (Hfit e He)).
  - intros b e He Hi. assert (Hq : in_box S b (fst e)) by exact Hi.
    destruct (box_dist_checked S A val lo hi L C CL Hs D b p (fst e) Hq (Hfit e He)) as (r & E & Hl).
    exists r. split; [exact E|]. exact (proj2 Hl _ Hq).
Qed.
Print Assumptions C45_search_points_partial.

(** The same for boxes with at least one point. *)
Theorem C45_search_boxes_partial :
  forall (N V : Type) (S : ScalarOps N) (A : ArithOps N) (C : CheckedOps N) (val : N -> Z) (lo hi : Z) (D : nat)
    (VO : VolumeOps (saabb N (Datatypes.S D))) (cfg : config)
    (PQ : PQueue (ranked (saabb N (Datatypes.S D)) (saabb N (Datatypes.S D)) V N))
    (t : rtree (saabb N (Datatypes.S D)) (saabb N (Datatypes.S D)) V) (p : svec N (Datatypes.S D)) (dist : saabb N (Datatypes.S D) -> Z),
  int_laws S A val lo hi -> checked_laws C val lo hi -> lo <= - hi -> pqueue_laws (ranked_cmp (int_cmp val)) PQ ->
  (1 <= min_children cfg)%nat -> reachable (box_params S VO) cfg any_key t -> contents t <> [] ->
  (forall e, In e (contents t) -> least_dist2 S val (fst e) p (dist (fst e)) /\ dist (fst e) <= hi) ->
  exists l, Permutation l (contents t) /\ ForallOrdPairs (fun x y => dist (fst x) <= dist (fst y)) l /\
    searches_without_panic PQ (checked_euclid_boxes S C p) t l.
Proof.
  intros N V S A C val lo hi D VO cfg PQ t p dist L CL Hs QL Hmin Hr Hne Hfit.
  assert (HL := int_scalar_laws S A val lo hi L).
  apply (distance_search S A val lo hi L C (box_params S VO) cfg eq_refl PQ QL t Hmin Hr Hne p (fun k => box_dist_sq_checked S C k p) dist).
  - intros e He. destruct (Hfit e He) as [Hd Hle]. destruct (proj1 Hd) as (q & Hq & Eq).
    destruct (box_dist_checked S A val lo hi L C CL Hs D (fst e) p q Hq ltac:(lia)) as (r & E & Hl).
    exists r. split; [exact E|]. eapply least_unique; [exact Hl|exact Hd].
  - intros b e He [H3 H4]. destruct (Hfit e He) as [Hd Hle]. destruct (proj1 Hd) as (q & Hq & Eq).
    assert (Hqb : in_box S b q). { destruct Hq as [H1 H2]. split; eapply (vec_le_trans S HL); eassumption. }
    destruct (box_dist_checked S A val lo hi L C CL Hs D b p q Hqb ltac:(lia)) as (r & E & Hl).
    exists r. split; [exact E|]. rewrite <- Eq. exact (proj2 Hl _ Hqb).
Qed.
Print Assumptions C45_search_boxes_partial.

(** The sample tree, searched from a point outside it. *)
Definition checked_codes (n : nat) : list nat :=
  match fx_sorted_new (LQ (B := saabb i32 2) (K := svec i32 2) (V := nat)) (checked_euclid_points i32_ops i32_checked_ops (pt (-1000) 27)) sample tt with
  | (None, _) => []
  | (Some h, w) =>
    match session (traced (fx_sorted_next LQ (rlogged (checked_euclid_points i32_ops i32_checked_ops (pt (-1000) 27))))) (repeat (fun w => w) n) h w [] with
    | Ok (os, _, _, _) => map (fun o => match o with Yield e => snd e | Done => 1000 | Panicked => 2000 end)%nat os
    | _ => []
    end
  end.
Example C45_search_example :
  (1 <= min_children (cfg_of 4 2))%nat /\ contents sample <> [] /\
  (forall e, In e (contents sample) -> zdist2 i32_val (fst e) (pt (-1000) 27) <= 2147483647) /\
  checked_codes 24 = ([12; 1; 33; 14; 8; 29; 6; 5; 15; 11; 17; 10; 9; 2; 21; 22; 23; 27; 24; 25; 26; 28] ++ [1000; 1000])%nat.
Proof.
  split; [cbn; lia|]. split; [intros E; destruct sample_height as [_ H]; rewrite E in H; discriminate|].
  split; [|vm_compute; reflexivity].
  assert (H : forallb (fun e => zdist2 i32_val (fst e) (pt (-1000) 27) <=? 2147483647) (contents sample) = true) by (vm_compute; reflexivity).
  rewrite forallb_forall in H. intros e He. apply Z.leb_le. exact (H e He).
Qed.
