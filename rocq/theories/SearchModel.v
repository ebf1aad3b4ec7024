(** Ordered search by distance in a build with overflow checks (C45, C70). *)
From Verif Require Export DistModel FxSortedModel.


(** An answer of the ranking: [None] is a panic. *)
Definition rank_answer {M : Type} (a : res M) : option (option M) := match a with Ok m => Some (Some m) | _ => None end.
(** [EuclideanDistanceRanking] for point keys (ranking.rs 79-108) in a build with overflow checks. *)
Definition checked_euclid_points {N} (S : ScalarOps N) (C : CheckedOps N) {D} (p : svec N (Datatypes.S D))
  : FxRanking unit (saabb N (Datatypes.S D)) (svec N (Datatypes.S D)) N := {|
  fxr_bounds := fun w b => (rank_answer (box_dist_sq_checked S C b p), w);
  fxr_key := fun w k => (rank_answer (point_dist_sq_checked C k p), w)
|}.
(** [EuclideanDistanceRanking] for box keys (ranking.rs 79-108) in a build with overflow checks. *)
Definition checked_euclid_boxes {N} (S : ScalarOps N) (C : CheckedOps N) {D} (p : svec N (Datatypes.S D))
  : FxRanking unit (saabb N (Datatypes.S D)) (saabb N (Datatypes.S D)) N := {|
  fxr_bounds := fun w b => (rank_answer (box_dist_sq_checked S C b p), w);
  fxr_key := fun w k => (rank_answer (box_dist_sq_checked S C k p), w)
|}.
