(** Properties C30-C32: boxes and points.  Vocabulary: GeomSpec.v. *)
From Verif Require Import Witness.

(** ** C30 union of boxes is the least upper bound *)
(** Inclusion by coordinates is inclusion of point sets for every non-empty box. *)
Theorem C30_inclusion_is_of_points :
  forall (N : Type) (S : ScalarOps N) (D : nat) (a b : saabb N D),
  order_laws S -> valid_box S b ->
  (box_incl S a b <-> forall p, in_box S b p -> in_box S a p).
Proof. intros * L. exact (box_incl_points S L D a b). Qed.
Print Assumptions C30_inclusion_is_of_points.

Theorem C30_union_least :
  forall (N : Type) (S : ScalarOps N) (D : nat) (a b : saabb N D),
  order_laws S ->
  (forall p, in_box S a p -> in_box S (box_union S a b) p) /\
  (forall p, in_box S b p -> in_box S (box_union S a b) p) /\
  box_incl S (box_union S a b) a /\ box_incl S (box_union S a b) b /\
  forall c, box_incl S c a -> box_incl S c b -> box_incl S c (box_union S a b).
Proof.
  intros * L. assert (Ha := box_union_l S L D a b). assert (Hb := box_union_r S L D a b).
  split; [|split; [|split; [exact Ha|split; [exact Hb|exact (box_union_least S D a b)]]]].
  - intros p [H1 H2]. destruct Ha. split; eapply (vec_le_trans S L); eassumption.
  - intros p [H1 H2]. destruct Hb. split; eapply (vec_le_trans S L); eassumption.
Qed.
Print Assumptions C30_union_least.

(** Commutative, associative, idempotent, with the empty box as identity, for scalars whose equality is
    identity (integers); [union_all] is the iterated union. *)
Theorem C30_union_semilattice :
  forall (N : Type) (S : ScalarOps N) (D : nat) (a b c : saabb N D) (l : list (saabb N D)),
  scalar_laws S -> scalar_antisym S ->
  box_union S a b = box_union S b a /\
  box_union S a (box_union S b c) = box_union S (box_union S a b) c /\
  box_union S a a = a /\
  box_union S (box_empty S) a = a /\ box_union S a (box_empty S) = a /\
  box_union_all S l = fold_right (box_union S) (box_empty S) l.
Proof.
  intros * L HA. destruct (box_semilattice S L D HA) as [H1 H2 H3 H4 H5]; cbn in *.
  repeat split; auto. now rewrite H1.
Qed.
Print Assumptions C30_union_semilattice.

(** For scalars where equal does not mean identical (floats with -0) the same equations hold up to mutual
    inclusion. *)
Theorem C30_union_semilattice_eqv :
  forall (N : Type) (S : ScalarOps N) (D : nat) (a b c : saabb N D),
  scalar_laws S ->
  box_eqb S (box_union S a b) (box_union S b a) = true /\
  box_eqb S (box_union S a (box_union S b c)) (box_union S (box_union S a b) c) = true /\
  box_eqb S (box_union S a a) a = true /\
  box_eqb S (box_union S (box_empty S) a) a = true.
Proof.
  intros * L. rewrite !(box_eqb_spec S L).
  assert (Hl := box_union_l S L D). assert (Hr := box_union_r S L D).
  assert (T := fun x y z => box_incl_trans S L D x y z).
  assert (U := box_union_least S D). assert (R := box_incl_refl S L D). assert (E := box_empty_least S L D).
  split; [split; apply U; auto|]. split; [|split; split; auto].
  split; apply U; eauto.
Qed.
Print Assumptions C30_union_semilattice_eqv.

(** [union_all] includes every member and is the least box that does; of no box it is empty: included in
    every box. *)
Theorem C30_union_all :
  forall (N : Type) (S : ScalarOps N) (D : nat) (l : list (saabb N D)),
  scalar_laws S ->
  (forall x, In x l -> box_incl S (box_union_all S l) x) /\
  (forall c, (forall x, In x l -> box_incl S c x) -> box_incl S c (box_union_all S l)) /\
  (forall a, box_incl S a (box_empty S (D := D))).
Proof.
  intros * L. split; [|split].
  - exact (box_union_all_member S L D l).
  - exact (box_union_all_least S L D l).
  - exact (box_empty_least S L D).
Qed.
Print Assumptions C30_union_all.

Definition zbox (l : saabb i32 2) : list Z * list Z := (coords (bmin l), coords (bmax l)).
Example C30_example :
  scalar_laws i32_ops /\ scalar_antisym i32_ops /\
  zbox (box_union_all i32_ops [bx 0 0 1 1; bx (-5) 3 (-4) 9; bx 2 2 2 2]) = ([-5; 0]%Z, [2; 9]%Z).
Proof. split; [exact i32_laws|]. split; [exact i32_antisym|]. vm_compute. reflexivity. Qed.

(** ** C31 box intersection is geometric *)
Theorem C31_intersects_iff_meet :
  forall (N : Type) (S : ScalarOps N) (D : nat) (a b : saabb N D),
  order_laws S -> valid_box S a -> valid_box S b ->
  (box_intersects_box S a b = true <-> exists p, in_box S a p /\ in_box S b p).
Proof. intros * L. exact (boxes_meet_iff S L D a b). Qed.
Print Assumptions C31_intersects_iff_meet.

Theorem C31_intersects_symmetric :
  forall (N : Type) (S : ScalarOps N) (D : nat) (a b : saabb N D),
  box_intersects_box S a b = box_intersects_box S b a.
Proof.
  intros. apply eq_true_iff_eq. rewrite !(intersects_box_iff S). tauto.
Qed.
Print Assumptions C31_intersects_symmetric.

Theorem C31_box_intersects_point :
  forall (N : Type) (S : ScalarOps N) (D : nat) (b : saabb N D) (p : svec N D),
  box_intersects_point S b p = true <-> in_box S b p.
Proof. intros. exact (in_box_iff S D b p). Qed.
Print Assumptions C31_box_intersects_point.

Example C31_example :
  box_intersects_box i32_ops (bx 0 0 2 2) (bx 2 2 5 5) = true /\        (* a common corner *)
  box_intersects_box i32_ops (bx 0 0 2 2) (bx 3 0 5 5) = false /\
  box_intersects_box i32_ops (bx 0 0 9 9) (bx 3 3 3 3) = true /\
  box_intersects_point i32_ops (bx 0 0 9 9) (pt 9 0) = true /\
  box_intersects_point i32_ops (bx 0 0 9 9) (pt 10 0) = false.
Proof. repeat split; vm_compute; reflexivity. Qed.

(** ** C32 box containment is geometric: false in each part *)
Definition C32_claim : Prop :=
  forall (a b : saabb i32 2), valid_box i32_ops a -> valid_box i32_ops b ->
  (box_contains_box i32_ops a b = true <-> forall p, in_box i32_ops b p -> in_box i32_ops a p).

Theorem C32_contains_box_refuted : ~ C32_claim.
Proof.
  intros H. specialize (H (bx 0 0 2 2) (bx 1 1 5 5)).
  destruct H as [H _]; try (apply all_le_spec; vm_compute; reflexivity).
  assert (E := H ltac:(vm_compute; reflexivity) (pt 5 5)).
  assert (Hin : in_box i32_ops (bx 1 1 5 5) (pt 5 5)) by (apply in_box_iff; vm_compute; reflexivity).
  apply E in Hin. apply in_box_iff in Hin. vm_compute in Hin. discriminate.
Qed.
Print Assumptions C32_contains_box_refuted.

(** [box.contains(point)] denies an interior point, and [point.intersects(box)] disagrees with
    [box.intersects(point)]. *)
Theorem C32_contains_point_refuted :
  exists (b : saabb i32 2) (p : svec i32 2),
  valid_box i32_ops b /\ in_box i32_ops b p /\ box_contains_point i32_ops b p = false /\
  point_intersects_box i32_ops p b <> box_intersects_point i32_ops b p.
Proof.
  exists (bx 0 0 2 2), (pt 1 1). split; [apply all_le_spec; vm_compute; reflexivity|].
  split; [apply in_box_iff; vm_compute; reflexivity|]. split; [vm_compute; reflexivity|].
  vm_compute. discriminate.
Qed.
Print Assumptions C32_contains_point_refuted.

(** What holds: [contains(box)] is intersection, so it never denies a contained non-empty box ... *)
Theorem C32_contains_box_partial :
  forall (N : Type) (S : ScalarOps N) (D : nat) (a b : saabb N D), order_laws S ->
  box_contains_box S a b = box_intersects_box S a b /\
  (valid_box S b -> (forall p, in_box S b p -> in_box S a p) -> box_contains_box S a b = true).
Proof.
  intros * L. split; [exact (contains_box_meets S D a b)|]. intros Hb H.
  apply (contains_box_complete S L D a b Hb). now apply (box_incl_points S L D a b Hb).
Qed.
Print Assumptions C32_contains_box_partial.

(** ... and [contains(point)] accepts a point of a non-empty box exactly when the box is that point. *)
Theorem C32_contains_point_partial :
  forall (N : Type) (S : ScalarOps N) (D : nat) (b : saabb N D) (p : svec N D),
  order_laws S -> valid_box S b ->
  (box_contains_point S b p = true <-> vec_eqb S (bmin b) p = true /\ vec_eqb S (bmax b) p = true) /\
  point_intersects_box S p b = box_contains_point S b p.
Proof.
  intros * L Hb. split; [|reflexivity]. split; [exact (contains_point_degenerate S L D b p Hb)|].
  rewrite !(vec_eqb_spec S L). rewrite (contains_point_iff S). tauto.
Qed.
Print Assumptions C32_contains_point_partial.

Example C32_example :
  box_contains_point i32_ops (bx 3 3 3 3) (pt 3 3) = true /\ valid_boxb (bx 3 3 3 3) = true /\
  box_contains_box i32_ops (bx 0 0 9 9) (bx 1 1 5 5) = true.
Proof. repeat split; vm_compute; reflexivity. Qed.
