(** Unsigned integer coordinates: [u8], [u16], [u32] (the unsigned types of [core] that convert to [f64] with [Into], as
    bounds.rs 131-134 requires). *)
From Coq Require Import Floats.SpecFloat.
From Verif Require Export CheckSpec SphereModel SegModel.

Section Uint.
(** The number of bits. *)
Context (w : nat).

(** The number of values. *)
Definition uint_size : Z := (2 ^ Z.of_nat w)%Z.
(** The numbers of [u8], [u16], [u32] of [core]. *)
Definition uint_range (z : Z) : bool := ((0 <=? z) && (z <? uint_size))%Z.
(** [u8], [u16], [u32] of [core]. *)
Definition uint : Type := {z : Z | uint_range z = true}.
(** The number. *)
Definition uint_val (x : uint) : Z := proj1_sig x.

Lemma uint_size_pos : (0 < uint_size)%Z.
Proof. unfold uint_size. apply Z.pow_pos_nonneg; lia. Qed.
Lemma uint_mod_range z : uint_range (z mod uint_size)%Z = true.
Proof.
  unfold uint_range. assert (H := Z.mod_pos_bound z uint_size uint_size_pos).
  apply andb_true_intro; split; [apply Z.leb_le|apply Z.ltb_lt]; lia.
Qed.

(** Wrap-around of [core]; the proof component is computed to [eq_refl], so that closed terms evaluate. *)
Definition uint_of (z : Z) : uint :=
  exist _ (z mod uint_size)%Z
    (match bool_dec (uint_range (z mod uint_size)%Z) true with
     | left H => H
     | right H => False_ind _ (H (uint_mod_range z))
     end).

(** [Ord], [Eq] and [num_traits::Bounded] of the unsigned types. *)
Definition uint_ops : ScalarOps uint := {|
  s_le := fun a b => (uint_val a <=? uint_val b)%Z;
  s_eqb := fun a b => (uint_val a =? uint_val b)%Z;
  s_min_value := uint_of 0;
  s_max_value := uint_of (uint_size - 1)
|}.

(** [sub] of [core], wrapping (release build). *)
Definition uint_sub (a b : uint) : uint := uint_of (uint_val a - uint_val b).
(** [Add], [Sub], [Mul] of [core], wrapping (release build). *)
Definition uint_arith : ArithOps uint := {|
  a_add := fun a b => uint_of (uint_val a + uint_val b);
  a_sub := uint_sub;
  a_mul := fun a b => uint_of (uint_val a * uint_val b)
|}.
(** A result in a build with overflow checks. *)
Definition uint_checked (z : Z) : res uint := if uint_range z then Ok (uint_of z) else Panic.
(** [Add], [Sub], [Mul] of [core] in a build with overflow checks. *)
Definition uint_checked_ops : CheckedOps uint := {|
  c_add := fun a b => uint_checked (uint_val a + uint_val b);
  c_sub := fun a b => uint_checked (uint_val a - uint_val b);
  c_mul := fun a b => uint_checked (uint_val a * uint_val b)
|}.
(** [Into<f64>] of [core]. *)
Definition uint_into_f64 (a : uint) : f64 := f64_of_Z (uint_val a).

(** [Volume for SAABB<u32, D>] (bounds.rs 131-147) with [N64] arithmetic, release build. *)
Definition uint_volume_ops (D : nat) : VolumeOps (saabb uint D) := {|
  N64 := f64;
  volume := box_volume uint_sub uint_into_f64 f64_mul (f64_of_Z 1);
  n64_sub := f64_sub;
  n64_cmp := n64_cmp_f;
  n64_neg_inf := S754_infinity true
|}.
(** [Volume::volume] of [SAABB<u32, D>] in a checked build (bounds.rs 135-146) returns; see [i32_vol_fits] (CheckSpec.v). *)
Definition uint_vol_fits {D} (b : saabb uint D) : bool :=
  match map (fun p => uint_into_f64 (uint_sub (snd p) (fst p))) (vzip (bmin b) (bmax b)) with
  | [] => false
  | x :: r => forallb (fun p => uint_range (uint_val (snd p) - uint_val (fst p))) (vzip (bmin b) (bmax b)) && products_fit x r
  end.
(** The checks for [SAABB<u32, D>] (bounds.rs 131-147); [N64::sub] asserts that the difference is no NaN. *)
Definition uint_checks (D : nat) : Checks (uint_volume_ops D) :=
  Build_Checks (saabb uint D) (uint_volume_ops D) uint_vol_fits (fun x y : f64 => negb (f64_is_nan (f64_sub x y))).

(** [RTree<SAABB<u32, D>, SAABB<u32, D>, V>] (lib.rs 88-91). *)
Definition uint_box_params (D : nat) : Params (saabb uint D) (saabb uint D) := box_params uint_ops (uint_volume_ops D).
(** [RTree<SAABB<u32, D>, SVec<u32, D>, V>] (lib.rs 88-91). *)
Definition uint_point_params (D : nat) : Params (saabb uint D) (svec uint D) := point_params uint_ops (uint_volume_ops D).

(** [Sphere<u32, D>]: its bounds (sphere.rs 14-31). *)
Definition uint_sphere_bounds {D} : sphere uint D -> saabb uint D := sphere_bounds uint_arith.
(** [<SVec<u32, D> as Intersects<Sphere<u32, D>>>::intersects] (vector.rs 144-150). *)
Definition uint_sphere_test {D} : sphere uint (Datatypes.S D) -> svec uint (Datatypes.S D) -> bool :=
  sphere_intersects_point uint_arith uint_into_f64 f64_arith f64_le.
(** [BoundedIntersectsFilter::new_bounded(sphere)] (filter.rs 62-93) for a tree of points. *)
Definition uint_sphere_filter {D} (s : sphere uint (Datatypes.S D)) : SpatialFilter (saabb uint (Datatypes.S D)) (svec uint (Datatypes.S D)) :=
  bounded_intersects_filter (box_bounds_ops uint_ops) uint_sphere_bounds uint_sphere_test s.

(** [SAABB<u32, D>::sq_dist_to] (bounds.rs 149-173), release build. *)
Definition uint_sq_dist {D} : saabb uint (Datatypes.S D) -> saabb uint (Datatypes.S D) -> f64 :=
  sq_dist_to uint_sub uint_into_f64 n64_cmp_f f64_add f64_mul (f64_of_Z 0).

(** [<Line<u32, D> as Intersects<SAABB<u32, D>>>::intersects] (intersects.rs 60-81, line.rs 24-31, 46-53), release build. *)
Definition uint_line_test {D} (l : line uint D) (b : saabb uint D) : bool := line_intersects_box uint_sub uint_into_f64 f64_fops l b.

(** Writing points in examples. *)
Fixpoint uvec (D : nat) (l : list Z) : svec uint D :=
  match D with
  | 0 => tt
  | Datatypes.S D => (uint_of (hd 0%Z l), uvec D (tl l))
  end.
(** Writing boxes in examples. *)
Definition ubox (D : nat) (a b : list Z) : saabb uint D := {| bmin := uvec D a; bmax := uvec D b |}.
End Uint.

(** [SAABB::sq_dist_to] in a build with overflow checks (bounds.rs 149-173). *)
Section CheckedBoxDistance.
Context {N F : Type} (C : CheckedOps N) (into : N -> F) (fcmp : F -> F -> comparison) (fadd fmul : F -> F -> F) (zero : F).

(** One dimension (bounds.rs 160-170). *)
Definition axis_gap_checked (lmin lmax rmin rmax : N) : res F :=
  let* a := c_sub C rmin lmax in
  let* b := c_sub C lmin rmax in
  let dist := f_max fcmp (f_max fcmp (into a) (into b)) zero in
  Ok (fmul dist dist).

(** The dimensions, one after the other, added up ([reduce] is lazy; bounds.rs 157-172). *)
Fixpoint sum_gaps_checked {D} : svec N D -> svec N D -> svec N D -> svec N D -> F -> res F :=
  match D with
  | 0 => fun _ _ _ _ acc => Ok acc
  | Datatypes.S D => fun lmin lmax rmin rmax acc =>
      let* g := axis_gap_checked (fst lmin) (fst lmax) (fst rmin) (fst rmax) in
      sum_gaps_checked (snd lmin) (snd lmax) (snd rmin) (snd rmax) (fadd acc g)
  end.

(** [SAABB::sq_dist_to] (bounds.rs 149-173). *)
Definition sq_dist_to_checked {D} (a b : saabb N (Datatypes.S D)) : res F :=
  let* g := axis_gap_checked (fst (bmin a)) (fst (bmax a)) (fst (bmin b)) (fst (bmax b)) in
  sum_gaps_checked (snd (bmin a)) (snd (bmax a)) (snd (bmin b)) (snd (bmax b)) g.
End CheckedBoxDistance.

(** [SAABB<u32, D>::sq_dist_to] (bounds.rs 149-173) in a build with overflow checks. *)
Definition uint_sq_dist_checked (w : nat) {D} : saabb (uint w) (Datatypes.S D) -> saabb (uint w) (Datatypes.S D) -> res f64 :=
  sq_dist_to_checked (uint_checked_ops w) (uint_into_f64 w) n64_cmp_f f64_add f64_mul (f64_of_Z 0).
