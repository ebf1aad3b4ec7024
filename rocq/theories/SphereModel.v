(** Model of geom/sphere.rs and of [<SVec as Intersects<Sphere>>] (vector.rs 144-150). *)
From Verif Require Export DistModel IterModel.

(** [struct Sphere] (sphere.rs 9-12). *)
Record sphere (N : Type) (D : nat) := { center : svec N D; radius : N }.
Arguments center {N D}. Arguments radius {N D}.

Section Sphere.
Context {N : Type} (A : ArithOps N) {D : nat}.

(** [<Sphere as Bounded<SAABB>>::bounds] (sphere.rs 14-31). *)
Definition sphere_bounds (s : sphere N D) : saabb N D :=
  {| bmin := vmap (fun coord => a_sub A coord (radius s)) (center s);
     bmax := vmap (fun coord => a_add A coord (radius s)) (center s) |}.
End Sphere.

Section Test.
Context {N F : Type} (A : ArithOps N) (into : N -> F) (FA : ArithOps F) (fle : F -> F -> bool) {D : nat}.

(** [<Sphere as Intersects<SVec>>::intersects] (sphere.rs 33-42); [D = 0] panics in the code (in [sq_mag]) and is
    excluded by the type. *)
Definition sphere_intersects_point (s : sphere N (Datatypes.S D)) (rhs : svec N (Datatypes.S D)) : bool :=
  let delta := vmap into (vmap2 (a_sub A) rhs (center s)) in
  let r := into (radius s) in
  fle (sq_mag FA delta) (a_mul FA r r).

(** [<SVec as Intersects<Sphere>>::intersects] (vector.rs 144-150). *)
Definition point_intersects_sphere (p : svec N (Datatypes.S D)) (s : sphere N (Datatypes.S D)) : bool :=
  sphere_intersects_point s p.
End Test.

(** [f64] arithmetic. *)
Definition f64_arith : ArithOps f64 := {| a_add := f64_add; a_sub := f64_sub; a_mul := f64_mul |}.

(** [Sphere<i32, D>]. *)
Definition i32_sphere_bounds {D} : sphere i32 D -> saabb i32 D := sphere_bounds i32_arith.
(** [<SVec<i32, D> as Intersects<Sphere<i32, D>>>::intersects] (vector.rs 144-150). *)
Definition i32_sphere_test {D} : sphere i32 (Datatypes.S D) -> svec i32 (Datatypes.S D) -> bool :=
  sphere_intersects_point i32_arith i32_into_f64 f64_arith f64_le.

(** [BoundedIntersectsFilter::new_bounded(sphere)] (filter.rs 62-93) for a tree of points. *)
Definition i32_sphere_filter {D} (s : sphere i32 (Datatypes.S D)) : SpatialFilter (saabb i32 (Datatypes.S D)) (svec i32 (Datatypes.S D)) :=
  bounded_intersects_filter (box_bounds_ops i32_ops) i32_sphere_bounds i32_sphere_test s.
