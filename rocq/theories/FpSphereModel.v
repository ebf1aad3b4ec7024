(** Model of spheres with floating-point coordinates, [Sphere<N32, D>] and [Sphere<N64, D>] (lib.rs 702-711 makes a query
    with a [Sphere<N32, 3>]). *)
From Coq Require Import Floats.SpecFloat.
From Verif Require Export FpModel SphereModel.

Section FpSphere.
Context (p e : Z) {D : nat}.

(** [<Sphere as Bounded<SAABB>>::bounds] (sphere.rs 14-31) with the operators of [NoisyFloat]. *)
Definition nf_sphere_bounds (s : sphere (nf p e) D) : saabb (nf p e) D := sphere_bounds (nf_arith p e) s.
End FpSphere.

(** [<Sphere as Intersects<SVec>>::intersects] (sphere.rs 33-42): the differences are computed in the coordinate type, then
    converted by [Into<f64>]; squares, sum and comparison are those of [f64] (not of [N64]). *)
Definition nf_sphere_test (p e : Z) {D : nat} (s : sphere (nf p e) (Datatypes.S D)) (k : svec (nf p e) (Datatypes.S D)) : bool :=
  sphere_intersects_point (nf_arith p e) (fun x => sf_into_f64 (nf_raw x)) f64_arith f64_le s k.

(** [BoundedIntersectsFilter::new_bounded(sphere)] (filter.rs 62-93) for a tree of points. *)
Definition nf_sphere_filter (p e : Z) {D : nat} (s : sphere (nf p e) (Datatypes.S D))
  : SpatialFilter (saabb (nf p e) (Datatypes.S D)) (svec (nf p e) (Datatypes.S D)) :=
  bounded_intersects_filter (box_bounds_ops (nf_ops p e)) (nf_sphere_bounds p e) (nf_sphere_test p e) s.
