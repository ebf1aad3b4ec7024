(** Model of segments and rays with floating-point coordinates, [Line<SVec<N32, D>>], [Ray<N64, D>] and so on (lib.rs
    660-735 uses such coordinates). *)
From Coq Require Import Floats.SpecFloat.
From Verif Require Export FpModel SegModel SphereModel.

Section FpSeg.
Context (p e : Z) {D : nat}.

(** [<Line as Intersects<SAABB>>::intersects] (line.rs 46-53, intersects.rs 60-81): the differences are computed in the
    coordinate type, then converted by [Into<f64>]; the parameters are [f64] (not [N64]). *)
Definition nf_line_test (l : line (nf p e) D) (b : saabb (nf p e) D) : bool :=
  line_intersects_box (a_sub (nf_arith p e)) (fun x => sf_into_f64 (nf_raw x)) f64_fops l b.
(** [<Line as Bounded<AABB>>::bounds] (line.rs 12-22). *)
Definition nf_line_bounds (l : line (nf p e) D) : saabb (nf p e) D := line_bounds (nf_ops p e) l.

(** [IntersectsFilter::new(line)] (filter.rs 33-53) for a tree of boxes. *)
Definition nf_line_filter (l : line (nf p e) D) : SpatialFilter (saabb (nf p e) D) (saabb (nf p e) D) :=
  intersects_filter nf_line_test nf_line_test l.
(** [BoundedIntersectsFilter::new_bounded(line)] (filter.rs 62-93) for a tree of boxes. *)
Definition nf_bounded_line_filter (l : line (nf p e) D) : SpatialFilter (saabb (nf p e) D) (saabb (nf p e) D) :=
  bounded_intersects_filter (box_bounds_ops (nf_ops p e)) nf_line_bounds nf_line_test l.
End FpSeg.

(** [<Ray as Intersects<SAABB>>::intersects] (ray.rs 14-21, intersects.rs 33-58). *)
Definition nf_ray_test (p e : Z) {D : nat} (r : ray (nf p e) (Datatypes.S D)) (b : saabb (nf p e) (Datatypes.S D)) : bool :=
  ray_intersects_box (a_sub (nf_arith p e)) (fun x => sf_into_f64 (nf_raw x)) f64_fops r b.
(** [IntersectsFilter::new(ray)] (filter.rs 33-53) for a tree of boxes. *)
Definition nf_ray_filter (p e : Z) {D : nat} (r : ray (nf p e) (Datatypes.S D))
  : SpatialFilter (saabb (nf p e) (Datatypes.S D)) (saabb (nf p e) (Datatypes.S D)) :=
  intersects_filter (nf_ray_test p e) (nf_ray_test p e) r.
(** [Line::sq_len] (line.rs 33-40): the squares and the sum are computed in [f64]. *)
Definition nf_line_sq_len (p e : Z) {D : nat} (l : line (nf p e) (Datatypes.S D)) : f64 :=
  line_sq_len (a_sub (nf_arith p e)) (fun x => sf_into_f64 (nf_raw x)) f64_arith l.
