(** Model of intersects.rs, geom/line.rs and geom/ray.rs: segments, rays and boxes. *)
From Verif Require Export GeomModel IterModel DistModel.

(** The operations on [f64] the code uses; the same code is run on IEEE doubles ([f64_fops]) and, in the theorems about exact
    arithmetic, on numbers that are not rounded. *)
Record FloatOps (F : Type) := {
  fl_zero : F;
  fl_one : F;
  fl_div : F -> F -> F;
  fl_mul : F -> F -> F;
  fl_lt : F -> F -> bool;
  fl_le : F -> F -> bool
}.
Arguments fl_zero {F}. Arguments fl_one {F}. Arguments fl_div {F}. Arguments fl_mul {F}. Arguments fl_lt {F}. Arguments fl_le {F}.

Section Slabs.
Context {N F : Type} (sub : N -> N -> N) (into : N -> F) (O : FloatOps F).

(** [f64_min], [f64_max] (intersects.rs 9-23). *)
Definition f64_min (lhs rhs : F) : F := if fl_lt O lhs rhs then lhs else rhs.
(** [f64_max] (intersects.rs 17-23). *)
Definition f64_max (lhs rhs : F) : F := if fl_lt O rhs lhs then lhs else rhs.

(** [n_inv], [t1], [t2] of one dimension (intersects.rs 41-43, 49-51, 72-74). *)
Definition slab (bmn bmx origin delta : N) : F * F :=
  let n_inv := fl_div O (fl_one O) (into delta) in
  (fl_mul O (into (sub bmn origin)) n_inv, fl_mul O (into (sub bmx origin)) n_inv).

(** The new [tmin] and [tmax] (intersects.rs 53-54, 76-77). *)
Definition slab_step (s : F * F) (t : F * F) : F * F :=
  let '(tmin, tmax) := s in
  let '(t1, t2) := t in
  (f64_min (f64_max t1 tmin) (f64_max t2 tmin), f64_max (f64_min t1 tmax) (f64_min t2 tmax)).

(** The loop over the dimensions (intersects.rs 48-55, 71-78). *)
Fixpoint slab_loop {D} : svec N D -> svec N D -> svec N D -> svec N D -> F * F -> F * F :=
  match D with
  | 0 => fun _ _ _ _ s => s
  | S D => fun bmn bmx origin delta s =>
      slab_loop (snd bmn) (snd bmx) (snd origin) (snd delta)
        (slab_step s (slab (fst bmn) (fst bmx) (fst origin) (fst delta)))
  end.

(** [line_bounds_intersect] (intersects.rs 60-81). *)
Definition line_bounds_intersect {D} (b : saabb N D) (origin delta : svec N D) : bool :=
  let '(tmin, tmax) := slab_loop (bmin b) (bmax b) origin delta (fl_zero O, fl_one O) in
  fl_le O tmin tmax.

(** [ray_bounds_intersect] (intersects.rs 33-58); [D = 0] panics in the code (index out of bounds) and is excluded by the
    type. *)
Definition ray_bounds_intersect {D} (b : saabb N (S D)) (origin delta : svec N (S D)) : bool :=
  let '(t1, t2) := slab (fst (bmin b)) (fst (bmax b)) (fst origin) (fst delta) in
  let '(tmin, tmax) :=
    slab_loop (snd (bmin b)) (snd (bmax b)) (snd origin) (snd delta) (f64_min t1 t2, f64_max t1 t2) in
  fl_lt O tmin tmax.

(** [struct Line] and [Line::delta] (line.rs 9-10, 24-31). *)
Record line (D : nat) := { line_0 : svec N D; line_1 : svec N D }.
(** [Line::delta] (line.rs 24-31). *)
Definition line_delta {D} (l : line D) : svec N D := vmap2 sub (line_1 D l) (line_0 D l).

(** [<Line as Intersects<SAABB>>::intersects] (line.rs 46-53). *)
Definition line_intersects_box {D} (l : line D) (rhs : saabb N D) : bool :=
  line_bounds_intersect rhs (line_0 D l) (line_delta l).

(** [struct Ray] and [<Ray as Intersects<SAABB>>::intersects] (ray.rs 9-21). *)
Record ray (D : nat) := { ray_origin : svec N D; ray_n : svec N D }.
(** [<Ray as Intersects<SAABB>>::intersects] (ray.rs 14-21). *)
Definition ray_intersects_box {D} (r : ray (S D)) (rhs : saabb N (S D)) : bool :=
  ray_bounds_intersect rhs (ray_origin (S D) r) (ray_n (S D) r).

(** [<SAABB as Intersects<Ray>>::intersects] and [<SAABB as Intersects<Line>>::intersects] (bounds.rs 184-200). *)
Definition box_intersects_ray {D} (b : saabb N (S D)) (rhs : ray (S D)) : bool := ray_intersects_box rhs b.
(** [<SAABB as Intersects<Line>>::intersects] (bounds.rs 192-200). *)
Definition box_intersects_line {D} (b : saabb N D) (rhs : line D) : bool := line_intersects_box rhs b.
End Slabs.
Arguments line_0 {N D}. Arguments line_1 {N D}. Arguments ray_origin {N D}. Arguments ray_n {N D}.
Arguments line : clear implicits. Arguments ray : clear implicits.

(** [<Line as Bounded<AABB>>::bounds] (line.rs 12-22). *)
Definition line_bounds {N} (S : ScalarOps N) {D} (l : line N D) : saabb N D :=
  {| bmin := cw_min S (line_0 l) (line_1 l); bmax := cw_max S (line_0 l) (line_1 l) |}.

(** [Line::sq_len] (line.rs 33-40); [D = 0] panics in the code and is excluded by the type.  [Line::len], its
    square root, is in LenModel.v. *)
Definition line_sq_len {N F} (sub : N -> N -> N) (into : N -> F) (FA : ArithOps F) {D} (l : line N (S D)) : F :=
  sq_mag FA (vmap into (line_delta sub l)).

(** IEEE doubles. *)
Definition f64_fops : FloatOps f64 := {|
  fl_zero := f64_of_Z 0; fl_one := f64_of_Z 1; fl_div := f64_div; fl_mul := f64_mul; fl_lt := f64_lt; fl_le := f64_le |}.

(** [<Line<i32, D> as Intersects<SAABB<i32, D>>>::intersects] (line.rs 9-53). *)
Definition i32_line_test {D} : line i32 D -> saabb i32 D -> bool := line_intersects_box i32_sub i32_into_f64 f64_fops.
(** [<Ray<i32, D> as Intersects<SAABB<i32, D>>>::intersects] (ray.rs 9-21). *)
Definition i32_ray_test {D} : ray i32 (S D) -> saabb i32 (S D) -> bool := ray_intersects_box i32_sub i32_into_f64 f64_fops.

(** Queries: [IntersectsFilter::new(line)], [IntersectsFilter::new(ray)] and [BoundedIntersectsFilter::new_bounded(line)]
    (filter.rs 33-93) for a tree of boxes. *)
Definition i32_line_filter {D} (l : line i32 D) : SpatialFilter (saabb i32 D) (saabb i32 D) :=
  intersects_filter i32_line_test i32_line_test l.
(** [IntersectsFilter::new(ray)] (filter.rs 32-53). *)
Definition i32_ray_filter {D} (r : ray i32 (S D)) : SpatialFilter (saabb i32 (S D)) (saabb i32 (S D)) :=
  intersects_filter i32_ray_test i32_ray_test r.
(** [BoundedIntersectsFilter::new_bounded(line)] (filter.rs 62-93). *)
Definition i32_bounded_line_filter {D} (l : line i32 D) : SpatialFilter (saabb i32 D) (saabb i32 D) :=
  bounded_intersects_filter (box_bounds_ops i32_ops) (line_bounds i32_ops) i32_line_test l.
