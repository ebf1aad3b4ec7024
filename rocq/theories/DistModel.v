(** Model of [SVec::sq_mag] (vector.rs 76-85), of the distances of ranking.rs 41-108 and of
    [SAABB::sq_dist_to] (bounds.rs 149-173). *)
From Verif Require Export GeomModel SortedModel.

(** [Add], [Sub], [Mul] of a scalar. *)
Record ArithOps (N : Type) := { a_add : N -> N -> N; a_sub : N -> N -> N; a_mul : N -> N -> N }.
Arguments a_add {N}. Arguments a_sub {N}. Arguments a_mul {N}.

Section Distance.
Context {N : Type} (S : ScalarOps N) (A : ArithOps N) {D : nat}.

(** [SVec::sq_mag] (vector.rs 76-85): [map], then [reduce].  [D = 0] panics in the code ([unwrap] of [None]) and
    is excluded by the type. *)
Definition sq_mag (v : svec N (Datatypes.S D)) : N :=
  fold_left (a_add A) (map (fun x => a_mul A x x) (vlist (snd v))) (a_mul A (fst v) (fst v)).

(** [<SVec as PointDistance>::dist_sq] (ranking.rs 45-52). *)
Definition point_dist_sq (a p : svec N (Datatypes.S D)) : N := sq_mag (vmap2 (a_sub A) a p).

(** [<AABB as PointDistance>::dist_sq] (ranking.rs 54-66). *)
Definition box_dist_sq (b : saabb N (Datatypes.S D)) (p : svec N (Datatypes.S D)) : N :=
  point_dist_sq (cw_min S (cw_max S p (bmin b)) (bmax b)) p.

(** [EuclideanDistanceRanking] (ranking.rs 79-108) for point keys and for box keys. *)
Definition euclid_points (p : svec N (Datatypes.S D)) : Ranking (saabb N (Datatypes.S D)) (svec N (Datatypes.S D)) N :=
  {| bounds_min := fun b => box_dist_sq b p; rank_key := fun k => point_dist_sq k p |}.
(** [EuclideanDistanceRanking] for box keys (ranking.rs 79-108). *)
Definition euclid_boxes (p : svec N (Datatypes.S D)) : Ranking (saabb N (Datatypes.S D)) (saabb N (Datatypes.S D)) N :=
  {| bounds_min := fun b => box_dist_sq b p; rank_key := fun b => box_dist_sq b p |}.
End Distance.

Section BoxDistance.
Context {N F : Type} (sub : N -> N -> N) (into : N -> F) (fcmp : F -> F -> comparison) (fadd fmul : F -> F -> F) (zero : F).

(** [cmp::max] on [N64]: the second argument unless the first is greater. *)
Definition f_max (a b : F) : F := match fcmp a b with Gt => a | _ => b end.

(** One dimension of [SAABB::sq_dist_to] (bounds.rs 160-170). *)
Definition axis_gap (lmin lmax rmin rmax : N) : F :=
  let lhs_then_rhs := into (sub rmin lmax) in
  let rhs_then_lhs := into (sub lmin rmax) in
  let dist := f_max (f_max lhs_then_rhs rhs_then_lhs) zero in
  fmul dist dist.

(** All dimensions of [SAABB::sq_dist_to] (bounds.rs 157-170). *)
Fixpoint axis_gaps {D} : svec N D -> svec N D -> svec N D -> svec N D -> list F :=
  match D with
  | 0 => fun _ _ _ _ => []
  | Datatypes.S D => fun lmin lmax rmin rmax =>
      axis_gap (fst lmin) (fst lmax) (fst rmin) (fst rmax) :: axis_gaps (snd lmin) (snd lmax) (snd rmin) (snd rmax)
  end.

(** [SAABB::sq_dist_to] (bounds.rs 149-173); [D = 0] panics in the code and is excluded by the type. *)
Definition sq_dist_to {D} (a b : saabb N (Datatypes.S D)) : F :=
  fold_left fadd (axis_gaps (snd (bmin a)) (snd (bmax a)) (snd (bmin b)) (snd (bmax b)))
    (axis_gap (fst (bmin a)) (fst (bmax a)) (fst (bmin b)) (fst (bmax b))).
End BoxDistance.

(** The same distances in a build with overflow checks (debug): the operators panic instead of wrapping. *)
Record CheckedOps (N : Type) := { c_add : N -> N -> res N; c_sub : N -> N -> res N; c_mul : N -> N -> res N }.
Arguments c_add {N}. Arguments c_sub {N}. Arguments c_mul {N}.

Section CheckedDistance.
Context {N : Type} (S : ScalarOps N) (C : CheckedOps N) {D : nat}.

(** [self.clone() - point.clone()] (vector.rs 123-133). *)
Fixpoint checked_sub {D} : svec N D -> svec N D -> res (list N) :=
  match D with
  | 0 => fun _ _ => Ok []
  | Datatypes.S D => fun a b =>
      let* x := c_sub C (fst a) (fst b) in
      let* r := checked_sub (snd a) (snd b) in
      Ok (x :: r)
  end.

(** [map(|v| v * v).reduce(|a, b| a + b).unwrap()] (vector.rs 76-85): the iterator is lazy, so each square is
    computed just before it is added. *)
Fixpoint checked_sum (acc : N) (l : list N) : res N :=
  match l with
  | [] => Ok acc
  | x :: r => let* sq := c_mul C x x in let* acc := c_add C acc sq in checked_sum acc r
  end.
(** [SVec::sq_mag] (vector.rs 76-85) with overflow checks. *)
Definition checked_sq_mag (l : list N) : res N :=
  match l with
  | [] => Panic
  | x :: r => let* sq := c_mul C x x in checked_sum sq r
  end.

(** [PointDistance for SVec] (ranking.rs 45-52) with overflow checks. *)
Definition point_dist_sq_checked (a p : svec N (Datatypes.S D)) : res N :=
  let* l := checked_sub a p in checked_sq_mag l.
(** [PointDistance for SAABB] (ranking.rs 54-65) with overflow checks. *)
Definition box_dist_sq_checked (b : saabb N (Datatypes.S D)) (p : svec N (Datatypes.S D)) : res N :=
  point_dist_sq_checked (cw_min S (cw_max S p (bmin b)) (bmax b)) p.
End CheckedDistance.

(** [i32] with overflow checks. *)
Definition i32_checked (z : Z) : res i32 := if i32_range z then Ok (i32_of z) else Panic.
(** [i32::add, sub, mul] of [core] in a build with overflow checks. *)
Definition i32_checked_ops : CheckedOps i32 := {|
  c_add := fun a b => i32_checked (i32_val a + i32_val b);
  c_sub := fun a b => i32_checked (i32_val a - i32_val b);
  c_mul := fun a b => i32_checked (i32_val a * i32_val b)
|}.

(** [i32] arithmetic (release build) and its order. *)
Definition i32_arith : ArithOps i32 := {| a_add := i32_add; a_sub := i32_sub; a_mul := i32_mul |}.
(** [<i32 as Ord>::cmp] of [core]. *)
Definition i32_cmp (a b : i32) : comparison := Z.compare (i32_val a) (i32_val b).
