(** Specification vocabulary over the real numbers: the points of a box (C36-C39, C47). *)
From Coq Require Export Reals.
From Coq Require Import Floats.SpecFloat.
From Verif Require Export GeomSpec DistModel.

Section Real.
(** [val] says which real number a coordinate stands for. *)
Context {N : Type} (val : N -> R) {D : nat}.

(** The real point [x] lies in the closed box [b]. *)
Definition real_in_box (b : saabb N D) (x : svec R D) : Prop :=
  Forall2 (fun l x => (val l <= x)%R) (vlist (bmin b)) (vlist x) /\
  Forall2 (fun x h => (x <= val h)%R) (vlist x) (vlist (bmax b)).

(** Squared Euclidean distance. *)
Definition rdist2 (x y : svec R D) : R :=
  fold_right Rplus 0%R (map (fun xy => ((fst xy - snd xy) * (fst xy - snd xy))%R) (vzip x y)).

(** [m] is the least squared distance of a point of [a] and a point of [b]. *)
Definition closest2 (a b : saabb N D) (m : R) : Prop :=
  (exists x y, real_in_box a x /\ real_in_box b y /\ rdist2 x y = m) /\
  forall x y, real_in_box a x -> real_in_box b y -> (m <= rdist2 x y)%R.

(** The real point that [p] stands for. *)
Definition real_point (p : svec N D) : svec R D := vmap val p.
End Real.

(** [i32] coordinates as real numbers. *)
Definition i32_real (n : i32) : R := IZR (i32_val n).

(** The difference of the two coordinates does not overflow [i32]. *)
Definition no_wrap (a b : i32) : Prop := (-2147483648 <= i32_val a - i32_val b <= 2147483647)%Z.
Fixpoint no_wraps {D} : svec i32 D -> svec i32 D -> Prop :=
  match D with
  | 0 => fun _ _ => True
  | Datatypes.S D => fun a b => no_wrap (fst a) (fst b) /\ no_wraps (snd a) (snd b)
  end.

(** The differences between the sides of the two boxes facing each other do not overflow. *)
Definition fits {D} (a b : saabb i32 D) : Prop := no_wraps (bmin b) (bmax a) /\ no_wraps (bmin a) (bmax b).

(** In every dimension the box is less than [2^31] wide. *)
Definition narrow {D} (W : saabb i32 D) : Prop := no_wraps (bmax W) (bmin W).

(** [sq_dist_to] on [i32] boxes, in [f64]. *)
Notation i32_sq_dist := (sq_dist_to i32_sub i32_into_f64 n64_cmp_f f64_add f64_mul (f64_of_Z 0)).

(** The test "closer than [r]": [a.sq_dist_to(b) < r * r]. *)
Definition closer_than (r : Z) {D} (a b : saabb i32 (Datatypes.S D)) : bool :=
  SFltb (i32_sq_dist a b) (f64_mul (f64_of_Z r) (f64_of_Z r)).

(** The cube of half-width [r] around [c] lies in the range of [i32]. *)
Fixpoint ball_in_range (r : Z) {D} : svec i32 D -> Prop :=
  match D with
  | 0 => fun _ => True
  | Datatypes.S D => fun c => (-2147483648 <= i32_val (fst c) - r /\ i32_val (fst c) + r <= 2147483647)%Z /\ ball_in_range r (snd c)
  end.

(** The point at parameter [t] of the line through [o] in direction [d], and the point a fraction [t] of the way from [a]
    to [b]. *)
Definition along {D} (o d : svec R D) (t : R) : svec R D := vmap2 (fun o d => (o + t * d)%R) o d.
Definition part_way {D} (a b : svec R D) (t : R) : svec R D := vmap2 (fun a b => (a + t * (b - a))%R) a b.
