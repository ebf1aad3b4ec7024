(** Specification vocabulary for segments and rays with floating-point coordinates (C75, C76). *)
From Coq Require Import Reals.
From Verif Require Export FpSpec FpSegModel RealSpec.
Local Open Scope R_scope.

(** The point [c] lies in the box from [lo] to [hi] after each side has been moved outwards by [k] times its distance from the
    point [o] (inwards for a negative [k]). *)
Fixpoint in_moved_box (k : R) {D} : svec R D -> svec R D -> svec R D -> svec R D -> Prop :=
  match D with
  | 0 => fun _ _ _ _ => True
  | Datatypes.S D => fun lo hi o c =>
      (fst lo - k * Rabs (fst lo - fst o) <= fst c <= fst hi + k * Rabs (fst hi - fst o)) /\
      in_moved_box k (snd lo) (snd hi) (snd o) (snd c)
  end.

Section FpSeg.
Context {p e : Z} {D : nat}.
(** The point a fraction [t] of the way along the segment lies in the box, whose sides are moved relative to the start of the
    segment. *)
Definition segment_near (k : R) (l : line (nf p e) D) (b : saabb (nf p e) D) (t : R) : Prop :=
  in_moved_box k (vmap coord (bmin b)) (vmap coord (bmax b)) (vmap coord (line_0 l))
    (part_way (vmap coord (line_0 l)) (vmap coord (line_1 l)) t).
(** The point [origin + t * n] lies in the box, whose sides are moved relative to the origin. *)
Definition ray_near (k : R) (r : ray (nf p e) D) (b : saabb (nf p e) D) (t : R) : Prop :=
  in_moved_box k (vmap coord (bmin b)) (vmap coord (bmax b)) (vmap coord (ray_origin r))
    (along (vmap coord (ray_origin r)) (vmap coord (ray_n r)) t).

(** Neither so large nor so small that a quotient overflows or underflows ([2^(e-1)]: the difference is in range of the
    coordinate type). *)
Definition moderate (x : R) : Prop :=
  x = 0 \/ (powerRZ 2 (-500) <= Rabs x <= powerRZ 2 500 /\ Rabs x <= powerRZ 2 (e - 1)).
Definition moderate_diffs (a b : svec (nf p e) D) : Prop :=
  Forall2 (fun x y => moderate (coord x - coord y)) (vlist a) (vlist b).
Definition moderate_point (a : svec (nf p e) D) : Prop := Forall (fun x => moderate (coord x)) (vlist a).
End FpSeg.
Arguments moderate e x : clear implicits.
