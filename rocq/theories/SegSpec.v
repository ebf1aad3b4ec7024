(** Specification vocabulary for segments and rays (C37, C38): numbers with infinities and NaN that are rounded by an
    arbitrary function. *)
From Coq Require Import Reals.
From Flocq Require Import Core.
From Verif Require Export SegModel RealSpec.
Local Open Scope R_scope.

(** Floating-point numbers with an unspecified rounding; the sign of a zero is not recorded, so [1/0] is [+inf] as for the
    zeros the code can meet (differences of integers).  With the identity for the rounding [rho] this is exact arithmetic. *)
Inductive ext := ENaN | EInf (neg : bool) | EFin (r : R).

Definition e_lt (x y : ext) : bool :=
  match x, y with
  | ENaN, _ | _, ENaN => false
  | EInf s, EInf s' => s && negb s'
  | EInf s, EFin _ => s
  | EFin _, EInf s => negb s
  | EFin a, EFin b => Rlt_bool a b
  end.
Definition e_le (x y : ext) : bool :=
  match x, y with
  | ENaN, _ | _, ENaN => false
  | EInf s, EInf s' => s || negb s'
  | EInf s, EFin _ => s
  | EFin _, EInf s => negb s
  | EFin a, EFin b => Rle_bool a b
  end.

Section Rounding.
Context (rho : R -> R).

(** [a * (+-inf)]. *)
Definition e_scale (a : R) (s : bool) : ext :=
  match Rcompare a 0 with Eq => ENaN | Lt => EInf (negb s) | Gt => EInf s end.
Definition e_mul (x y : ext) : ext :=
  match x, y with
  | ENaN, _ | _, ENaN => ENaN
  | EInf s, EInf s' => EInf (xorb s s')
  | EInf s, EFin a | EFin a, EInf s => e_scale a s
  | EFin a, EFin b => EFin (rho (a * b))
  end.
Definition e_div (x y : ext) : ext :=
  match x, y with
  | ENaN, _ | _, ENaN | EInf _, EInf _ => ENaN
  | EInf s, EFin a => if Rlt_bool a 0 then EInf (negb s) else EInf s
  | EFin _, EInf _ => EFin 0
  | EFin a, EFin b => if Req_bool b 0 then e_scale a false else EFin (rho (a / b))
  end.

Definition ext_ops : FloatOps ext := {|
  fl_zero := EFin 0; fl_one := EFin 1; fl_div := e_div; fl_mul := e_mul; fl_lt := e_lt; fl_le := e_le |}.
End Rounding.

(** Numbers that are not rounded. *)
Definition exact_ops : FloatOps ext := ext_ops (fun r => r).

(** In every dimension the coordinates of [a] and [b] are at most [k] apart; every coordinate of [d] is at most [k] in
    absolute value. *)
Definition within (k : Z) {D} (a b : svec i32 D) : Prop :=
  Forall2 (fun x y => (Z.abs (i32_val x - i32_val y) <= k)%Z) (vlist a) (vlist b).
Definition bounded_by (k : Z) {D} (d : svec i32 D) : Prop := Forall (fun x => (Z.abs (i32_val x) <= k)%Z) (vlist d).

(** The point a fraction [t] of the way along the segment lies in the box. *)
Definition segment_hits {D} (l : line i32 D) (b : saabb i32 D) (t : R) : Prop :=
  real_in_box i32_real b (part_way (real_point i32_real (line_0 l)) (real_point i32_real (line_1 l)) t).
(** The point [origin + t * n] lies in the box. *)
Definition ray_hits {D} (r : ray i32 D) (b : saabb i32 D) (t : R) : Prop :=
  real_in_box i32_real b (along (real_point i32_real (ray_origin r)) (real_point i32_real (ray_n r)) t).
