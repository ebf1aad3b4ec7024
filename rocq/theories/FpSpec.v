(** Specification vocabulary for floating-point coordinates (C57, C58): which number a float stands for. *)
From Coq Require Export Reals.
From Coq Require Import Floats.SpecFloat.
From Verif Require Export FpModel GeomSpec IterSpec.

(** A real number or an infinity. *)
Inductive xreal := XMinus | XReal (r : R) | XPlus.
(** The order of the extended real numbers. *)
Definition x_le (x y : xreal) : Prop :=
  match x, y with
  | XMinus, _ | _, XPlus => True
  | XReal a, XReal b => (a <= b)%R
  | _, _ => False
  end.

(** The number a float (not NaN) stands for: [+-m * 2^ex]; both zeros stand for 0. *)
Definition sf_value (x : spec_float) : xreal :=
  match x with
  | S754_zero _ | S754_nan => XReal 0
  | S754_infinity true => XMinus
  | S754_infinity false => XPlus
  | S754_finite s m ex => XReal ((if s then -1 else 1) * IZR (Z.pos m) * powerRZ 2 ex)
  end.

Section Fp.
Context {p e : Z} {D : nat}.

Definition nf_value (x : nf p e) : xreal := sf_value (nf_raw x).
(** Coordinate by coordinate. *)
Definition xle (a b : svec (nf p e) D) : Prop := Forall2 (fun x y => x_le (nf_value x) (nf_value y)) (vlist a) (vlist b).
(** The two points have the same coordinates (as numbers: 0 and -0 are the same). *)
Definition same_point (a b : svec (nf p e) D) : Prop := Forall2 (fun x y => nf_value x = nf_value y) (vlist a) (vlist b).
Definition same_box (a b : saabb (nf p e) D) : Prop := same_point (bmin a) (bmin b) /\ same_point (bmax a) (bmax b).
(** The point lies in the closed box. *)
Definition x_in_box (b : saabb (nf p e) D) (q : svec (nf p e) D) : Prop := xle (bmin b) q /\ xle q (bmax b).
(** Box [a] includes box [b], coordinate by coordinate. *)
Definition x_incl (a b : saabb (nf p e) D) : Prop := xle (bmin a) (bmin b) /\ xle (bmax b) (bmax a).
(** No corner of the box is inverted. *)
Definition x_valid (b : saabb (nf p e) D) : Prop := xle (bmin b) (bmax b).
(** Every coordinate is a real number. *)
Definition finite_point (a : svec (nf p e) D) : Prop := Forall (fun x => exists r, nf_value x = XReal r) (vlist a).
Definition finite_box (b : saabb (nf p e) D) : Prop := finite_point (bmin b) /\ finite_point (bmax b).
(** A finite coordinate as a real number. *)
Definition coord (x : nf p e) : R := match nf_value x with XReal r => r | _ => 0%R end.
(** The sum of the squared coordinate differences, in the real numbers. *)
Definition rdist2 (a b : svec (nf p e) D) : R :=
  fold_right Rplus 0%R (map (fun xy => ((coord (fst xy) - coord (snd xy)) * (coord (fst xy) - coord (snd xy)))%R) (vzip a b)).
End Fp.

(** The relative rounding error [2^-p] of the format, and half its least positive number, the absolute error of a product that
    underflows. *)
Definition fp_u (p : Z) : R := powerRZ 2 (- p).
Definition fp_eta (p e : Z) : R := powerRZ 2 (2 - e - p).

(** The formats: [p >= 2] bits and [p < e]. *)
Definition fp_format (p e : Z) : Prop := (1 < p)%Z /\ (p < e)%Z.
