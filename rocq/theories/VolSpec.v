(** Specification vocabulary for the volume of a box (C80). *)
From Coq Require Export Reals.
From Coq Require Import Floats.SpecFloat.
From Flocq Require Import Core BinarySingleNaN.
From Verif Require Export FpSpec RealSpec UModel.

(** The number with a [p]-bit mantissa (and exponents as of a float of the format [p], [e]) nearest to [x], ties to even: what a
    floating-point operation with the exact result [x] rounds to if it does not overflow. *)
Definition rne (p e : Z) (x : R) : R := round radix2 (SpecFloat.fexp p e) ZnearestE x.

(** The computed [f64] is the real number [r]: it is neither NaN nor an infinity. *)
Definition computes (x : f64) (r : R) : Prop := is_finite_SF x = true /\ sf_value x = XReal r.

(** The product of the numbers, rounded to a double after every multiplication. *)
Definition rounded_product (l : list R) : R :=
  match l with [] => 1%R | x :: r => fold_left (fun a s => rne 53 1024 (a * s)) r x end.

Section Sides.
(** [val] says which real number a coordinate stands for. *)
Context {N : Type} (val : N -> R) {D : nat}.
(** The side lengths of the box, [max - min] in every dimension. *)
Definition side_lengths (b : saabb N D) : list R := map (fun q => (val (snd q) - val (fst q))%R) (combine (vlist (bmin b)) (vlist (bmax b))).
(** The volume of the box in the real numbers. *)
Definition exact_volume (b : saabb N D) : R := fold_right Rmult 1%R (side_lengths b).
End Sides.

(** [u32] (and [u8], [u16]) coordinates as real numbers. *)
Definition uint_real {w} (n : uint w) : R := IZR (uint_val w n).
