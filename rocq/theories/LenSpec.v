(** Specification vocabulary for the length of a segment (C77). *)
From Coq Require Import Reals.
From Verif Require Export LenModel FpSpec.

(** The squared length of a segment with integer coordinates. *)
Definition zlen2 {D : nat} (l : line i32 D) : Z :=
  fold_right Z.add 0%Z (map (fun ab => (i32_val (snd ab) - i32_val (fst ab)) * (i32_val (snd ab) - i32_val (fst ab)))%Z (vzip (line_0 l) (line_1 l))).
(** No coordinate difference overflows. *)
Definition diffs_fit {D : nat} (l : line i32 D) : Prop :=
  Forall (fun ab => (- 2 ^ 31 <= i32_val (snd ab) - i32_val (fst ab) < 2 ^ 31)%Z) (vzip (line_0 l) (line_1 l)).
(** The squared length of a segment of floats, in the real numbers. *)
Definition rlen2 {p e : Z} {D : nat} (l : line (nf p e) D) : R := rdist2 (line_1 l) (line_0 l).
(** The float is not NaN and lies between two numbers; an infinite result (an overflow) only if the upper one is at least [2^m]. *)
Definition lies_between (m : Z) (lo hi : R) (w : f64) : Prop :=
  w <> SpecFloat.S754_nan /\
  match sf_value w with XReal r => (lo <= r <= hi)%R | XPlus => (powerRZ 2 m <= hi)%R | XMinus => False end.
