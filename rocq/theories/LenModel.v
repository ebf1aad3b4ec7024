(** Model of the length of a segment (line.rs 33-44). *)
From Coq Require Import Floats.SpecFloat.
From Verif Require Export SegModel FpSegModel.

(** [f64::sqrt] (line.rs 42): the square root, rounded to the nearest even. *)
Definition f64_sqrt : f64 -> f64 := SFsqrt 53 1024.
(** [Line::sq_len] of a segment with [i32] coordinates (line.rs 33-39); differences wrap around as in a release build. *)
Definition i32_line_sq_len {D : nat} (l : line i32 (S D)) : f64 := line_sq_len i32_sub i32_into_f64 f64_arith l.
(** [Line::len] (line.rs 41-43) with [i32] coordinates. *)
Definition i32_line_len {D : nat} (l : line i32 (S D)) : f64 := f64_sqrt (i32_line_sq_len l).
(** [Line::len] (line.rs 41-43) with [N32] or [N64] coordinates. *)
Definition nf_line_len (p e : Z) {D : nat} (l : line (nf p e) (S D)) : f64 := f64_sqrt (nf_line_sq_len p e l).
