(** Model of coordinates that are floating-point numbers: [N64] and [N32] of the crate noisy_float, which lib.rs 660-735
    uses for points, boxes, lines and spheres (release build: the wrapped number is not checked). *)
From Coq Require Import Floats.SpecFloat.
From Verif Require Export GeomModel DistModel.

(** [NoisyFloat]: a float of the format with [p] bits of precision and exponents below [e] that is not NaN ([N64]: 53 and
    1024, [N32]: 24 and 128; vector.rs 38-41 asks [N: Ord + Bounded]). *)
Definition nf_ok (p e : Z) (x : spec_float) : bool :=
  match x with S754_nan => false | _ => valid_binary p e x end.
(** The numbers of the format (vector.rs 33-34, [SVec<N32, 3>] in lib.rs 694). *)
Definition nf (p e : Z) : Type := {x : spec_float | nf_ok p e x = true}.
(** The wrapped number, [NoisyFloat::raw] (used through [Into<f64>], bounds.rs 143). *)
Definition nf_raw {p e} (x : nf p e) : spec_float := proj1_sig x.
(** [N64] (lib.rs 438). *)
Definition n64 : Type := nf 53 1024.
(** [N32] (lib.rs 451). *)
Definition n32 : Type := nf 24 128.

(** [n64(x)], [n32(x)] (lib.rs 673-675), which panic on NaN; the model gives zero for NaN and for numbers outside of the
    format, and no theorem or example relies on that. *)
Definition nf_of (p e : Z) (x : spec_float) : nf p e :=
  match bool_dec (nf_ok p e x) true with
  | left H => exist _ x H
  | right _ => exist _ (S754_zero false) eq_refl
  end.

(** The greatest finite number of the format, [f64::MAX] or [f32::MAX]; [s]: its negation, [f64::MIN]. *)
Definition sf_max (p e : Z) (s : bool) : spec_float := S754_finite s (Z.to_pos (2 ^ p - 1)) (e - p).

(** [Ord], [Eq] and [num_traits::Bounded] of [NoisyFloat], as [impl Vector] uses them (vector.rs 42-61): [<=] and [==]
    are those of the wrapped float; [min_value()] and [max_value()] are the finite extremes [F::min_value()] and
    [F::max_value()], not the infinities. *)
Definition nf_ops (p e : Z) : ScalarOps (nf p e) := {|
  s_le := fun a b => SFleb (nf_raw a) (nf_raw b);
  s_eqb := fun a b => SFeqb (nf_raw a) (nf_raw b);
  s_min_value := nf_of p e (sf_max p e true);
  s_max_value := nf_of p e (sf_max p e false)
|}.

(** [Into<f64>] ([f64::from(f32)] is exact; on doubles this is the identity) (bounds.rs 143). *)
Definition sf_into_f64 (x : spec_float) : f64 :=
  match x with
  | S754_finite s m ex => binary_normalize 53 1024 (if s then Z.neg m else Z.pos m) ex s
  | x => x
  end.

(** [Volume for SAABB<N32, D>] and [SAABB<N64, D>] (bounds.rs 131-147); the differences and products may overflow to an
    infinity or be NaN, which a release build does not notice. *)
Definition nf_volume (p e : Z) {D} (b : saabb (nf p e) D) : f64 :=
  match map (fun q => sf_into_f64 (SFsub p e (nf_raw (snd q)) (nf_raw (fst q)))) (vzip (bmin b) (bmax b)) with
  | [] => f64_of_Z 1
  | x :: r => fold_left f64_mul r x
  end.
(** [Volume for SAABB] (bounds.rs 131-147) with the comparisons of [N64]. *)
Definition nf_volume_ops (p e : Z) (D : nat) : VolumeOps (saabb (nf p e) D) := {|
  N64 := f64; volume := nf_volume p e; n64_sub := f64_sub; n64_cmp := n64_cmp_f; n64_neg_inf := S754_infinity true |}.

(** [RTree<SAABB<N, D>, SAABB<N, D>, V>] for a float [N] (lib.rs 88-91). *)
Definition nf_box_params (p e : Z) (D : nat) : Params (saabb (nf p e) D) (saabb (nf p e) D) :=
  box_params (nf_ops p e) (nf_volume_ops p e D).
(** [RTree<SAABB<N, D>, SVec<N, D>, V>] for a float [N] (lib.rs 694). *)
Definition nf_point_params (p e : Z) (D : nat) : Params (saabb (nf p e) D) (svec (nf p e) D) :=
  point_params (nf_ops p e) (nf_volume_ops p e D).

(** [+], [-], [*] of the floats, round to nearest even, as [SVec::sq_mag] uses them (vector.rs 76-85). *)
Definition sf_arith (p e : Z) : ArithOps spec_float := {| a_add := SFadd p e; a_sub := SFsub p e; a_mul := SFmul p e |}.
(** The operators of [NoisyFloat] (ranking.rs 45-66): those of the float, where the result is not NaN.  A debug build panics
    on NaN and a release build goes on with it; theorem C59_no_nan shows that this cannot be seen for finite coordinates. *)
Definition nf_arith (p e : Z) : ArithOps (nf p e) := {|
  a_add := fun a b => nf_of p e (SFadd p e (nf_raw a) (nf_raw b));
  a_sub := fun a b => nf_of p e (SFsub p e (nf_raw a) (nf_raw b));
  a_mul := fun a b => nf_of p e (SFmul p e (nf_raw a) (nf_raw b)) |}.
(** [NoisyFloat::cmp] (ranking.rs 96-98, [M: Ord]). *)
Definition nf_cmp {p e} (a b : nf p e) : comparison := n64_cmp_f (nf_raw a) (nf_raw b).
