(** Signed integer coordinates of any width: [i8], [i16], [i32] (the signed types of [core] that convert to [f64] with [Into],
    as bounds.rs 131-134 requires). *)
From Coq Require Import Floats.SpecFloat.
From Verif Require Export CheckSpec SphereModel SegModel.

Section Sint.
(** The number of bits besides the sign: 7, 15, 31. *)
Context (w : nat).

(** Half the number of values. *)
Definition sint_half : Z := (2 ^ Z.of_nat w)%Z.
(** The numbers of [i8], [i16], [i32] of [core]. *)
Definition sint_range (z : Z) : bool := ((- sint_half <=? z) && (z <? sint_half))%Z.
(** [i8], [i16], [i32] of [core]. *)
Definition sint : Type := {z : Z | sint_range z = true}.
(** The number. *)
Definition sint_val (x : sint) : Z := proj1_sig x.
(** Wrap-around of [core]. *)
Definition sint_wrap (z : Z) : Z := ((z + sint_half) mod (2 * sint_half) - sint_half)%Z.

Lemma sint_half_pos : (0 < sint_half)%Z.
Proof. unfold sint_half. apply Z.pow_pos_nonneg; lia. Qed.
Lemma sint_wrap_range z : sint_range (sint_wrap z) = true.
Proof.
  unfold sint_range, sint_wrap. assert (H0 := sint_half_pos). assert (H := Z.mod_pos_bound (z + sint_half) (2 * sint_half) ltac:(lia)).
  apply andb_true_intro; split; [apply Z.leb_le|apply Z.ltb_lt]; lia.
Qed.

(** The wrapped number; the proof component is computed to [eq_refl], so that closed terms evaluate (arithmetic of [core]). *)
Definition sint_of (z : Z) : sint :=
  exist _ (sint_wrap z)
    (match bool_dec (sint_range (sint_wrap z)) true with
     | left H => H
     | right H => False_ind _ (H (sint_wrap_range z))
     end).

(** [Ord], [Eq] and [num_traits::Bounded] of the signed types. *)
Definition sint_ops : ScalarOps sint := {|
  s_le := fun a b => (sint_val a <=? sint_val b)%Z;
  s_eqb := fun a b => (sint_val a =? sint_val b)%Z;
  s_min_value := sint_of (- sint_half);
  s_max_value := sint_of (sint_half - 1)
|}.

(** [sub] of [core], wrapping (release build). *)
Definition sint_sub (a b : sint) : sint := sint_of (sint_val a - sint_val b).
(** [Add], [Sub], [Mul] of [core], wrapping (release build). *)
Definition sint_arith : ArithOps sint := {|
  a_add := fun a b => sint_of (sint_val a + sint_val b);
  a_sub := sint_sub;
  a_mul := fun a b => sint_of (sint_val a * sint_val b)
|}.
(** A result in a build with overflow checks. *)
Definition sint_checked (z : Z) : res sint := if sint_range z then Ok (sint_of z) else Panic.
(** [Add], [Sub], [Mul] of [core] in a build with overflow checks. *)
Definition sint_checked_ops : CheckedOps sint := {|
  c_add := fun a b => sint_checked (sint_val a + sint_val b);
  c_sub := fun a b => sint_checked (sint_val a - sint_val b);
  c_mul := fun a b => sint_checked (sint_val a * sint_val b)
|}.
(** [Into<f64>] of [core]. *)
Definition sint_into_f64 (a : sint) : f64 := f64_of_Z (sint_val a).

(** [Volume for SAABB<i8, D>] (bounds.rs 131-147) with [N64] arithmetic, release build. *)
Definition sint_volume_ops (D : nat) : VolumeOps (saabb sint D) := {|
  N64 := f64;
  volume := box_volume sint_sub sint_into_f64 f64_mul (f64_of_Z 1);
  n64_sub := f64_sub;
  n64_cmp := n64_cmp_f;
  n64_neg_inf := S754_infinity true
|}.
(** [Volume::volume] of [SAABB<i8, D>] in a checked build (bounds.rs 135-146) returns; see [i32_vol_fits] (CheckSpec.v). *)
Definition sint_vol_fits {D} (b : saabb sint D) : bool :=
  match map (fun p => sint_into_f64 (sint_sub (snd p) (fst p))) (vzip (bmin b) (bmax b)) with
  | [] => false
  | x :: r => forallb (fun p => sint_range (sint_val (snd p) - sint_val (fst p))) (vzip (bmin b) (bmax b)) && products_fit x r
  end.
(** The checks for [SAABB<i8, D>] (bounds.rs 131-147); [N64::sub] asserts that the difference is no NaN. *)
Definition sint_checks (D : nat) : Checks (sint_volume_ops D) :=
  Build_Checks (saabb sint D) (sint_volume_ops D) sint_vol_fits (fun x y : f64 => negb (f64_is_nan (f64_sub x y))).

(** [RTree<SAABB<i8, D>, SAABB<i8, D>, V>] (lib.rs 88-91). *)
Definition sint_box_params (D : nat) : Params (saabb sint D) (saabb sint D) := box_params sint_ops (sint_volume_ops D).
(** [RTree<SAABB<i8, D>, SVec<i8, D>, V>] (lib.rs 88-91). *)
Definition sint_point_params (D : nat) : Params (saabb sint D) (svec sint D) := point_params sint_ops (sint_volume_ops D).

(** Writing points in examples. *)
Fixpoint sivec (D : nat) (l : list Z) : svec sint D :=
  match D with
  | 0 => tt
  | Datatypes.S D => (sint_of (hd 0%Z l), sivec D (tl l))
  end.
(** Writing boxes in examples. *)
Definition sibox (D : nat) (a b : list Z) : saabb sint D := {| bmin := sivec D a; bmax := sivec D b |}.
End Sint.
