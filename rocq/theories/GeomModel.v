(** Model of vector.rs, bounds.rs, contains.rs: vectors and axis-aligned boxes. *)
From Coq Require Export ZArith.
From Coq Require Import Floats.SpecFloat Eqdep_dec.
From Verif Require Export Model.

(** Scalars: what [impl Vector for SVec<N, D>] asks of [N] that matters for boxes: [Ord] and
    [num_traits::Bounded] (vector.rs 38-41); [a <= b], [a == b], [N::min_value()], [N::max_value()]. *)
Record ScalarOps (N : Type) := {
  s_le : N -> N -> bool;
  s_eqb : N -> N -> bool;
  s_min_value : N;
  s_max_value : N
}.
Arguments s_le {N}. Arguments s_eqb {N}. Arguments s_min_value {N}. Arguments s_max_value {N}.

(** [SVec<N, D>] (vector.rs 33-34): an array of [D] scalars. *)
Fixpoint svec (N : Type) (D : nat) : Type :=
  match D with
  | 0 => unit
  | S D => (N * svec N D)%type
  end.

(** [self.0.iter()]: the components in order. *)
Fixpoint vlist {N D} : svec N D -> list N :=
  match D with
  | 0 => fun _ => []
  | S D => fun v => fst v :: vlist (snd v)
  end.

(** [array::from_fn(|_| x)] with a constant (vector.rs 42-47). *)
Fixpoint vconst {N} (D : nat) (x : N) : svec N D :=
  match D with
  | 0 => tt
  | S D => (x, vconst D x)
  end.

(** [array::from_fn(|i| f(a[i], b[i]))] (vector.rs 56-61, 108-110, 130-132). *)
Fixpoint vmap2 {A C E : Type} (f : A -> C -> E) {D} : svec A D -> svec C D -> svec E D :=
  match D with
  | 0 => fun _ _ => tt
  | S D => fun a b => (f (fst a) (fst b), vmap2 f (snd a) (snd b))
  end.

(** [SVec::into_map] (vector.rs 69-74). *)
Fixpoint vmap {A C : Type} (f : A -> C) {D} : svec A D -> svec C D :=
  match D with
  | 0 => fun _ => tt
  | S D => fun a => (f (fst a), vmap f (snd a))
  end.

(** [SVec::zip] and [a.iter().zip(b.iter())] (vector.rs 49-54, 65-67). *)
Definition vzip {A C D} (a : svec A D) (b : svec C D) : list (A * C) := combine (vlist a) (vlist b).

(** [struct AABB] (bounds.rs 44-48). *)
Record aabb (V : Type) := { bmin : V; bmax : V }.
Arguments bmin {V}. Arguments bmax {V}.
(** [type SAABB] (bounds.rs 129). *)
Definition saabb (N : Type) (D : nat) : Type := aabb (svec N D).   (* [SAABB] (bounds.rs 129) *)

Section Boxes.
Context {N : Type} (S : ScalarOps N) {D : nat}.
Notation vec := (svec N D).
Notation box := (saabb N D).

(** [Ord::min]: [self] unless it is greater; [Ord::max]: [other] unless it is smaller. *)
Definition s_min (a b : N) : N := if s_le S a b then a else b.
(** [Ord::max] of [core]: [other] unless it is smaller. *)
Definition s_max (a b : N) : N := if s_le S a b then b else a.

(** [Vector::all_le], [all_ge] (vector.rs 49-54). *)
Definition all_le (a b : vec) : bool := forallb (fun p => s_le S (fst p) (snd p)) (vzip a b).
(** [Vector::all_ge] (vector.rs 52-54). *)
Definition all_ge (a b : vec) : bool := forallb (fun p => s_le S (snd p) (fst p)) (vzip a b).

(** [Vector::componentwise_min], [componentwise_max] (vector.rs 56-61). *)
Definition cw_min (a b : vec) : vec := vmap2 s_min a b.
(** [Vector::componentwise_max] (vector.rs 59-61). *)
Definition cw_max (a b : vec) : vec := vmap2 s_max a b.

(** [derive(PartialEq)] for [SVec] (vector.rs 33) and [AABB] (bounds.rs 44). *)
Definition vec_eqb (a b : vec) : bool := forallb (fun p => s_eqb S (fst p) (snd p)) (vzip a b).
(** [derive(PartialEq)] of [AABB] (bounds.rs 44). *)
Definition box_eqb (a b : box) : bool := vec_eqb (bmin a) (bmin b) && vec_eqb (bmax a) (bmax b).

(** [<AABB as Contains<V>>::contains] (bounds.rs 52-59), as written. *)
Definition box_contains_point (b : box) (p : vec) : bool := all_ge (bmin b) p && all_le (bmax b) p.

(** [<AABB as Contains<AABB>>::contains] (bounds.rs 61-68), as written. *)
Definition box_contains_box (a b : box) : bool := all_le (bmin a) (bmax b) && all_ge (bmax a) (bmin b).

(** [<AABB as Intersects<V>>::intersects] (bounds.rs 70-77). *)
Definition box_intersects_point (b : box) (p : vec) : bool := all_le (bmin b) p && all_ge (bmax b) p.

(** [<AABB as Intersects<AABB>>::intersects] (bounds.rs 79-86). *)
Definition box_intersects_box (a b : box) : bool := all_le (bmin a) (bmax b) && all_ge (bmax a) (bmin b).

(** [<SVec as Intersects<SAABB>>::intersects] (vector.rs 135-142). *)
Definition point_intersects_box (p : vec) (b : box) : bool := box_contains_point b p.

(** [<AABB as Bounds>::empty, union, union_all] (bounds.rs 88-113). *)
Definition box_empty : box := {| bmin := vconst D (s_max_value S); bmax := vconst D (s_min_value S) |}.
(** [<AABB as Bounds>::union] (bounds.rs 99-104). *)
Definition box_union (a b : box) : box :=
  {| bmin := cw_min (bmin a) (bmin b); bmax := cw_max (bmax a) (bmax b) |}.
(** [<AABB as Bounds>::union_all] (bounds.rs 106-112). *)
Definition box_union_all (l : list box) : box := fold_left box_union l box_empty.

(** [<V as Bounded<AABB<V>>>::bounds] (bounds.rs 115-125). *)
Definition point_bounds (p : vec) : box := {| bmin := p; bmax := p |}.

(** [impl Bounds for AABB] (bounds.rs 86-113) as a record. *)
Definition box_bounds_ops : BoundsOps box := {|
  b_empty := box_empty;
  b_union := box_union;
  b_union_all := box_union_all;
  b_contains := box_contains_box;
  b_intersects := box_intersects_box
|}.

(** [<SAABB as Bounded<SAABB>>::bounds] (bounds.rs 175-182): the box itself. *)
Definition box_params (VO : VolumeOps box) : Params box box := {|
  bops := box_bounds_ops; vops := VO; key_bounds := fun b => b; key_eq := box_eqb |}.

(** Points as keys. *)
Definition point_params (VO : VolumeOps box) : Params box vec := {|
  bops := box_bounds_ops; vops := VO; key_bounds := point_bounds; key_eq := vec_eqb |}.

(** [Volume for SAABB] (bounds.rs 131-147), for any float operations; [sub] is [Sub] of [N], [into] is
    [Into<f64>], [mul] the product of [N64].  The code panics for [D = 0]; here the empty product is
    [one], so theorems about volumes exclude [D = 0]. *)
Definition box_volume {F} (sub : N -> N -> N) (into : N -> F) (mul : F -> F -> F) (one : F) (b : box) : F :=
  match map (fun p => into (sub (snd p) (fst p))) (vzip (bmin b) (bmax b)) with
  | [] => one
  | x :: r => fold_left mul r x
  end.
End Boxes.

(** ** The concrete scalars [i32] and [f64] *)

(** [i32] (release build: arithmetic wraps). *)
Definition i32_range (z : Z) : bool := ((-2147483648 <=? z) && (z <=? 2147483647))%Z.
(** [i32] of [core]: its numbers. *)
Definition i32 : Type := {z : Z | i32_range z = true}.
(** The number. *)
Definition i32_val (x : i32) : Z := proj1_sig x.

(** Two's complement wrap-around of [core]. *)
Definition wrap32 (z : Z) : Z := ((z + 2147483648) mod 4294967296 - 2147483648)%Z.

Lemma wrap32_range z : i32_range (wrap32 z) = true.
Proof.
  unfold i32_range, wrap32. assert (H := Z.mod_pos_bound (z + 2147483648) 4294967296 ltac:(lia)).
  apply andb_true_intro; split; apply Z.leb_le; lia.
Qed.

(** The proof component is computed to [eq_refl], so that closed terms evaluate. *)
Definition i32_of (z : Z) : i32 :=
  exist _ (wrap32 z)
    (match bool_dec (i32_range (wrap32 z)) true with
     | left H => H
     | right H => False_ind _ (H (wrap32_range z))
     end).

(** [Ord], [Eq] and [num_traits::Bounded] of [i32]. *)
Definition i32_ops : ScalarOps i32 := {|
  s_le := fun a b => (i32_val a <=? i32_val b)%Z;
  s_eqb := fun a b => (i32_val a =? i32_val b)%Z;
  s_min_value := i32_of (-2147483648);
  s_max_value := i32_of 2147483647
|}.

(** [f64]: IEEE 754 binary64 of Coq's [SpecFloat]. *)
Definition f64 := spec_float.
(** [f64::mul]. *)
Definition f64_mul : f64 -> f64 -> f64 := SFmul 53 1024.
(** [f64::add]. *)
Definition f64_add : f64 -> f64 -> f64 := SFadd 53 1024.
(** [f64::sub]. *)
Definition f64_sub : f64 -> f64 -> f64 := SFsub 53 1024.
(** [f64::div]. *)
Definition f64_div : f64 -> f64 -> f64 := SFdiv 53 1024.
(** Conversion of a whole number, round to nearest even. *)
Definition f64_of_Z (z : Z) : f64 := binary_normalize 53 1024 z 0 false.
(** [f64::lt]. *)
Definition f64_lt (a b : f64) : bool := SFltb a b.
(** [f64::le]. *)
Definition f64_le (a b : f64) : bool := SFleb a b.

(** [N64::cmp] of the crate noisy_float: [Less] if [self < other], [Equal] if [self == other], else
    [Greater]. *)
Definition n64_cmp_f (a b : f64) : comparison :=
  if SFltb a b then Lt else if SFeqb a b then Eq else Gt.

(** [i32::sub], wrapping. *)
Definition i32_sub (a b : i32) : i32 := i32_of (i32_val a - i32_val b).
(** [i32::add], wrapping. *)
Definition i32_add (a b : i32) : i32 := i32_of (i32_val a + i32_val b).
(** [i32::mul], wrapping. *)
Definition i32_mul (a b : i32) : i32 := i32_of (i32_val a * i32_val b).
(** [<i32 as Into<f64>>::into]. *)
Definition i32_into_f64 (a : i32) : f64 := f64_of_Z (i32_val a).

(** [Volume for SAABB<i32, D>] with [N64] arithmetic. *)
Definition i32_volume_ops (D : nat) : VolumeOps (saabb i32 D) := {|
  N64 := f64;
  volume := box_volume i32_sub i32_into_f64 f64_mul (f64_of_Z 1);
  n64_sub := f64_sub;
  n64_cmp := n64_cmp_f;
  n64_neg_inf := S754_infinity true
|}.

(** [RTree<SAABB<i32, D>, SAABB<i32, D>, V>] and [RTree<SAABB<i32, D>, SVec<i32, D>, V>]. *)
Definition i32_box_params (D : nat) : Params (saabb i32 D) (saabb i32 D) := box_params i32_ops (i32_volume_ops D).
(** [RTree<SAABB<i32, D>, SVec<i32, D>, V>] (lib.rs 88-91). *)
Definition i32_point_params (D : nat) : Params (saabb i32 D) (svec i32 D) := point_params i32_ops (i32_volume_ops D).

(** Writing boxes and points in examples. *)
Fixpoint ivec (D : nat) (l : list Z) : svec i32 D :=
  match D with
  | 0 => tt
  | S D => (i32_of (hd 0%Z l), ivec D (tl l))
  end.
(** Writing a box in examples. *)
Definition ibox (D : nat) (a b : list Z) : saabb i32 D := {| bmin := ivec D a; bmax := ivec D b |}.
