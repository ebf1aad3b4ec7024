(** Histories of calls in a build with checks (overflow checks and debug assertions), and the checks of [i32] coordinates. *)
From Coq Require Import Floats.SpecFloat.
From Verif Require Export CheckModel Spec GeomModel.

Section CheckedRun.
Context {B K V : Type} (P : Params B K) (CK : Checks (vops P)) (cfg : config).
Notation F := (N64 (vops P)).

(** One call ([step] of Spec.v) in the checked build; only insertions and removals involve checked operations (lib.rs 368-407). *)
Definition k_step (t : rtree B K V) (o : op K V) : C (out V * rtree B K V) B F :=
  match o with
  | OInsert k v => let^ t := k_insert P CK cfg t k v in cret (OutUnit, t)
  | OInsertUnique k v => let^ (p, t) := k_insert_unique P CK cfg t k v in cret (OutVal p, t)
  | ORemove k => let^ (p, t) := k_remove P CK cfg (self_borrow P) t k in cret (OutVal p, t)
  | o => clift (step P cfg t o)
  end.

(** Running a history in the checked build. *)
Fixpoint k_run (t : rtree B K V) (os : list (op K V)) : C (list (out V) * rtree B K V) B F :=
  match os with
  | [] => cret ([], t)
  | o :: os => let^ (x, t) := k_step t o in let^ (xs, t) := k_run t os in cret (x :: xs, t)
  end.
End CheckedRun.

(** *** The checks of boxes with [i32] coordinates *)

(** Not a number. *)
Definition f64_is_nan (x : f64) : bool := match x with S754_nan => true | _ => false end.

(** The products of [reduce(|acc, length| acc * length)] (bounds.rs 144): [N64::mul] asserts that they are no NaN. *)
Fixpoint products_fit (acc : f64) (l : list f64) : bool :=
  match l with
  | [] => true
  | x :: r => negb (f64_is_nan (f64_mul acc x)) && products_fit (f64_mul acc x) r
  end.

(** [Volume::volume] of [SAABB<i32, D>] in a checked build (bounds.rs 135-146) returns: there is a dimension (136-138, in every
    build), no [max - min] overflows (143), and no product is NaN (144).  The model does not say which of the
    failing checks comes first. *)
Definition i32_vol_fits {D} (b : saabb i32 D) : bool :=
  match map (fun p => i32_into_f64 (i32_sub (snd p) (fst p))) (vzip (bmin b) (bmax b)) with
  | [] => false
  | x :: r => forallb (fun p => i32_range (i32_val (snd p) - i32_val (fst p))) (vzip (bmin b) (bmax b)) && products_fit x r
  end.

(** The checks for [SAABB<i32, D>] (bounds.rs 131-147); [N64::sub] asserts that the difference is no NaN. *)
Definition i32_checks (D : nat) : Checks (i32_volume_ops D) :=
  Build_Checks (saabb i32 D) (i32_volume_ops D) i32_vol_fits (fun x y : f64 => negb (f64_is_nan (f64_sub x y))).
