(** Debug builds with floating-point coordinates (C82): the assertions of [NoisyFloat]. *)
From Coq Require Import Reals Floats.SpecFloat.
From Verif Require Export CheckSpec FpSpec.

(** [Volume::volume] of [SAABB<N32, D>] or [SAABB<N64, D>] in a debug build (bounds.rs 135-146) returns: there is a dimension
    (136-138), no [max - min] is NaN (143: the subtraction of [NoisyFloat] and [n64] assert it), and no product is NaN (144). *)
Definition nf_vol_fits (p e : Z) {D} (b : saabb (nf p e) D) : bool :=
  match vzip (bmin b) (bmax b) with
  | [] => false
  | q :: r =>
    let side q := SFsub p e (nf_raw (snd q)) (nf_raw (fst q)) in
    forallb (fun q => negb (f64_is_nan (side q))) (q :: r) &&
    products_fit (sf_into_f64 (side q)) (map (fun q => sf_into_f64 (side q)) r)
  end.

(** The checks for [SAABB<N32, D>] and [SAABB<N64, D>] (bounds.rs 131-147); the difference of two volumes must not be NaN (select.rs 20, split.rs 73). *)
Definition nf_checks (p e : Z) (D : nat) : Checks (nf_volume_ops p e D) :=
  Build_Checks (saabb (nf p e) D) (nf_volume_ops p e D) (nf_vol_fits p e) (fun x y : f64 => negb (f64_is_nan (f64_sub x y))).

(** Coordinates that are finite and at most [2 ^ k] in absolute value. *)
Definition small_coord {p e} (k : nat) (x : nf p e) : Prop := exists r, nf_value x = XReal r /\ (- 2 ^ k <= r <= 2 ^ k)%R.
Definition small_point {p e} (k : nat) {D} (a : svec (nf p e) D) : Prop := Forall (small_coord k) (vlist a).
Definition small_box {p e} (k : nat) {D} (b : saabb (nf p e) D) : Prop := small_point k (bmin b) /\ small_point k (bmax b).
