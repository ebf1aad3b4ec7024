(** Vocabulary of C85: coordinates in a window. *)
From Verif Require Export SintModel RealSpec VolSpec.
Local Open Scope Z_scope.

(** All coordinates are between [lo] and [hi]. *)
Definition spoint_in_window {w} (lo hi : Z) {D} (p : svec (sint w) D) : Prop := Forall (fun x => lo <= sint_val w x <= hi) (vlist p).
Definition scorners_in_window {w} (lo hi : Z) {D} (b : saabb (sint w) D) : Prop :=
  spoint_in_window lo hi (bmin b) /\ spoint_in_window lo hi (bmax b).

(** Every side is shorter than half the range of the type: [max - min] does not wrap around. *)
Definition snarrow {w D} (b : saabb (sint w) D) : Prop :=
  Forall (fun q => sint_val w (snd q) - sint_val w (fst q) < 2 ^ Z.of_nat w) (combine (vlist (bmin b)) (vlist (bmax b))).

(** [i8] etc. coordinates as real numbers. *)
Definition sint_real {w} (n : sint w) : R := IZR (sint_val w n).
