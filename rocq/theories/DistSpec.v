(** Specification vocabulary for distances (C35, C36, C45). *)
From Verif Require Export GeomSpec DistModel.

(** A built-in integer type: numbers [lo .. hi], with operators that wrap around (release build). *)
Record int_laws {N : Type} (S : ScalarOps N) (A : ArithOps N) (val : N -> Z) (lo hi : Z) : Prop := {
  int_range : forall a, (lo <= val a <= hi)%Z;
  int_zero : (lo <= 0 <= hi)%Z;
  int_le : forall a b, s_le S a b = (val a <=? val b)%Z;
  int_eqb : forall a b, s_eqb S a b = (val a =? val b)%Z;
  int_min : val (s_min_value S) = lo;
  int_max : val (s_max_value S) = hi;
  int_add : forall a b, exists n, (val (a_add A a b) = val a + val b + n * (hi - lo + 1))%Z;
  int_sub : forall a b, exists n, (val (a_sub A a b) = val a - val b + n * (hi - lo + 1))%Z;
  int_mul : forall a b, exists n, (val (a_mul A a b) = val a * val b + n * (hi - lo + 1))%Z
}.

(** The checked operators panic exactly when the true result is out of range, and are right otherwise. *)
Record checked_laws {N : Type} (C : CheckedOps N) (val : N -> Z) (lo hi : Z) : Prop := {
  chk_add : forall a b, (lo <= val a + val b <= hi)%Z -> exists c, c_add C a b = Ok c /\ (val c = val a + val b)%Z;
  chk_sub : forall a b, (lo <= val a - val b <= hi)%Z -> exists c, c_sub C a b = Ok c /\ (val c = val a - val b)%Z;
  chk_mul : forall a b, (lo <= val a * val b <= hi)%Z -> exists c, c_mul C a b = Ok c /\ (val c = val a * val b)%Z
}.

(** The sum of the squared coordinate differences, in the integers. *)
Definition zdist2 {N : Type} (val : N -> Z) {D} (a p : svec N D) : Z :=
  fold_right Z.add 0%Z (map (fun xy => ((val (fst xy) - val (snd xy)) * (val (fst xy) - val (snd xy)))%Z) (vzip a p)).

(** [m] is the least squared distance from [p] to a point of the box. *)
Definition least_dist2 {N : Type} (S : ScalarOps N) (val : N -> Z) {D} (b : saabb N D) (p : svec N D) (m : Z) : Prop :=
  (exists q, in_box S b q /\ zdist2 val q p = m) /\ forall q, in_box S b q -> (m <= zdist2 val q p)%Z.

(** [Ord::cmp] of an integer type. *)
Definition int_cmp {N : Type} (val : N -> Z) (a b : N) : comparison := Z.compare (val a) (val b).
