(** Vocabulary of C70: where a ball and numbers lie in the range of an unsigned type. *)
From Verif Require Export UModel.
Local Open Scope Z_scope.

(** The cube of half-width [r] around [c] lies in the range of the type. *)
Fixpoint uball_in_range (w : nat) (r : Z) {D} : svec (uint w) D -> Prop :=
  match D with
  | 0%nat => fun _ => True
  | Datatypes.S D => fun c => (0 <= uint_val w (fst c) - r /\ uint_val w (fst c) + r < 2 ^ Z.of_nat w) /\ uball_in_range w r (snd c)
  end.

(** All coordinates are numbers of [i32] too. *)
Definition small {w D} (p : svec (uint w) D) : Prop := Forall (fun x => uint_val w x < 2 ^ 31) (vlist p).
(** The same point with [i32] coordinates. *)
Definition signed {w D} (p : svec (uint w) D) : svec i32 D := vmap (fun x => i32_of (uint_val w x)) p.
