(** Vocabulary for C86. *)
From Verif Require Export IterSpec InitModel.

(** The callback answers [ys] for the indices [i], [i + 1], ... *)
Fixpoint answers {A : Type} (cb : nat -> res A) (i : nat) (ys : list A) : Prop :=
  match ys with
  | [] => True
  | y :: ys => cb i = Ok y /\ answers cb (S i) ys
  end.

(** Memory whose first slots hold [s] and whose others are as they were in [old]. *)
Definition holds {L I : Type} (s : iter_stack L I) (old : memory L I) : memory L I :=
  map Written s ++ skipn (length s) old.

(** The iterator state [s'] comes from [s] by some calls of [next]. *)
Inductive advanced {S A : Type} (next : S -> res (option A * S)) : S -> S -> Prop :=
| adv_none s : advanced next s s
| adv_call s x s1 s2 : next s = Ok (x, s1) -> advanced next s1 s2 -> advanced next s s2.
