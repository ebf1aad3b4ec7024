(** Vocabulary of C84: calls other than [insert], and what answers have in common if keys may be stored several times. *)
From Verif Require Export Spec.

Definition not_insert {K V : Type} (o : op K V) : Prop := match o with OInsert _ _ => False | _ => True end.
(** [is_empty] is called only if [min_children <> 0] (C08). *)
Definition fits {K V : Type} (cfg : config) (o : op K V) : Prop :=
  match o with OIsEmpty => 1 <= min_children cfg | _ => True end.

(** Both answers give a value or neither does; counts and yes/no answers are the same. *)
Definition alike {V : Type} (x y : out V) : Prop :=
  match x, y with
  | OutVal a, OutVal b => a = None <-> b = None
  | _, _ => x = y
  end.

(** How many entries have a key equal to [k]. *)
Definition hits {K V : Type} (eqb : K -> K -> bool) (k : K) (l : list (K * V)) : nat :=
  length (filter (fun kv => eqb (fst kv) k) l).
