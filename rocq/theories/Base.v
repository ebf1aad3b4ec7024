(** Outcomes of the modelled code, and the few library functions of Rust's [std] the code uses. *)
From Coq Require Export List Arith Bool Lia Permutation.
Export ListNotations.

(** Outcome of a call.  [Panic]: Rust panics ([panic!], [unwrap] of [None], [unreachable!], index out of
    bounds).  [UB]: a union is read at the field that was not written, or memory is misused.
    [OutOfFuel]: the model's own loop bound was exhausted (excluded by every theorem). *)
Inductive res (A : Type) : Type :=
| Ok (a : A)
| Panic
| UB
| OutOfFuel.
Arguments Ok {A} a.
Arguments Panic {A}.
Arguments UB {A}.
Arguments OutOfFuel {A}.

(** Sequencing: a panic or undefined behaviour ends the call.  Of the model only; no code line. *)
Definition bind {A C : Type} (m : res A) (k : A -> res C) : res C :=
  match m with
  | Ok a => k a
  | Panic => Panic
  | UB => UB
  | OutOfFuel => OutOfFuel
  end.

Notation "'let*' p ':=' m 'in' k" := (bind m (fun p => k))
  (at level 200, p pattern, m at level 100, k at level 200, right associativity).

(** [Option::unwrap]. *)
Definition unwrap {A} (o : option A) : res A :=
  match o with Some a => Ok a | None => Panic end.

(** [Iterator::enumerate]. *)
Definition enumerate {T} (l : list T) : list (nat * T) := combine (seq 0 (length l)) l.

(** [Iterator::min_by] of [std]: [reduce] keeping the earlier element unless it compares [Greater]. *)
Fixpoint min_by_from {T} (cmp : T -> T -> comparison) (best : T) (l : list T) : T :=
  match l with
  | [] => best
  | y :: r => min_by_from cmp (match cmp best y with Gt => y | _ => best end) r
  end.

(** [Iterator::min_by] itself (used at select.rs 43-49). *)
Definition min_by {T} (cmp : T -> T -> comparison) (l : list T) : option T :=
  match l with
  | [] => None
  | x :: r => Some (min_by_from cmp x r)
  end.

(** Overwriting index [i] of a slice (no effect out of range). *)
Fixpoint set_nth {T} (i : nat) (x : T) (l : list T) : list T :=
  match l, i with
  | [], _ => []
  | _ :: r, 0 => x :: r
  | y :: r, S i' => y :: set_nth i' x r
  end.

(** [slice::swap] and [FCVecRefMut::swap] (fc_vec.rs 309-316): panics out of range. *)
Definition slice_swap {T} (i j : nat) (l : list T) : res (list T) :=
  match nth_error l i, nth_error l j with
  | Some x, Some y => Ok (set_nth j x (set_nth i y l))
  | _, _ => Panic
  end.

(** [FCVecRefMut::swap_remove] (fc_vec.rs 292-302): panics out of range; the last element is copied
    over index [i] and the length decremented. *)
Definition swap_remove {T} (i : nat) (l : list T) : res (T * list T) :=
  match nth_error l i with
  | Some x => Ok (x, removelast (set_nth i (last l x) l))
  | None => Panic
  end.

(** [FCVecRefMut::try_push] (fc_vec.rs 226-235): [inr] gives the value back when full. *)
Definition try_push {T} (cap : nat) (l : list T) (x : T) : list T + T :=
  if length l =? cap then inr x else inl (l ++ [x]).

(** [FCVecRefMut::push] (fc_vec.rs 214-222). *)
Definition push {T} (cap : nat) (l : list T) (x : T) : res (list T) :=
  if length l =? cap then Panic else Ok (l ++ [x]).

(** [Iterator::find] on a slice iterator: the element found and the rest of the slice; [None] leaves
    the iterator exhausted. *)
Fixpoint find_rest {T} (f : T -> bool) (l : list T) : option (T * list T) :=
  match l with
  | [] => None
  | x :: r => if f x then Some (x, r) else find_rest f r
  end.

(** [Iterator::position]. *)
Fixpoint position {T} (f : T -> bool) (l : list T) : option nat :=
  match l with
  | [] => None
  | x :: r => if f x then Some 0 else option_map S (position f r)
  end.

(** Of the model only; no code line. *)
Definition res_map {A C} (f : A -> C) (r : res A) : res C := let* a := r in Ok (f a).
