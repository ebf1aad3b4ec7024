(** Model of the operators of [SVec] (vector.rs 33-34, 69-74, 88-133) with a closure or an operator that may panic. *)
From Verif Require Export DistModel.

(** [self.0[i]]: an index of an array, which panics out of bounds (vector.rs 91-93). *)
Fixpoint vec_index {N D} : svec N D -> nat -> res N :=
  match D with
  | 0 => fun _ _ => Panic
  | S D => fun v i => match i with 0 => Ok (fst v) | S i => vec_index (snd v) i end
  end.

(** [self.0[i] = x] through [&mut self.0[i]] (vector.rs 97-99). *)
Fixpoint vec_set {N D} : svec N D -> nat -> N -> res (svec N D) :=
  match D with
  | 0 => fun _ _ _ => Panic
  | S D => fun v i x => match i with 0 => Ok (x, snd v) | S i => let* r := vec_set (snd v) i x in Ok (fst v, r) end
  end.

(** [array::from_fn(|i| f(i))] of [core] with an [f] that may panic, called for 0, 1, ... (vector.rs 108-110, 130-132). *)
Fixpoint from_fn {N} (D : nat) (f : nat -> res N) : res (svec N D) :=
  match D with
  | 0 => Ok tt
  | S D => let* x := f 0 in let* r := from_fn D (fun i => f (S i)) in Ok (x, r)
  end.

(** [<SVec as Add>::add] (vector.rs 102-111). *)
Definition vec_add {N D} (plus : N -> N -> res N) (a b : svec N D) : res (svec N D) :=
  from_fn D (fun i => let* x := vec_index a i in let* y := vec_index b i in plus x y).
(** [<SVec as Sub>::sub] (vector.rs 124-133). *)
Definition vec_sub {N D} (minus : N -> N -> res N) (a b : svec N D) : res (svec N D) :=
  from_fn D (fun i => let* x := vec_index a i in let* y := vec_index b i in minus x y).

(** [<SVec as AddAssign>::add_assign] (vector.rs 113-122), [for i in 0..D]; [self] after the call and whether it returned.
    A scalar's [+=] is taken to assign the sum or to panic and leave the scalar as it was, like that of the integers of [core]. *)
Fixpoint add_assign_loop {N D} (plus : N -> N -> res N) (is : list nat) (a b : svec N D) : svec N D * bool :=
  match is with
  | [] => (a, true)
  | i :: is =>
    match (let* x := vec_index a i in let* y := vec_index b i in let* z := plus x y in vec_set a i z) with
    | Ok a => add_assign_loop plus is a b
    | _ => (a, false)
    end
  end.
(** [<SVec as AddAssign>::add_assign] (vector.rs 117-121). *)
Definition vec_add_assign {N D} (plus : N -> N -> res N) (a b : svec N D) : svec N D * bool := add_assign_loop plus (seq 0 D) a b.

(** [SVec::into_map] (vector.rs 69-74) with an [FnMut] that has a state and may panic ([None]); [<[N; D]>::map] of [core] calls it
    on each element in order. *)
Fixpoint vec_into_map {W N U D} (f : W -> N -> option U * W) : svec N D -> W -> option (svec U D) * W :=
  match D with
  | 0 => fun _ w => (Some tt, w)
  | S D => fun v w =>
    match f w (fst v) with
    | (None, w) => (None, w)
    | (Some u, w) => match vec_into_map f (snd v) w with (None, w) => (None, w) | (Some r, w) => (Some (u, r), w) end
    end
  end.

(** [derive(PartialOrd)] for [SVec] (vector.rs 33): that of the array, the order of slices of [core]; [None]: incomparable. *)
Fixpoint vec_partial_cmp {N D} (cmp : N -> N -> option comparison) : svec N D -> svec N D -> option comparison :=
  match D with
  | 0 => fun _ _ => Some Eq
  | S D => fun a b => match cmp (fst a) (fst b) with Some Eq => vec_partial_cmp cmp (snd a) (snd b) | c => c end
  end.
