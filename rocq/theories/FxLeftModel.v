(** The left join once more, with user callbacks that have effects (see FxModel.v for [W] and [outcome]).  [F] is the type
    of the values of the join filter: [clone] makes new ones, and its callbacks may depend on the value. *)
From Verif Require Export FxModel.

(** The callbacks [LeftJoinIter::next] makes (left_join.rs 141-149): [JoinFilter] (filter.rs 173-198) and [Clone] of the
    filter, [Borrow] of the left key, [Bounded::bounds] of what it is borrowed as (filter.rs 213-220). *)
Record FxLeft (W F B0 B1 K0 Q0 Q1 : Type) := {
  fl_bounds : F -> W -> B0 -> B1 -> option bool * W;
  fl_key : F -> W -> Q0 -> Q1 -> option bool * W;
  fl_clone : F -> W -> option F * W;
  fl_borrow : W -> K0 -> option Q0 * W;
  fl_qbounds : W -> Q0 -> option B0 * W
}.
Arguments fl_bounds {W F B0 B1 K0 Q0 Q1}. Arguments fl_key {W F B0 B1 K0 Q0 Q1}. Arguments fl_clone {W F B0 B1 K0 Q0 Q1}.
Arguments fl_borrow {W F B0 B1 K0 Q0 Q1}. Arguments fl_qbounds {W F B0 B1 K0 Q0 Q1}.

(** [Iterator::find] of [core] on a [RewindableIter] (left_join.rs 39-50, 194-197): [next] advances before the predicate
    is called. *)
Fixpoint fx_rw_find {W T : Type} (test : W -> T -> option bool * W) (fuel : nat) (r : rewindable T) (w : W)
  : res (outcome T * rewindable T * W) :=
  match rw_next r with
  | (None, r) => Ok (Done, r, w)
  | (Some x, r) =>
    let (a, w) := test w x in
    match a with
    | Some true => Ok (Yield x, r, w)
    | Some false => match fuel with 0 => OutOfFuel | S fuel => fx_rw_find test fuel r w end
    | None => Ok (Panicked, r, w)
    end
  end.

(** [InnerIterStack::find] (iter_stack.rs 344-366) on the right stack; [None] of the result is [Done]. *)
Fixpoint fx_inner_find {W L T : Type} (test : W -> T -> option bool * W) (expand : T -> res (rewindable T)) (fuel i : nat)
    (s : iter_stack L (rewindable T)) (w : W) : res (outcome T * iter_stack L (rewindable T) * W) :=
  if i <? length s then
    match fuel with
    | 0 => OutOfFuel
    | S fuel =>
      let* it := stack_inner s i in
      let* (o, it, w) := fx_rw_find test (length (rw_slice it)) it w in
      let* s := stack_set_inner s i it in
      match o with
      | Yield child =>
        match i with
        | 0 => Ok (Yield child, s, w)
        | S i =>
          let* it := expand child in
          let* s := stack_set_inner s i it in
          fx_inner_find test expand fuel i s w
        end
      | Done => fx_inner_find test expand fuel (i + 1) s w
      | Panicked => Ok (Panicked, s, w)
      end
    end
  else Ok (Done, s, w).

Section FxLeftJoin.
Context {W F B0 B1 K0 K1 V0 V1 Q0 Q1 : Type} (f : FxLeft W F B0 B1 K0 Q0 Q1) (flt : F).
Notation node0 := (node B0 K0 V0).
Notation node1 := (node B1 K1 V1).

(** [JoiningFilter] (filter.rs 202-211): [bounds], [key], [filter]. *)
Definition fx_joining : Type := (B0 * Q0 * F)%type.

(** [impl SpatialFilter for JoiningFilter] (filter.rs 222-237). *)
Definition fx_joining_filter (j : fx_joining) : FxFilter W B1 Q1 :=
  let '(b, q, c) := j in {| fx_bounds := fun w x => fl_bounds f c w b x; fx_key := fun w x => fl_key f c w q x |}.

(** [JoiningFilter::new(key.borrow(), self.filter.clone())] (left_join.rs 221, filter.rs 213-220). *)
Definition fx_joining_new (k : K0) (w : W) : outcome fx_joining * W :=
  let (q, w) := fl_borrow f w k in
  match q with
  | None => (Panicked, w)
  | Some q =>
    let (c, w) := fl_clone f flt w in
    match c with
    | None => (Panicked, w)
    | Some c =>
      let (b, w) := fl_qbounds f w q in
      match b with
      | None => (Panicked, w)
      | Some b => (Yield (b, q, c), w)
      end
    end
  end.

(** [iter_right.find(..)] (left_join.rs 187-197). *)
Definition fx_right_find (n : node0) (s : @rw_stack B1 K1 V1) (w : W) : res (outcome node1 * @rw_stack B1 K1 V1 * W) :=
  fx_inner_find (fun w m => fl_bounds f flt w (node_bounds n) (node_bounds m))
    (fun m => let* cs := read_inner (node_children m) in Ok (rw_new cs))
    (2 * list_sum (map rw_slot_size s) + length s) 0 s w.

(** What [next] yields: the left entry, and the stack and the filter of the [FilterIter]. *)
Definition fx_item : Type := ((K0 * V0) * (@tree_stack B1 K1 V1 * fx_joining))%type.
Notation left_join_iter := (@left_join_iter B0 B1 K0 K1 V0 V1).

(** [LeftJoinIter::next] (left_join.rs 160-251): the [loop].  When the search of the right stack unwinds, the left stack
    has moved on and the right stack is left where it was. *)
Fixpoint fx_left_loop (fuel level : nat) (it : left_join_iter) (w : W) : res (outcome fx_item * left_join_iter * W) :=
  match fuel with
  | 0 => OutOfFuel
  | S fuel =>
    let (left, right) := it in
    let min_height := Nat.min (length left) (length right) in
    let ascend (left : @tree_stack B0 K0 V0) (right : @rw_stack B1 K1 V1) :=
      if level + 1 =? min_height then Ok (Done, (left, right), w)
      else
        let* (_, right) :=
          on_sub right (level + 1) (level + 1 + 1 =? length left) (fun s => let* s := rewind_inner s in Ok (tt, s)) in
        fx_left_loop fuel (level + 1) (left, right) w in
    match level with
    | S l =>
      let* (node_left, left) := on_sub left (S l) (S l + 1 =? length right) left_search in
      match node_left with
      | Some node_left =>
        let* (ow, right) :=
          on_sub right (S l) (S l + 1 =? length left)
            (fun s => let* (o, s, w) := fx_right_find node_left s w in Ok ((o, w), s)) in
        let (o, w) := ow in
        let descend (node_right : option node1) :=
          let* left := iterate_left_children left node_left l in
          let* right := iterate_right_children right node_right l in
          fx_left_loop fuel l (left, right) w in
        match o with
        | Yield node_right => descend (Some node_right)
        | Done => descend None
        | Panicked => Ok (Panicked, (left, right), w)
        end
      | None => ascend left right
      end
    | 0 =>
      let* es := stack_leaf left in
      match es with
      | e :: rest =>
        let* left := stack_set_leaf left rest in
        let* stack := remainder_stack right in
        let (o, w) := fx_joining_new (fst e) w in
        match o with
        | Yield j => Ok (Yield (e, (stack, j)), (left, right), w)
        | Done | Panicked => Ok (Panicked, (left, right), w)
        end
      | [] => ascend left right
      end
    end
  end.

(** [LeftJoinIter::next] (left_join.rs 160-251). *)
Definition fx_left_next (it : left_join_iter) (w : W) : res (outcome fx_item * left_join_iter * W) :=
  if Nat.min (length (fst it)) (length (snd it)) =? 0 then Ok (Done, it, w)
  else fx_left_loop (left_join_fuel it) 0 it w.
End FxLeftJoin.
