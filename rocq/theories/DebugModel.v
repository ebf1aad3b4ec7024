(** Model of the [Debug] implementations ([{:?}] and [{:#?}]): lib.rs 87, node.rs 955-968, 1093-1105, 1132-1141,
    1220-1232, bounds.rs 44, vector.rs 152-159, with the builders of [core::fmt] they use.  What a [Formatter]
    writes is a string; user code is the [Debug] of bounds, keys and values. *)
From Coq Require Export String Ascii.
From Coq Require Import Decimal DecimalString.
From Verif Require Export GeomModel.
Export ListNotations.
Open Scope string_scope.

(** What a [fmt] call did: the text it wrote, the user's [fmt] calls it made (of the model only, for the
    statements), and whether it returned [Ok] ([fmt::Result]). *)
Definition fmt (X : Type) : Type := res (string * list X * bool).

Section Builders.
Context {X : Type}.
Notation fmt := (fmt X).

(** [Formatter::write_str] of [core] into a [String]. *)
Definition fwrite (s : string) : fmt := Ok (s, []%list, true).

(** [Result::and_then] of [core] on [fmt::Result]: after an error nothing more is written. *)
Definition fseq (a b : fmt) : fmt :=
  let* (t1, c1, o1) := a in
  if o1 then (let* (t2, c2, o2) := b in Ok (t1 ++ t2, (c1 ++ c2)%list, o2)) else Ok (t1, c1, false).

(** The newline character. *)
Definition nl : ascii := "010"%char.
(** A line end; of the model only. *)
Definition eol : string := String nl "".

(** [PadAdapter::write_str] of [core::fmt::builders]: four spaces before every line, also the first. *)
Fixpoint pad_from (on_newline : bool) (s : string) : string :=
  match s with
  | "" => ""
  | String c r => (if on_newline then "    " else "") ++ String c (pad_from (Ascii.eqb c nl) r)
  end.

(** Writing through a new [PadAdapter] of [core]. *)
Definition fpad (m : fmt) : fmt := let* (t, c, o) := m in Ok (pad_from true t, c, o).

(** [DebugStruct::field] of [core], called for each field in turn; [has_fields] says whether one was written. *)
Fixpoint struct_fields (pretty has_fields : bool) (fs : list (string * fmt)) : fmt :=
  match fs with
  | [] => fwrite ""
  | (name, value) :: fs =>
    fseq (if pretty
          then fseq (fwrite (if has_fields then "" else " {" ++ eol))
                    (fpad (fseq (fwrite name) (fseq (fwrite ": ") (fseq value (fwrite ("," ++ eol))))))
          else fseq (fwrite (if has_fields then ", " else " { ")) (fseq (fwrite name) (fseq (fwrite ": ") value)))
         (struct_fields pretty true fs)
  end.

(** [Formatter::debug_struct], [field] ..., [finish] of [core]. *)
Definition debug_struct (pretty : bool) (name : string) (fs : list (string * fmt)) : fmt :=
  fseq (fwrite name) (fseq (struct_fields pretty false fs)
    (match fs with [] => fwrite "" | _ => fwrite (if pretty then "}" else " }") end)).

(** [DebugInner::entry] of [core], for each entry of [DebugList::entries]. *)
Fixpoint list_entries (pretty has_fields : bool) (vs : list fmt) : fmt :=
  match vs with
  | [] => fwrite ""
  | value :: vs =>
    fseq (if pretty
          then fseq (fwrite (if has_fields then "" else eol)) (fpad (fseq value (fwrite ("," ++ eol))))
          else fseq (fwrite (if has_fields then ", " else "")) value)
         (list_entries pretty true vs)
  end.

(** [Formatter::debug_list], [entries], [finish] of [core]. *)
Definition debug_list (pretty : bool) (vs : list fmt) : fmt :=
  fseq (fwrite "[") (fseq (list_entries pretty false vs) (fwrite "]")).

(** [Debug for (A, C)] of [core]: [debug_tuple("")] with two fields. *)
Definition debug_pair (pretty : bool) (a b : fmt) : fmt :=
  if pretty
  then fseq (fwrite ("(" ++ eol)) (fseq (fpad (fseq a (fwrite ("," ++ eol))))
         (fseq (fpad (fseq b (fwrite ("," ++ eol)))) (fwrite ")")))
  else fseq (fwrite "(") (fseq a (fseq (fwrite ", ") (fseq b (fwrite ")")))).
End Builders.

(** A call of the user's [Debug::fmt]: on bounds, on a key, on a value.  Of the model only. *)
Inductive shown (B K V : Type) : Type :=
| ShowB (b : B)
| ShowK (k : K)
| ShowV (v : V).
Arguments ShowB {B K V} b. Arguments ShowK {B K V} k. Arguments ShowV {B K V} v.

(** The user's [Debug] for a type: given [{:?}] or [{:#?}], the text written and whether [Ok] is returned.
    (A [Debug] that panics, writes through [&self] or reads other formatter flags is not modelled.) *)
Definition user_debug (T : Type) : Type := bool -> T -> string * bool.

Section Tree.
Context {B K V : Type} (db : user_debug B) (dk : user_debug K) (dv : user_debug V).
Notation fmt := (fmt (shown B K V)).

(** The call of a user's [fmt]; of the model only. *)
Definition user_fmt {T : Type} (d : user_debug T) (tag : T -> shown B K V) (pretty : bool) (x : T) : fmt :=
  Ok (fst (d pretty x), [tag x]%list, snd (d pretty x)).

(** [Debug for (Key, Value)] of [core]; [Debug for [T]] calls it for each entry of a leaf. *)
Definition entry_debug (pretty : bool) (kv : K * V) : fmt :=
  debug_pair pretty (user_fmt dk ShowK pretty (fst kv)) (user_fmt dv ShowV pretty (snd kv)).

(** [Debug for NodeContainer] and [for NodeRef] (node.rs 955-968, 1093-1105), [for NodeChildrenRef] (1220-1232),
    [for InnerNodeChildrenRef] (1132-1141), which formats each child as a [NodeRef] one level lower
    (1187-1207). *)
Fixpoint node_debug (pretty : bool) (level : nat) (n : node B K V) {struct level} : fmt :=
  match level with
  | 0 =>
    let* es := read_leaf (node_children n) in
    debug_struct pretty "Node"
      [("bounds", user_fmt db ShowB pretty (node_bounds n));
       ("node", debug_list pretty (map (entry_debug pretty) es))]
  | S l =>
    let* cs := read_inner (node_children n) in
    debug_struct pretty "Node"
      [("bounds", user_fmt db ShowB pretty (node_bounds n));
       ("node", debug_list pretty (map (node_debug pretty l) cs))]
  end.

(** [#[derive(Debug)] struct RTree { root }] (lib.rs 87-90). *)
Definition rtree_debug (pretty : bool) (t : rtree B K V) : fmt :=
  debug_struct pretty "RTree" [("root", node_debug pretty (fst t) (snd t))].
End Tree.

(** ** The crate's own check that two trees are equal *)
Section AssertEq.
Context {B K V : Type} (keqb : K -> K -> bool) (veqb : V -> V -> bool).

(** [assert!(c)] of [core]. *)
Definition assert (c : bool) : res unit := if c then Ok tt else Panic.

(** [<[(Key, Value)] as PartialEq>::eq] of [core]. *)
Fixpoint entries_eqb (a b : list (K * V)) : bool :=
  match a, b with
  | [], [] => true
  | (k, v) :: a, (k', v') :: b => (keqb k k' && veqb v v') && entries_eqb a b
  | _, _ => false
  end%list.

(** [NodeRef::_debug_assert_eq], [NodeChildrenRef::_debug_assert_eq], [InnerNodeChildrenRef::_debug_assert_eq]
    (node.rs 1070-1078, 1168-1180, 1243-1260). *)
Fixpoint node_assert_eq (level : nat) (n : node B K V) (level' : nat) (n' : node B K V) {struct level} : res unit :=
  let* _ := assert (Nat.eqb level level') in
  match level, level' with
  | 0, 0 =>
    let* es := read_leaf (node_children n) in
    let* es' := read_leaf (node_children n') in
    assert (entries_eqb es es')
  | S l, S l' =>
    let* cs := read_inner (node_children n) in
    let* cs' := read_inner (node_children n') in
    let* _ := assert (Nat.eqb (List.length cs) (List.length cs')) in
    (fix zip (cs cs' : list (node B K V)) : res unit :=
       match cs, cs' with
       | c :: cs, c' :: cs' => let* _ := node_assert_eq l c l' c' in zip cs cs'
       | _, _ => Ok tt
       end%list) cs cs'
  | _, _ => Panic
  end.

(** [RTree::_debug_assert_eq], [NodeContainer::_debug_assert_eq] (lib.rs 344-351, node.rs 919-928). *)
Definition rtree_assert_eq (cfg : config) (t : rtree B K V) (cfg' : config) (t' : rtree B K V) : res unit :=
  let* _ := assert (Nat.eqb (max_children cfg) (max_children cfg') && Nat.eqb (min_children cfg) (min_children cfg')) in
  let* _ := assert (Nat.eqb (fst t) (fst t')) in
  node_assert_eq (fst t) (snd t) (fst t') (snd t').
End AssertEq.

(** ** The crate's own [Debug] implementations for geometry, on [i32] coordinates *)

(** The text of a [fmt] that makes no user calls; of the model only. *)
Definition plain (m : fmt Empty_set) : string * bool := match m with Ok (t, _, o) => (t, o) | _ => ("", false) end.
(** [plain] back as a [fmt]; of the model only. *)
Definition as_fmt (p : string * bool) : fmt Empty_set := Ok (fst p, []%list, snd p).

(** [Debug for i32] of [core]: decimal digits, after a minus sign if negative. *)
Definition i32_debug : user_debug i32 := fun _ x => (NilZero.string_of_int (Z.to_int (i32_val x)), true).

(** [Debug for SVec] (vector.rs 152-159). *)
Definition svec_debug {N : Type} (d : user_debug N) (D : nat) : user_debug (svec N D) := fun pretty v =>
  plain (debug_list pretty (map (fun x => as_fmt (d pretty x)) (vlist v))).

(** [#[derive(Debug)] struct AABB { min, max }] (bounds.rs 44-48). *)
Definition aabb_debug {T : Type} (d : user_debug T) : user_debug (aabb T) := fun pretty b =>
  plain (debug_struct pretty "AABB" [("min", as_fmt (d pretty (bmin b))); ("max", as_fmt (d pretty (bmax b)))]).
