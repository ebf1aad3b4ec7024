(** Vocabulary of C71: what a debug print should show.  Nothing here mentions formatters or builders. *)
From Verif Require Export Spec DebugModel.
Open Scope string_scope.

Section Shown.
Context {B K V : Type}.

(** What is shown of a node, in order: its bounds, then its entries (key, value) or its children. *)
Fixpoint shown_order (n : node B K V) : list (shown B K V) :=
  match n with
  | Node b (CLeaf es) => (ShowB b :: flat_map (fun kv => [ShowK (fst kv); ShowV (snd kv)]) es)%list
  | Node b (CInner cs) => (ShowB b :: flat_map shown_order cs)%list
  end.

(** The keys and the values among what was shown. *)
Definition shown_keys (l : list (shown B K V)) : list K :=
  flat_map (fun x => match x with ShowK k => [k]%list | _ => []%list end) l.
Definition shown_values (l : list (shown B K V)) : list V :=
  flat_map (fun x => match x with ShowV v => [v]%list | _ => []%list end) l.

(** Whether the user's [Debug] succeeds on a thing shown. *)
Definition show_ok (db : user_debug B) (dk : user_debug K) (dv : user_debug V) (pretty : bool)
    (x : shown B K V) : bool :=
  match x with
  | ShowB b => snd (db pretty b)
  | ShowK k => snd (dk pretty k)
  | ShowV v => snd (dv pretty v)
  end.

(** The text of a tree in terms of the texts of its parts: nested brackets, commas between siblings. *)
Section Text.
Variables (sb : B -> string) (sk : K -> string) (sv : V -> string).
Fixpoint node_text (n : node B K V) : string :=
  match n with
  | Node b (CLeaf es) =>
    "Node { bounds: " ++ sb b ++ ", node: ["
      ++ String.concat ", " (map (fun kv => "(" ++ sk (fst kv) ++ ", " ++ sv (snd kv) ++ ")") es) ++ "] }"
  | Node b (CInner cs) =>
    "Node { bounds: " ++ sb b ++ ", node: [" ++ String.concat ", " (map node_text cs) ++ "] }"
  end.
End Text.
End Shown.

(** The members of a list up to and including the first that fails. *)
Fixpoint until_failure {T : Type} (f : T -> bool) (l : list T) : list T :=
  match l with
  | [] => []%list
  | x :: r => if f x then (x :: until_failure f r)%list else [x]%list
  end.

(** A text can be told from what follows it, if that begins with a comma, a closing bracket or a space; and
    it determines the value. *)
Definition starts_delim (s : string) : Prop :=
  exists c r, s = String c r /\ List.In c [","; ")"; "]"; " "]%char%list.
Definition delimited {T : Type} (show : T -> string) : Prop :=
  forall x y s1 s2, starts_delim s1 -> starts_delim s2 -> show x ++ s1 = show y ++ s2 -> x = y /\ s1 = s2.

(** The same tree but for the node bounds: the same levels and nesting, entries equal one by one. *)
Section Alike.
Context {B K V : Type} (keqb : K -> K -> bool) (veqb : V -> V -> bool).
Inductive alike : node B K V -> node B K V -> Prop :=
| alike_leaf b b' es es' :
    Forall2 (fun x y => keqb (fst x) (fst y) = true /\ veqb (snd x) (snd y) = true) es es' ->
    alike (Node b (CLeaf es)) (Node b' (CLeaf es'))
| alike_inner b b' cs cs' : Forall2 alike cs cs' -> alike (Node b (CInner cs)) (Node b' (CInner cs')).
End Alike.
