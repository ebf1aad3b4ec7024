(** Specification vocabulary for ownership (C27). *)
From Verif Require Export Spec MemModel.

Section Things.
Context {B K V : Type}.
Notation mnode := (mnode B K V).
Notation thing := (thing K V).

(** Everything a node owns: for each node below it the buffer of its vector, and every stored key and value. *)
Definition kv_things (kv : K * V) : list thing := [TKey (fst kv); TVal (snd kv)].

Fixpoint things (n : mnode) : list thing :=
  match n with
  | MNode _ id (CLeaf es) => TBuf id :: flat_map kv_things es
  | MNode _ id (CInner cs) => TBuf id :: flat_map things cs
  end.

(** The node of Model.v: buffers forgotten. *)
Fixpoint forget (n : mnode) : node B K V :=
  match n with
  | MNode b _ (CLeaf es) => Node b (CLeaf es)
  | MNode b _ (CInner cs) => Node b (CInner (map forget cs))
  end.


Definition forget_c (c : mcontainer B K V) : container B K V := (fst c, forget (snd c)).
Definition things_c (c : mcontainer B K V) : list thing := things (snd c).

(** Everything the trees of a program own. *)
Definition forest_things (F : forest B K V) : list thing :=
  flat_map (fun o => match o with Some (_, t) => things_c t | None => [] end) F.

Definition not_buf (x : thing) : Prop := match x with TBuf _ => False | _ => True end.

Definition bufs (l : list thing) : list nat := flat_map (fun x => match x with TBuf i => [i] | _ => [] end) l.
End Things.

(** The same program on the trees of Model.v. *)
Section Plain.
Context {B K V : Type} (P : Params B K).
Definition pforest : Type := list (option (config * rtree B K V)).
Definition forget_forest (F : forest B K V) : pforest := map (option_map (fun ct => (fst ct, forget_c (snd ct)))) F.

Definition ptree_at (F : pforest) (i : nat) : option (config * rtree B K V) :=
  match nth_error F i with Some (Some t) => Some t | _ => None end.

Definition pstep (F : pforest) (o : mop B K V) : res (list (thing K V) * pforest) :=
  match o with
  | MNew cfg => Ok ([], F ++ [Some (cfg, rtree_new P)])
  | MInsert i k v =>
    match ptree_at F i with
    | Some (cfg, t) => let* t := rtree_insert P cfg t k v in Ok ([], set_nth i (Some (cfg, t)) F)
    | None => Ok ([TKey k; TVal v], F)
    end
  | MInsertUnique i k v =>
    match ptree_at F i with
    | Some (cfg, t) => let* (old, t) := rtree_insert_unique P cfg t k v in Ok (the old, set_nth i (Some (cfg, t)) F)
    | None => Ok ([TKey k; TVal v], F)
    end
  | MRemove i Q BR q =>
    match ptree_at F i with
    | Some (cfg, t) => let* (old, t) := rtree_remove P cfg BR t q in Ok (the old, set_nth i (Some (cfg, t)) F)
    | None => Ok ([], F)
    end
  | MReplace i Q BR q v =>
    match ptree_at F i with
    | Some (cfg, t) =>
      let* found := rtree_get_mut P BR t q in
      match found with
      | Some (old, put) => Ok ([TVal old], set_nth i (Some (cfg, put v)) F)
      | None => Ok ([TVal v], F)
      end
    | None => Ok ([TVal v], F)
    end
  | MClone i =>
    match ptree_at F i with
    | Some (cfg, t) => let* t := rtree_clone cfg t in Ok ([], F ++ [Some (cfg, t)])
    | None => Ok ([], F)
    end
  | MDrop i =>
    match ptree_at F i with
    | Some (cfg, t) => let* _ := rtree_drop t in Ok ([], set_nth i None F)
    | None => Ok ([], F)
    end
  end.

Fixpoint prun (F : pforest) (os : list (mop B K V)) : res (list (thing K V) * pforest) :=
  match os with
  | [] => Ok ([], F)
  | o :: os => let* (x, F) := pstep F o in let* (xs, F) := prun F os in Ok (x ++ xs, F)
  end.
End Plain.
Arguments pforest : clear implicits.

(** All configurations used are supported (Spec.v). *)
Definition supported_op {B K V : Type} (o : mop B K V) : Prop :=
  match o with MNew cfg => supported cfg | _ => True end.
