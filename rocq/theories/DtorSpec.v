(** Specification vocabulary for dropping a tree whose destructors panic (C72, C73). *)
From Verif Require Export CrashSpec DtorModel.

Section DtorSpec.
Context {B K V : Type} (crash : nat -> bool) (bdrop : bool).
Notation xnode := (xnode B K V).
Notation xthing := (xthing K V).

(** What is destroyed together: the key and the value of an entry, the bounds of a node, a vector.  The vector of a node goes
    after everything in it; entries go last to first; of an inner node first what the children own goes, first to last, then
    the bounds of the children, last to first. *)
Fixpoint units (n : xnode) : list (list xthing) :=
  match n with
  | XNode _ _ id (CLeaf es) => map xkv_things (rev es) ++ [[XBuf id]]
  | XNode _ _ id (CInner cs) => flat_map units cs ++ map (fun c => bnd_things bdrop (x_bid c)) (rev cs) ++ [[XBuf id]]
  end.
(** The bounds of the root go last. *)
Definition all_units (t : xcontainer B K V) : list (list xthing) := units (snd t) ++ [bnd_things bdrop (x_bid (snd t))].

(** How many destructors (of keys, values and bounds) destroying [l] calls. *)
Definition dtors (l : list xthing) : nat := length (filter (fun x => match x with XBuf _ => false | _ => true end) l).
(** How many of the [n] calls from number [c] on panic. *)
Definition panics_among (c n : nat) : nat := length (filter crash (seq c n)).

(** [d] was destroyed, in this order, and nothing else happened but the calls of the destructors. *)
Definition destroyed (d : list xthing) (s s' : xmem K V) : Prop :=
  x_next s' = x_next s /\ x_made s' = x_made s /\ x_gone s' = rev d ++ x_gone s /\ x_calls s' = x_calls s + dtors d.
End DtorSpec.
