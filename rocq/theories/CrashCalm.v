(** Unwinding from calls that split nothing and let nothing run underfull ([calm] in CrashSpec.v): what the damaged tree
    still satisfies.  A logic of partial correctness is enough here: ownership was dealt with in CrashForest.v. *)
From Verif Require Export CrashForest Wide.

Definition either {A E} (QA : A -> Prop) (QE : E -> Prop) (o : A + E) : Prop := match o with inl a => QA a | inr e => QE e end.

Lemma concat_single {A} (l : list A) : concat (map (fun x => [x]) l) = l.
Proof. induction l as [|x l IH]; cbn; [reflexivity|now rewrite IH]. Qed.

Section PC.
Context {K V : Type}.
Notation D := (D K V).
Notation X := (X K V).
(** Whatever [m] ends with satisfies [Q]. *)
Definition pc {A} (m : D A) (Q : A -> Prop) : Prop := forall s a s', m s = Some (a, s') -> Q a.

Lemma pc_ret {A} (a : A) (Q : A -> Prop) : Q a -> pc (dret a) Q.
Proof. intros H s a' s' [= <- <-]. exact H. Qed.
Lemma pc_true {A} (m : D A) : pc m (fun _ => True).
Proof. intros s a s' _. exact Logic.I. Qed.
Lemma pc_mono {A} (m : D A) (R Q : A -> Prop) : pc m R -> (forall a, R a -> Q a) -> pc m Q.
Proof. intros H HQ s a s' E. exact (HQ _ (H _ _ _ E)). Qed.
Lemma pc_bind {A C} (m : D A) (k : A -> D C) R Q : pc m R -> (forall a, R a -> pc (k a) Q) -> pc (dbind m k) Q.
Proof. intros H Hk s c s' E. unfold dbind in E. destruct (m s) as [[a s1]|] eqn:E1; [|discriminate]. exact (Hk a (H _ _ _ E1) _ _ _ E). Qed.
Lemma pc_seq {A C} (m : D A) (k : A -> D C) Q : (forall a, pc (k a) Q) -> pc (dbind m k) Q.
Proof. intros Hk. eapply pc_bind; [apply pc_true|]. intros a _. apply Hk. Qed.
Lemma pc_undefined {A} (Q : A -> Prop) : pc undefined Q.
Proof. intros s a s' E. discriminate. Qed.
Lemma pc_xbind {A E C E'} (m : X A E) (k : A -> X C E') (h : E -> D E') RA RE QA QE :
  pc m (either RA RE) -> (forall a, RA a -> pc (k a) (either QA QE)) -> (forall e, RE e -> pc (h e) QE) ->
  pc (xbind m k h) (either QA QE).
Proof.
  intros Hm Hk Hh. unfold xbind. eapply pc_bind; [exact Hm|]. intros [a|e] H; [exact (Hk a H)|].
  eapply pc_bind; [exact (Hh e H)|]. intros e' He'. apply pc_ret. exact He'.
Qed.
Lemma pc_user {C E'} crash (k : unit -> X C E') (h : unit -> D E') QA QE :
  pc (k tt) (either QA QE) -> pc (h tt) QE -> pc (xbind (user crash) k h) (either QA QE).
Proof.
  intros Hk Hh. apply pc_xbind with (RA := fun _ => True) (RE := fun _ => True).
  - intros s [u|u] s' _; exact Logic.I.
  - intros [] _. exact Hk.
  - intros [] _. exact Hh.
Qed.
Lemma pc_lift {A C E'} (r : res A) (k : A -> X C E') (h : unit -> D E') QA QE :
  (forall a, r = Ok a -> pc (k a) (either QA QE)) -> pc (h tt) QE -> pc (xbind (dlift r) k h) (either QA QE).
Proof.
  intros Hk Hh. apply pc_xbind with (RA := fun a => r = Ok a) (RE := fun _ => True).
  - destruct r as [a| | |]; cbn [dlift]; try apply pc_undefined; apply pc_ret; [reflexivity|exact Logic.I].
  - exact Hk.
  - intros [] _. exact Hh.
Qed.
Lemma pc_push {T} cap (l : list T) (x : T) : pc (xtry_push cap l x : X (list T) T)
  (either (fun l' => l' = l ++ [x] /\ length l < cap) (fun y => y = x /\ length l = cap)).
Proof.
  intros s o s' E. unfold xtry_push in E. destruct (Nat.eqb_spec (length l) cap); [injection E as <- <-; cbn; auto|].
  destruct (Nat.ltb_spec cap (length l)); [discriminate|]. injection E as <- <-. cbn. split; [reflexivity|lia].
Qed.
End PC.

Section Calm.
Context {B K V : Type} (crash : nat -> bool) (bdrop : bool) (P : Params B K) (cfg : config).
Notation xnode := (xnode B K V).
Notation xcontainer := (xcontainer B K V).
Notation cap := (max_children cfg).
Notation minc := (min_children cfg).
Context (ok : K -> Prop) (rel : B -> list K -> Prop) (L : rel_laws P ok rel) (lo : nat) (strict : Prop).
Notation wf := (wf cfg ok rel lo strict).
Notation child_ok := (child_ok cfg ok rel lo strict).
(** [add]: keys the bounds need not account for. *)
Context (add : K -> Prop) (Hadd : forall k, add k -> ok k).
Context (Hweak : forall b l l', rel b l -> (forall k, In k l' -> In k l \/ add k) -> rel b l').

(** [n'] is what became of [n]: at most [d] elements fewer in a leaf, no other node lost anything. *)
Definition good (d level : nat) (n n' : node B K V) : Prop :=
  wf level n' /\ (forall k, In k (keys n') -> In k (keys n) \/ add k) /\
  (forall i, wide_at level (S i) n -> wide_at level (S i) n') /\
  (level <> 0 -> fanout n' = fanout n) /\ fanout n <= d + fanout n'.

Lemma good_refl d level n : wf level n -> good d level n n.
Proof. intros H. split; [exact H|]. split; [auto|]. split; [auto|]. split; [auto|lia]. Qed.

Lemma keys_set_nth i (c c' : node B K V) cs k : nth_error cs i = Some c ->
  (forall k, In k (keys c') -> In k (keys c) \/ add k) ->
  In k (flat_map keys (set_nth i c' cs)) -> In k (flat_map keys cs) \/ add k.
Proof.
  intros Hi Hk Hin. apply nth_split_mid in Hi as (l1 & l2 & -> & Hset). rewrite Hset in Hin.
  rewrite flat_map_app in *. cbn [flat_map] in *. apply in_app_or in Hin as [Hin|Hin]; [left; apply in_or_app; now left|].
  apply in_app_or in Hin as [Hin|Hin].
  - destruct (Hk k Hin) as [H|H]; [left|now right]. apply in_or_app. right. apply in_or_app. now left.
  - left. apply in_or_app. right. apply in_or_app. now right.
Qed.

(** A child became another, and the bounds are still right. *)
Lemma good_child d d' l b b' (cs : list (node B K V)) i c c' :
  wf (S l) (Node b (CInner cs)) -> nth_error cs i = Some c -> good d l c c' -> (strict -> lo_at lo l <= fanout c') ->
  rel b' (flat_map keys (set_nth i c' cs)) ->
  good d' (S l) (Node b (CInner cs)) (Node b' (CInner (set_nth i c' cs))).
Proof.
  intros Hw Hi (Hc1 & Hc2 & Hc3 & Hc4 & Hc5) Hlo Hb. rewrite wf_inner in Hw. destruct Hw as (Hr & Hl & Hcs).
  split; [|split; [|split; [|split]]].
  - rewrite wf_inner. split; [exact Hb|]. split; [now rewrite set_nth_length|]. apply Forall_set_nth; [exact Hcs|]. now split.
  - intros k. rewrite !keys_inner. now apply keys_set_nth with (c := c).
  - intros j. rewrite !wide_inner, set_nth_length. intros [H|H]; [now left|]. right.
    eapply Exists_set_nth_elim; [exact Hi|exact H|apply Hc3|auto].
  - intros _. cbn [fanout node_children]. apply set_nth_length.
  - cbn [fanout node_children]. rewrite set_nth_length. lia.
Qed.

Lemma good_stale d d' l b (cs : list (node B K V)) i c c' :
  wf (S l) (Node b (CInner cs)) -> nth_error cs i = Some c -> good d l c c' -> (strict -> lo_at lo l <= fanout c') ->
  good d' (S l) (Node b (CInner cs)) (Node b (CInner (set_nth i c' cs))).
Proof.
  intros Hw Hi Hg Hlo. eapply good_child; eauto. assert (Hw' := Hw). rewrite wf_inner in Hw'. destruct Hw' as (Hr & _ & _).
  eapply Hweak; [exact Hr|]. intros k Hk. eapply keys_set_nth; [exact Hi| |exact Hk]. apply Hg.
Qed.

Lemma good_union_all d d' l b (cs : list (node B K V)) i c c' :
  wf (S l) (Node b (CInner cs)) -> nth_error cs i = Some c -> good d l c c' -> (strict -> lo_at lo l <= fanout c') ->
  good d' (S l) (Node b (CInner cs)) (Node (b_union_all (bops P) (map node_bounds (set_nth i c' cs))) (CInner (set_nth i c' cs))).
Proof.
  intros Hw Hi Hg Hlo. eapply good_child; eauto. rewrite wf_inner in Hw. destruct Hw as (_ & _ & Hcs).
  apply (children_rel P cfg ok rel L lo strict l). apply Forall_set_nth; [exact Hcs|]. split; [apply Hg|exact Hlo].
Qed.

Lemma good_union d d' l b (cs : list (node B K V)) i c c' k : add k ->
  wf (S l) (Node b (CInner cs)) -> nth_error cs i = Some c -> good d l c c' -> (strict -> lo_at lo l <= fanout c') ->
  good d' (S l) (Node b (CInner cs)) (Node (b_union (bops P) b (key_bounds P k)) (CInner (set_nth i c' cs))).
Proof.
  intros Hk Hw Hi Hg Hlo. eapply good_child; eauto. assert (Hw' := Hw). rewrite wf_inner in Hw'. destruct Hw' as (Hr & _ & _).
  eapply Hweak; [exact (rel_union _ _ _ L _ _ _ _ Hr (rel_key _ _ _ L k (Hadd k Hk)))|]. intros k' Hk'.
  destruct (keys_set_nth _ _ _ _ _ Hi (proj1 (proj2 Hg)) Hk') as [H|H]; [left; apply in_or_app; now left|now right].
Qed.

Lemma wf_xleaf (n : xnode) : wf 0 (xforget n) -> exists b bid id es, n = XNode b bid id (CLeaf es).
Proof. destruct n as [b bid id [cs|es]]; cbn; [intros (_ & _ & [])|eauto]. Qed.
Lemma wf_xinner l (n : xnode) : wf (S l) (xforget n) -> exists b bid id cs, n = XNode b bid id (CInner cs).
Proof. destruct n as [b bid id [cs|es]]; cbn [xforget InsertProof.wf node_children]; [eauto|intros (_ & _ & [])]. Qed.

Lemma pc_read_inner b bid id (cs : list xnode) : pc (xread_inner bdrop (XNode b bid id (CInner cs))) (fun cs' => cs' = cs).
Proof. unfold xread_inner. apply pc_seq. intros _. apply pc_seq. intros _. now apply pc_ret. Qed.
Lemma pc_read_leaf b bid id (es : list (K * V)) : pc (xread_leaf (XNode b bid id (CLeaf es) : xnode)) (fun es' => es' = es).
Proof. unfold xread_leaf. apply pc_seq. intros _. now apply pc_ret. Qed.
Lemma pc_set_bounds b0 bid0 id (ch : children xnode (K * V)) (b : B) :
  pc (set_bounds bdrop (XNode b0 bid0 id ch) b) (fun n' => exists bid, n' = XNode b bid id ch).
Proof. unfold set_bounds. apply pc_seq. intros _. apply pc_seq. intros bid. apply pc_ret. now exists bid. Qed.

(** *** Removal *)
Section Rem.
Context {Q : Type} (BR : Borrowed B K Q).
Context (Hlo : strict -> lo <= minc).

Lemma lo_spare d l (c c' : node B K V) : d <= 1 -> (strict -> lo_at lo l <= fanout c) -> good d l c c' ->
  minc = 0 \/ minc < fanout c -> strict -> lo_at lo l <= fanout c'.
Proof.
  intros Hd H (_ & _ & _ & H4 & H5) Hm Hs. specialize (H Hs). specialize (Hlo Hs). destruct l as [|l]; cbn [lo_at] in *; [lia|].
  rewrite H4 by lia. exact H.
Qed.

Lemma pc_node_remove level (n : xnode) q : wf level (xforget n) -> xspare cfg level n ->
  pc (xnode_remove crash bdrop P cfg BR level n q)
    (either (fun r => snd r = [] /\ (fst (fst r) = None -> snd (fst r) = n) /\ good 1 level (xforget n) (xforget (snd (fst r))))
            (fun n' => good 1 level (xforget n) (xforget n'))).
Proof.
  revert n; induction level as [|l IH]; intros n Hwf Hsp; cbn [xnode_remove].
  - destruct (wf_xleaf _ Hwf) as (b & bid & id & es & ->). eapply pc_bind; [apply pc_read_leaf|]. intros es' ->.
    assert (Hrefl := good_refl 1 0 _ Hwf).
    apply pc_user; [|now apply pc_ret].
    assert (Hpos := position_spec (fun kv => q_eq BR (borrow BR (fst kv)) q) es).
    destruct (position _ es) as [i|]; [|apply pc_ret; cbn; auto].
    apply pc_lift; [|now apply pc_ret]. intros [kv es'] Es. cbn [fst snd with_ch].
    destruct Hpos as (x & Hx & _). destruct (swap_remove_spec i es) as (y & es2 & Es2 & _ & Hp & _); [eapply nth_error_lt; exact Hx|].
    rewrite Es in Es2. injection Es2 as <- <-.
    assert (Hlen := Permutation_length Hp). cbn [length] in Hlen.
    cbn [xforget] in Hwf. rewrite wf_leaf in Hwf. destruct Hwf as (Hr & Hl & Hok).
    assert (Hok' : Forall (fun kv => ok (fst kv)) es').
    { apply (Forall_perm _ _ _ Hp) in Hok. now inversion Hok. }
    assert (Hsub : forall k, In k (map fst es') -> In k (map fst es)).
    { intros k Hk. apply (Permutation_in _ (Permutation_map fst (Permutation_sym Hp))). now right. }
    assert (Hg : forall b', rel b' (map fst es') -> good 1 0 (Node b (CLeaf es) : node B K V) (Node b' (CLeaf es'))).
    { intros b' Hb'. split; [rewrite wf_leaf; split; [exact Hb'|split; [lia|exact Hok']]|]. split; [intros k Hk; left; now apply Hsub|].
      split; [|split; [congruence|cbn [fanout node_children]; lia]]. intros i0 [[H _]|[]]. discriminate H. }
    apply pc_seq. intros _. apply pc_user.
    + eapply pc_bind; [apply pc_set_bounds|]. intros n' [bid' ->]. apply pc_ret. cbn [either fst snd xforget].
      split; [reflexivity|]. split; [discriminate|]. apply Hg.
      rewrite <- (concat_single (map fst es')). apply (rel_union_all _ _ _ L). clear -Hok' L.
      induction es' as [|e es' IHe]; [constructor|]. inversion Hok'; subst. cbn [map]. constructor; [apply (rel_key _ _ _ L); assumption|auto].
    + apply pc_seq. intros _. apply pc_ret. cbn [xforget]. apply Hg. eapply Hweak; [exact Hr|]. intros k Hk. left. now apply Hsub.
  - destruct (wf_xinner _ _ Hwf) as (b & bid & id & cs & ->). eapply pc_bind; [apply pc_read_inner|]. intros cs' ->.
    assert (Hrefl := good_refl 1 (S l) _ Hwf). cbn [xspare x_children] in Hsp.
    generalize (length cs) as i. induction i as [|i IHi].
    { apply pc_ret. cbn [either fst snd with_ch]. auto. }
    apply pc_lift; [|now apply pc_ret]. intros child Ec. destruct (nth_error cs i) as [c|] eqn:En; [|discriminate Ec]. injection Ec as ->.
    apply pc_user; [|now apply pc_ret].
    destruct (b_intersects _ _ _); [|exact IHi].
    cbn [xforget] in Hwf, Hrefl |- *. assert (Hw' := Hwf). rewrite wf_inner in Hw'. destruct Hw' as (Hr & Hl & Hcs).
    assert (En' : nth_error (map xforget cs) i = Some (xforget child)) by (rewrite nth_error_map_, En; reflexivity).
    assert (Hwc : child_ok l (xforget child)) by (eapply Forall_nth_error; [exact Hcs|exact En']).
    assert (Hsc : (minc = 0 \/ minc < xlen child) /\ xspare cfg l child) by exact (Forall_nth_error _ _ _ _ Hsp En).
    destruct Hsc as [Hsc1 Hsc2]. rewrite <- fanout_xlen in Hsc1.
    eapply pc_xbind; [exact (IH child (proj1 Hwc) Hsc2)| |].
    + intros [[value child'] us] (Hus & Hnone & Hg). cbn [fst snd] in *. subst us.
      assert (Hlc := lo_spare 1 l _ _ (le_n 1) (proj2 Hwc) Hg Hsc1).
      destruct value as [value|].
      2:{ rewrite (Hnone eq_refl). rewrite set_nth_same by exact En. exact IHi. }
      eapply pc_bind with (R := fun len => len = fanout (xforget child')).
      { intros s a s' E. rewrite fanout_xlen. unfold xshallow_len, xlen in *. destruct l, (x_children child'); cbn in E; try discriminate E; injection E as <- <-; reflexivity. }
      intros len ->. destruct (Nat.ltb_spec (fanout (xforget child')) minc) as [Hlt|Hge].
      { exfalso. destruct Hg as (_ & _ & _ & _ & Hg5). lia. }
      apply pc_xbind with (RA := fun r => r = (set_nth i child' cs, [])) (RE := fun _ => False); [apply pc_ret; reflexivity| |intros ? []].
      intros r ->. cbn [with_ch]. apply pc_user.
      * eapply pc_bind; [apply pc_set_bounds|]. intros n' [bid' ->]. apply pc_ret. cbn [either fst snd xforget].
        split; [reflexivity|]. split; [discriminate|]. rewrite map_x_bounds, <- set_nth_map.
        eapply good_union_all; [exact Hwf|exact En'|exact Hg|exact Hlc].
      * apply pc_seq. intros _. apply pc_ret. cbn [xforget]. rewrite <- set_nth_map.
        eapply good_stale; [exact Hwf|exact En'|exact Hg|exact Hlc].
    + intros child' Hg. apply pc_ret. cbn [with_ch xforget]. rewrite <- set_nth_map.
      eapply good_stale; [exact Hwf|exact En'|exact Hg|]. exact (lo_spare 1 l _ _ (le_n 1) (proj2 Hwc) Hg Hsc1).
Qed.

Lemma pc_reinsert_none (root : xcontainer) level m : pc (xreinsert crash bdrop P cfg root level (repeat None m)) (either (fun _ => True) (fun _ => False)).
Proof. revert level. induction m as [|m IH]; intros level; cbn [repeat xreinsert]; [now apply pc_ret|apply IH]. Qed.

Lemma pc_container_remove (t : xcontainer) q : wf (fst t) (xforget (snd t)) -> xspare cfg (fst t) (snd t) ->
  pc (xcontainer_remove crash bdrop P cfg BR t q)
    (either (fun _ => True) (fun t' => fst t' = fst t /\ good 1 (fst t) (xforget (snd t)) (xforget (snd t')))).
Proof.
  intros Hwf Hsp. unfold xcontainer_remove. eapply pc_xbind; [exact (pc_node_remove (fst t) (snd t) q Hwf Hsp)| |].
  - intros [[value n] us] (Hus & _ & Hg). cbn [fst snd] in *. subst us. cbn [xstore_all].
    apply pc_xbind with (RA := fun arr => arr = repeat None (fst t)) (RE := fun _ => False); [apply pc_ret; reflexivity| |intros ? []].
    intros arr ->. destruct value as [value|]; [|now apply pc_ret].
    apply pc_seq. intros root. eapply pc_xbind; [apply pc_reinsert_none| |intros ? []]. intros r _. now apply pc_ret.
  - intros n Hg. apply pc_ret. auto.
Qed.
End Rem.

(** *** Insertion *)
Lemma lo_more l (c c' : node B K V) : (strict -> lo_at lo l <= fanout c) -> good 0 l c c' -> strict -> lo_at lo l <= fanout c'.
Proof. intros H (_ & _ & _ & _ & H5) Hs. specialize (H Hs). lia. Qed.

Definition ins_good (level : nat) (n : xnode) (r : xnode * option xcontainer) : Prop :=
  snd r = None /\ good 0 level (xforget n) (xforget (fst r)).

Lemma pc_self_insert_leaf (n : xnode) k v : add k -> wf 0 (xforget n) -> xroom_all cfg 0 n ->
  pc (xself_insert crash bdrop P cfg 0 n (XELeaf (k, v))) (either (ins_good 0 n) (fun n' => good 0 0 (xforget n) (xforget n'))).
Proof.
  intros Hk Hwf Hroom. destruct (wf_xleaf _ Hwf) as (b & bid & id & es & ->). cbn [xroom_all x_children] in Hroom.
  unfold xself_insert. apply pc_user; [|apply pc_seq; intros _; apply pc_ret; now apply good_refl].
  eapply pc_bind with (R := fun ch => ch = CLeaf es).
  { unfold xchildren_at. eapply pc_bind; [apply pc_read_leaf|]. intros es' ->. now apply pc_ret. }
  intros ch ->. eapply pc_bind; [apply pc_push|]. intros [es'|kv'] H; cbn [either] in H; [|lia]. destruct H as [-> _].
  cbn [with_ch x_bounds]. cbn [xforget] in *. rewrite wf_leaf in Hwf. destruct Hwf as (Hr & Hl & Hok).
  assert (Hg : forall b', rel b' (map fst (es ++ [(k, v)])) -> good 0 0 (Node b (CLeaf es) : node B K V) (Node b' (CLeaf (es ++ [(k, v)])))).
  { intros b' Hb'. split; [rewrite wf_leaf; split; [exact Hb'|split; [rewrite app_length; cbn; lia|]]|].
    - apply Forall_app. split; [exact Hok|]. constructor; [now apply Hadd|constructor].
    - split; [|split; [|split; [congruence|cbn [fanout node_children]; rewrite app_length; lia]]].
      + intros k' Hk'. unfold keys in *. cbn [entries] in *. rewrite map_app in Hk'. apply in_app_or in Hk' as [H|[<-|[]]]; auto.
      + intros i0 [[H _]|[]]. discriminate H. }
  assert (Hk1 : forall k', In k' (map fst (es ++ [(k, v)])) -> In k' (map fst es) \/ add k').
  { intros k' Hk'. rewrite map_app in Hk'. apply in_app_or in Hk' as [H|[<-|[]]]; auto. }
  apply pc_user.
  - eapply pc_bind; [apply pc_set_bounds|]. intros n' [bid' ->]. apply pc_ret. split; [reflexivity|]. cbn [fst xforget x_entry_bounds]. apply Hg.
    rewrite map_app. cbn [map fst]. apply (rel_union _ _ _ L); [exact Hr|apply (rel_key _ _ _ L), Hadd, Hk].
  - apply pc_ret. apply Hg. eapply Hweak; [exact Hr|exact Hk1].
Qed.

Lemma pc_node_insert level (n : xnode) k v : add k -> wf level (xforget n) -> xroom_all cfg level n ->
  pc (xnode_insert crash bdrop P cfg level n (XELeaf (k, v))) (either (ins_good level n) (fun n' => good 0 level (xforget n) (xforget n'))).
Proof.
  intros Hk. revert n; induction level as [|l IH]; intros n Hwf Hroom; cbn [xnode_insert x_target_level].
  - assert (Hrefl := good_refl 0 0 _ Hwf). apply pc_user; [|apply pc_seq; intros _; now apply pc_ret].
    cbn [Nat.eqb negb]. now apply pc_self_insert_leaf.
  - assert (Hrefl := good_refl 0 (S l) _ Hwf). assert (Hab : forall e : xentry B K V, pc (let$ _ := xdrop_entry bdrop e in dret n) (fun n' => good 0 (S l) (xforget n) (xforget n'))).
    { intros e. apply pc_seq. intros _. now apply pc_ret. }
    apply pc_user; [|apply Hab]. cbn [Nat.eqb negb].
    destruct (wf_xinner _ _ Hwf) as (b & bid & id & cs & ->). eapply pc_bind; [apply pc_read_inner|]. intros cs' ->.
    apply pc_user; [|apply Hab]. apply pc_lift; [|apply Hab]. intros i _. apply pc_lift; [|apply Hab].
    intros child Ec. destruct (nth_error cs i) as [c|] eqn:En; [|discriminate Ec]. injection Ec as ->.
    cbn [xroom_all x_children] in Hroom. destruct Hroom as [_ Hroom].
    cbn [xforget] in Hwf, Hrefl |- *. assert (Hw' := Hwf). rewrite wf_inner in Hw'. destruct Hw' as (Hr & Hl & Hcs).
    assert (En' : nth_error (map xforget cs) i = Some (xforget child)) by (rewrite nth_error_map_, En; reflexivity).
    assert (Hwc : child_ok l (xforget child)) by (eapply Forall_nth_error; [exact Hcs|exact En']).
    assert (Hrc : xroom_all cfg l child) by exact (Forall_nth_error _ _ _ _ Hroom En).
    eapply pc_xbind; [exact (IH child (proj1 Hwc) Hrc)| |].
    + intros [child' nc] [Hnc Hg]. cbn [fst snd] in *. subst nc.
      assert (Hlc := lo_more l _ _ (proj2 Hwc) Hg). cbn [with_ch x_bounds x_entry_bounds]. apply pc_user.
      * eapply pc_bind; [apply pc_set_bounds|]. intros n' [bid' ->]. apply pc_ret. split; [reflexivity|]. cbn [fst xforget].
        rewrite <- set_nth_map. eapply good_union; [exact Hk|exact Hwf|exact En'|exact Hg|exact Hlc].
      * apply pc_ret. cbn [xforget]. rewrite <- set_nth_map. eapply good_stale; [exact Hwf|exact En'|exact Hg|exact Hlc].
    + intros child' Hg. apply pc_ret. cbn [with_ch xforget]. rewrite <- set_nth_map.
      eapply good_stale; [exact Hwf|exact En'|exact Hg|]. exact (lo_more l _ _ (proj2 Hwc) Hg).
Qed.

Lemma pc_insert_entry (t : xcontainer) k v : add k -> wf (fst t) (xforget (snd t)) -> xroom_all cfg (fst t) (snd t) ->
  pc (xinsert_entry crash bdrop P cfg t (XELeaf (k, v)))
    (either (fun _ => True) (fun t' => fst t' = fst t /\ good 0 (fst t) (xforget (snd t)) (xforget (snd t')))).
Proof.
  intros Hk Hwf Hroom. unfold xinsert_entry. eapply pc_xbind; [exact (pc_node_insert (fst t) (snd t) k v Hk Hwf Hroom)| |].
  - intros [n sib] [Hs _]. cbn [fst snd] in *. subst sib. now apply pc_ret.
  - intros n Hg. apply pc_ret. auto.
Qed.

(** *** insert_unique *)
Section Get.
Context {Q : Type} (BR : Borrowed B K Q).

Lemma erase_inner (b b' : B) (cs cs' : list (node B K V)) : b = b' -> map erase cs = map erase cs' ->
  erase (Node b (CInner cs)) = erase (Node b' (CInner cs')).
Proof. intros -> H. exact (f_equal (fun x => Node b' (CInner x)) H). Qed.

Lemma entries_put_erase (es : list (K * V)) q v put : entries_get_mut BR es q = Some (v, put) ->
  forall v', map (fun kv => (fst kv, tt)) (put v') = map (fun kv => (fst kv, tt)) es.
Proof.
  intros E v'. assert (H := entries_get_mut_spec BR es q). rewrite E in H. destruct H as (l1 & k & l2 & -> & _ & _ & Hp).
  rewrite Hp. apply map_erase_app.
Qed.

Lemma pc_get_mut level (n : xnode) q : wf level (xforget n) ->
  pc (xnode_get_mut crash bdrop P BR level n q)
    (either (fun r => match r with Some (_, put) => forall v, erase (xforget (put v)) = erase (xforget n) | None => True end) (fun _ => True)).
Proof.
  revert n; induction level as [|l IH]; intros n Hwf; cbn [xnode_get_mut].
  - destruct (wf_xleaf _ Hwf) as (b & bid & id & es & ->). eapply pc_bind; [apply pc_read_leaf|]. intros es' ->.
    apply pc_user; [|now apply pc_ret]. apply pc_ret. cbn [either].
    destruct (entries_get_mut BR es q) as [[v put]|] eqn:E; cbn [option_map fst snd]; [|exact Logic.I].
    intros v'. cbn [with_ch xforget]. exact (f_equal (fun x => Node b (CLeaf x)) (entries_put_erase es q v put E v')).
  - destruct (wf_xinner _ _ Hwf) as (b & bid & id & cs & ->). eapply pc_bind; [apply pc_read_inner|]. intros cs' ->.
    cbn [xforget] in Hwf. rewrite wf_inner in Hwf. destruct Hwf as (_ & _ & Hcs).
    apply pc_xbind with (RE := fun _ => True)
      (RA := fun r => match r with Some (_, put) => forall v : V, map erase (map xforget (put v)) = map erase (map xforget cs) | None => True end).
    2:{ intros r Hr. apply pc_ret. cbn [either]. destruct r as [[v put]|]; cbn [option_map fst snd]; [|exact Logic.I].
        intros v'. cbn [with_ch xforget]. apply erase_inner; [reflexivity|apply Hr]. }
    2:{ intros ? _. apply pc_true. }
    clear b bid id. induction cs as [|c r IHr]; [now apply pc_ret|].
    cbn [map] in Hcs. inversion Hcs as [|? ? Hc Hr]; subst.
    apply pc_user; [|apply pc_true].
    apply pc_xbind with (RE := fun _ => True)
      (RA := fun h => match h with Some (_, put) => forall v : V, erase (xforget (put v)) = erase (xforget c) | None => True end).
    { destruct (b_contains _ _ _); [|now apply pc_ret]. exact (IH c (proj1 Hc)). }
    2:{ intros ? _. apply pc_true. }
    intros [[v put]|] Hh.
    + apply pc_ret. cbn [either]. intros v'. cbn [map]. now rewrite Hh.
    + eapply pc_xbind; [exact (IHr Hr)| |intros ? _; apply pc_true].
      intros [[v put]|] Ht; apply pc_ret; cbn [either option_map fst snd]; [|exact Logic.I]. intros v'. cbn [map]. now rewrite Ht.
Qed.
End Get.

Lemma good_erase d level (n n' : node B K V) : wf level n -> erase n' = erase n -> good d level n n'.
Proof.
  intros Hw E. split; [eapply erase_wf; [symmetry; exact E|exact Hw]|]. rewrite (erase_keys _ _ E), (erase_fanout _ _ E).
  split; [auto|]. split; [|split; [auto|lia]]. intros i. apply erase_wide. now symmetry.
Qed.

Definition insu_good (level : nat) (n : xnode) (r : option V * xnode * option xcontainer) : Prop :=
  snd r = None /\ good 0 level (xforget n) (xforget (snd (fst r))).

Lemma pc_node_insert_unique level (n : xnode) k v : add k -> wf level (xforget n) -> xroom_all cfg level n ->
  pc (xnode_insert_unique crash bdrop P cfg level n k v) (either (insu_good level n) (fun n' => good 0 level (xforget n) (xforget n'))).
Proof.
  intros Hk. revert n; induction level as [|l IH]; intros n Hwf Hroom; cbn [xnode_insert_unique].
  - assert (Hrefl := good_refl 0 0 _ Hwf).
    assert (Hab : pc (let$ _ := drop_kv (k, v) in dret n) (fun n' => good 0 0 (xforget n) (xforget n'))) by (apply pc_seq; intros _; now apply pc_ret).
    assert (Hplain := pc_node_insert 0 n k v Hk Hwf Hroom).
    apply pc_user; [|exact Hab].
    destruct (wf_xleaf _ Hwf) as (b & bid & id & es & ->). eapply pc_bind; [apply pc_read_leaf|]. intros es' ->.
    apply pc_user; [|exact Hab]. destruct (entries_get_mut (self_borrow P) es k) as [[old put]|] eqn:E.
    + apply pc_seq. intros _. apply pc_ret. split; [reflexivity|]. cbn [fst snd with_ch xforget]. apply good_erase; [exact Hwf|].
      exact (f_equal (fun x => Node b (CLeaf x)) (entries_put_erase _ es k old put E v)).
    + eapply pc_xbind; [exact Hplain| |intros n' Hn'; now apply pc_ret]. intros [n' sib] [Hs Hg]. apply pc_ret. split; [exact Hs|exact Hg].
  - assert (Hrefl := good_refl 0 (S l) _ Hwf).
    assert (Hab : pc (let$ _ := drop_kv (k, v) in dret n) (fun n' => good 0 (S l) (xforget n) (xforget n'))) by (apply pc_seq; intros _; now apply pc_ret).
    assert (Hplain : pc (try! (n, sibling) := xnode_insert crash bdrop P cfg (S l) n (XELeaf (k, v)) catch n => dret n in
                         dret (inl (@None V, n, sibling))) (either (insu_good (S l) n) (fun n' => good 0 (S l) (xforget n) (xforget n')))).
    { eapply pc_xbind; [exact (pc_node_insert (S l) n k v Hk Hwf Hroom)| |intros n' Hn'; now apply pc_ret].
      intros [n' sib] [Hs Hg]. apply pc_ret. split; [exact Hs|exact Hg]. }
    apply pc_user; [|exact Hab].
    destruct (wf_xinner _ _ Hwf) as (b & bid & id & cs & ->). eapply pc_bind; [apply pc_read_inner|]. intros cs' ->.
    apply pc_user; [|exact Hab].
    destruct (filter (fun ic => b_contains (bops P) (x_bounds (snd ic)) (key_bounds P k)) (enumerate cs)) as [|[i child] rest] eqn:Ef; [exact Hplain|].
    destruct rest as [|y rest].
    + assert (Hin : In (i, child) (enumerate cs)).
      { assert (H : In (i, child) (filter (fun ic => b_contains (bops P) (x_bounds (snd ic)) (key_bounds P k)) (enumerate cs))) by (rewrite Ef; now left).
        now apply filter_In in H. }
      assert (En : nth_error cs i = Some child) by now apply in_enumerate in Hin.
      cbn [xroom_all x_children] in Hroom. destruct Hroom as [_ Hroom].
      cbn [xforget] in Hwf, Hrefl, Hab |- *. assert (Hw' := Hwf). rewrite wf_inner in Hw'. destruct Hw' as (Hr & Hl & Hcs).
      assert (En' : nth_error (map xforget cs) i = Some (xforget child)) by (rewrite nth_error_map_, En; reflexivity).
      assert (Hwc : child_ok l (xforget child)) by (eapply Forall_nth_error; [exact Hcs|exact En']).
      assert (Hrc : xroom_all cfg l child) by exact (Forall_nth_error _ _ _ _ Hroom En).
      eapply pc_xbind; [exact (IH child (proj1 Hwc) Hrc)| |].
      * intros [[old child'] nc] [Hnc Hg]. cbn [fst snd] in *. subst nc.
        assert (Hlc := lo_more l _ _ (proj2 Hwc) Hg). cbn [with_ch x_bounds]. apply pc_user.
        -- eapply pc_bind; [apply pc_set_bounds|]. intros n' [bid' ->]. apply pc_ret. split; [reflexivity|]. cbn [fst snd xforget].
           rewrite <- set_nth_map. eapply good_union; [exact Hk|exact Hwf|exact En'|exact Hg|exact Hlc].
        -- apply pc_seq. intros _. apply pc_ret. cbn [xforget]. rewrite <- set_nth_map. eapply good_stale; [exact Hwf|exact En'|exact Hg|exact Hlc].
      * intros child' Hg. apply pc_ret. cbn [with_ch xforget]. rewrite <- set_nth_map.
        eapply good_stale; [exact Hwf|exact En'|exact Hg|]. exact (lo_more l _ _ (proj2 Hwc) Hg).
    + clear Ef. eapply pc_xbind; [exact (pc_get_mut (self_borrow P) (S l) (XNode b bid id (CInner cs)) k Hwf)| |intros ? _; exact Hab].
      intros [[old put]|] He; [|exact Hplain]. apply pc_seq. intros _. apply pc_ret. split; [reflexivity|]. cbn [fst snd]. now apply good_erase.
Qed.

Lemma pc_container_insert_unique (t : xcontainer) k v : add k -> wf (fst t) (xforget (snd t)) -> xroom_all cfg (fst t) (snd t) ->
  pc (xcontainer_insert_unique crash bdrop P cfg t k v)
    (either (fun _ => True) (fun t' => fst t' = fst t /\ good 0 (fst t) (xforget (snd t)) (xforget (snd t')))).
Proof.
  intros Hk Hwf Hroom. unfold xcontainer_insert_unique. eapply pc_xbind; [exact (pc_node_insert_unique (fst t) (snd t) k v Hk Hwf Hroom)| |].
  - intros [[old n] sib] [Hs _]. cbn [fst snd] in *. subst sib. now apply pc_ret.
  - intros n Hg. apply pc_ret. auto.
Qed.
End Calm.

(** ** Whole trees *)
Section CalmStep.
Context {B K V : Type} (crash : nat -> bool) (bdrop : bool) (P : Params B K).

Lemma good_more cfg (ok : K -> Prop) (rel : B -> list K -> Prop) (lo : nat) (strict : Prop) (add : K -> Prop) d d' level (n n' : node B K V) :
  d <= d' -> good cfg ok rel lo strict add d level n n' -> good cfg ok rel lo strict add d' level n n'.
Proof. intros H (H1 & H2 & H3 & H4 & H5). split; [exact H1|]. split; [exact H2|]. split; [exact H3|]. split; [exact H4|lia]. Qed.

(** What a calm call that unwinds leaves behind, for any relation between bounds and keys that allows for the key being
    inserted. *)
Definition survives (cfg : config) (o : mop B K V) (t t' : rtree B K V) : Prop :=
  forall (ok : K -> Prop) (rel : B -> list K -> Prop) (lo : nat) (strict : Prop) (add : K -> Prop),
    rel_laws P ok rel -> (forall k, add k -> ok k) ->
    (forall b l l', rel b l -> (forall k, In k l' -> In k l \/ add k) -> rel b l') ->
    (forall k, inserts o k -> add k) -> (strict -> lo <= min_children cfg) ->
    wf cfg ok rel lo strict (fst t) (snd t) -> good cfg ok rel lo strict add 1 (fst t) (snd t) (snd t').

Lemma unwound (F : xforest B K V) (o : mop B K V) s F' s' : fwf bdrop F -> calm o (xforget_forest F) ->
  xstep crash bdrop P F o s = Some (inr F', s') ->
  xforget_forest F' = xforget_forest F \/
  exists i cfg t t', ptree_at (xforget_forest F) i = Some (cfg, t) /\
    xforget_forest F' = set_nth i (Some (cfg, t')) (xforget_forest F) /\ fst t' = fst t /\ survives cfg o t t'.
Proof.
  intros HF Hc E.
  destruct o as [cfg|i k v|i k v|i Q BR q|i Q BR q v|i|i]; cbn [xstep calm] in *.
  - left. unfold xbind, dbind in E. destruct (xnew_leaf crash bdrop P s) as [[[t|u] s1]|]; cbn in E; [discriminate E| |discriminate E]. now injection E as <- <-.
  - rewrite xtree_at_forget in Hc. destruct (xtree_at F i) as [[cfg t]|] eqn:Et; [|discriminate E]. cbn [option_map fst snd] in Hc. specialize (Hc _ _ eq_refl).
    right. unfold xbind, dbind in E. destruct (xinsert_entry crash bdrop P cfg t (XELeaf (k, v)) s) as [[[t1|t1] s1]|] eqn:E1; cbn in E; [discriminate E| |discriminate E].
    injection E as <- <-. exists i, cfg, (xforget_c t), (xforget_c t1). rewrite xtree_at_forget, Et, xforget_set. split; [reflexivity|]. split; [reflexivity|].
    assert (Hroom := roomy_xroom_all cfg (fst t) (snd t) Hc). destruct (fwf_at bdrop F i cfg t HF Et) as [Hw _]. split.
    + exact (proj1 (pc_insert_entry crash bdrop P cfg any_key rel_any (any_laws P _) 0 False (fun _ => True) (fun _ _ => Logic.I)
        (fun _ _ _ _ _ => Logic.I) t k v Logic.I (xwf_wf _ _ _ Hw) Hroom _ _ _ E1)).
    + intros ok rel lo strict add L Hadd Hweak Hins Hlo Hwf. apply (good_more _ _ _ _ _ _ 0 1); [lia|].
      exact (proj2 (pc_insert_entry crash bdrop P cfg ok rel L lo strict add Hadd Hweak t k v (Hins k eq_refl) Hwf Hroom _ _ _ E1)).
  - rewrite xtree_at_forget in Hc. destruct (xtree_at F i) as [[cfg t]|] eqn:Et; [|discriminate E]. cbn [option_map fst snd] in Hc. specialize (Hc _ _ eq_refl).
    right. unfold xbind, dbind in E. destruct (xcontainer_insert_unique crash bdrop P cfg t k v s) as [[[[old t1]|t1] s1]|] eqn:E1; cbn in E; [discriminate E| |discriminate E].
    injection E as <- <-. exists i, cfg, (xforget_c t), (xforget_c t1). rewrite xtree_at_forget, Et, xforget_set. split; [reflexivity|]. split; [reflexivity|].
    assert (Hroom := roomy_xroom_all cfg (fst t) (snd t) Hc). destruct (fwf_at bdrop F i cfg t HF Et) as [Hw _]. split.
    + exact (proj1 (pc_container_insert_unique crash bdrop P cfg any_key rel_any (any_laws P _) 0 False (fun _ => True) (fun _ _ => Logic.I)
        (fun _ _ _ _ _ => Logic.I) t k v Logic.I (xwf_wf _ _ _ Hw) Hroom _ _ _ E1)).
    + intros ok rel lo strict add L Hadd Hweak Hins Hlo Hwf. apply (good_more _ _ _ _ _ _ 0 1); [lia|].
      exact (proj2 (pc_container_insert_unique crash bdrop P cfg ok rel L lo strict add Hadd Hweak t k v (Hins k eq_refl) Hwf Hroom _ _ _ E1)).
  - rewrite xtree_at_forget in Hc. destruct (xtree_at F i) as [[cfg t]|] eqn:Et; [|discriminate E]. cbn [option_map fst snd] in Hc. specialize (Hc _ _ eq_refl).
    right. unfold xbind, dbind in E. destruct (xcontainer_remove crash bdrop P cfg BR t q s) as [[[[old t1]|t1] s1]|] eqn:E1; cbn in E; [discriminate E| |discriminate E].
    injection E as <- <-. exists i, cfg, (xforget_c t), (xforget_c t1). rewrite xtree_at_forget, Et, xforget_set. split; [reflexivity|]. split; [reflexivity|].
    assert (Hsp := spare_xspare cfg (fst t) (snd t) Hc). destruct (fwf_at bdrop F i cfg t HF Et) as [Hw _]. split.
    + exact (proj1 (pc_container_remove crash bdrop P cfg any_key rel_any (any_laws P _) 0 False (fun _ => True)
        (fun _ _ _ _ _ => Logic.I) BR (fun H => False_ind _ H) t q (xwf_wf _ _ _ Hw) Hsp _ _ _ E1)).
    + intros ok rel lo strict add L Hadd Hweak Hins Hlo Hwf.
      exact (proj2 (pc_container_remove crash bdrop P cfg ok rel L lo strict add Hweak BR Hlo t q Hwf Hsp _ _ _ E1)).
  - left. destruct (xtree_at F i) as [[cfg t]|] eqn:Et; [|discriminate E]. unfold xbind, dbind in E.
    destruct (xnode_get_mut crash bdrop P BR (fst t) (snd t) q s) as [[[r|u] s1]|] eqn:E1; cbn in E; [destruct r as [[old put]|]; discriminate E| |discriminate E].
    now injection E as <- <-.
  - left. destruct (xtree_at F i) as [[cfg t]|] eqn:Et; [|discriminate E]. unfold xbind, dbind in E.
    destruct (xtree_clone crash bdrop cfg t s) as [[[t1|u] s1]|] eqn:E1; cbn in E; [discriminate E| |discriminate E].
    now injection E as <- <-.
  - destruct (xtree_at F i) as [[cfg t]|] eqn:Et; [|discriminate E]. unfold dbind in E.
    destruct (xdrop_container bdrop t s) as [[u s1]|] eqn:E1; [|discriminate E]. discriminate E.
Qed.
End CalmStep.

(** ** Invariants of the trees *)
Section Inv.
Context {B K V : Type} (crash : nat -> bool) (bdrop : bool) (P : Params B K).
(** The calls [okop] lets the program make keep [I]. *)
Record keeps (okop : mop B K V -> Prop) (I : config -> rtree B K V -> Prop) : Prop := {
  keeps_new : forall cfg, okop (MNew cfg) -> I cfg (rtree_new P);
  keeps_insert : forall i cfg t k v t', okop (MInsert i k v) -> I cfg t -> rtree_insert P cfg t k v = Ok t' -> I cfg t';
  keeps_insert_unique : forall i cfg t k v old t', okop (MInsertUnique i k v) -> I cfg t ->
    rtree_insert_unique P cfg t k v = Ok (old, t') -> I cfg t';
  keeps_remove : forall cfg t Q (BR : Borrowed B K Q) q old t', I cfg t -> rtree_remove P cfg BR t q = Ok (old, t') -> I cfg t';
  keeps_values : forall cfg t t', I cfg t -> same_but_values t t' -> I cfg t'
}.
Definition slot_inv (I : config -> rtree B K V -> Prop) (x : option (config * rtree B K V)) : Prop :=
  match x with Some (cfg, t) => I cfg t | None => True end.

Lemma slot_at I (F : pforest B K V) i cfg t : Forall (slot_inv I) F -> ptree_at F i = Some (cfg, t) -> I cfg t.
Proof.
  intros HF. unfold ptree_at. destruct (nth_error F i) as [[ct|]|] eqn:E; intros [= ->].
  apply nth_error_In in E. rewrite Forall_forall in HF. exact (HF _ E).
Qed.

Lemma pstep_keeps okop I (F : pforest B K V) o x F' : keeps okop I -> okop o -> Forall (slot_inv I) F ->
  (forall i cfg t, ptree_at F i = Some (cfg, t) -> wf cfg any_key rel_any 0 False (fst t) (snd t)) ->
  pstep P F o = Ok (x, F') -> Forall (slot_inv I) F'.
Proof.
  intros HK Ho HF Hw E. destruct o as [cfg|i k v|i k v|i Q BR q|i Q BR q v|i|i]; cbn [pstep] in E;
    try (destruct (ptree_at F i) as [[cfg t]|] eqn:Et; [|injection E as _ <-; exact HF];
         assert (Hi := slot_at I F i cfg t HF Et); assert (Hwt := Hw i cfg t Et)).
  - injection E as _ <-. apply Forall_app. split; [exact HF|]. constructor; [|constructor]. exact (keeps_new _ _ HK cfg Ho).
  - destruct (rtree_insert P cfg t k v) as [t'| | |] eqn:E1; cbn [bind] in E; try discriminate E. injection E as _ <-.
    apply Forall_set; [exact HF|]. exact (keeps_insert _ _ HK i cfg t k v t' Ho Hi E1).
  - destruct (rtree_insert_unique P cfg t k v) as [[old t']| | |] eqn:E1; cbn [bind] in E; try discriminate E. injection E as _ <-.
    apply Forall_set; [exact HF|]. exact (keeps_insert_unique _ _ HK i cfg t k v old t' Ho Hi E1).
  - destruct (rtree_remove P cfg BR t q) as [[old t']| | |] eqn:E1; cbn [bind] in E; try discriminate E. injection E as _ <-.
    apply Forall_set; [exact HF|]. exact (keeps_remove _ _ HK cfg t Q BR q old t' Hi E1).
  - destruct (node_get_mut_spec P BR cfg any_key rel_any 0 False False ltac:(tauto) (fst t) (snd t) q Hwt) as (r & E1 & _ & He).
    unfold rtree_get_mut in E. rewrite E1 in E. cbn [bind] in E.
    destruct r as [[old put]|]; cbn [option_map fst snd] in E; injection E as _ <-; [|exact HF].
    apply Forall_set; [exact HF|]. apply (keeps_values _ _ HK cfg t); [exact Hi|]. split; [reflexivity|]. cbn [snd]. now rewrite He.
  - unfold rtree_clone in E. rewrite (clone_node_spec _ _ _ _ _ _ _ Hwt) in E. cbn [bind] in E. injection E as _ <-.
    apply Forall_app. split; [exact HF|]. constructor; [|constructor]. cbn [slot_inv]. destruct t; exact Hi.
  - destruct (drop_node_spec _ _ _ _ _ _ _ Hwt) as (l & E1 & _). unfold rtree_drop in E. rewrite E1 in E. cbn [bind] in E.
    injection E as _ <-. apply Forall_set; [exact HF|exact Logic.I].
Qed.

(** Programs whose panicking calls were all calm and [panicked o] keep an invariant that survives those. *)
Definition calm_program (panicked : mop B K V -> Prop) (os : list (mop B K V)) : Prop :=
  forall os1 o os2 outs1 F1 s1 F2 s2, os = os1 ++ o :: os2 -> xrun crash bdrop P [] os1 xinit = Some ((outs1, F1), s1) ->
     xstep crash bdrop P F1 o s1 = Some (inr F2, s2) -> calm o (xforget_forest F1) /\ panicked o.

Lemma calm_program_init panicked os1 os2 : calm_program panicked (os1 ++ os2) -> calm_program panicked os1.
Proof.
  intros H os3 o os4 outs1 F1 s1 F2 s2 -> E1 E2. apply (H os3 o (os4 ++ os2) outs1 F1 s1 F2 s2); auto. now rewrite <- app_assoc.
Qed.

Lemma calm_inv (okop panicked : mop B K V -> Prop) (I : config -> rtree B K V -> Prop) (os : list (mop B K V)) outs F s : keeps okop I ->
  (forall cfg o t t', okop o -> panicked o -> I cfg t -> fst t' = fst t -> survives P cfg o t t' -> I cfg t') ->
  Forall (unwind_ok bdrop) os -> Forall okop os -> calm_program panicked os ->
  xrun crash bdrop P [] os xinit = Some ((outs, F), s) -> Forall (slot_inv I) (xforget_forest F).
Proof.
  intros HK Hsurv. revert outs F s. induction os as [|o os IH] using rev_ind; intros outs F s Hu Hok Hcalm E.
  - cbn in E. injection E as <- <- <-. constructor.
  - assert (Hu0 := Hu). apply Forall_app in Hu0 as [Hu0 Hu1]. apply Forall_app in Hok as [Hok Hok1].
    apply Forall_inv in Hok1. apply Forall_inv in Hu1.
    destruct (xrun_app _ _ _ _ _ _ _ _ _ _ E) as (outs1 & outs2 & F1 & s1 & -> & E1 & E2).
    assert (HI := IH outs1 F1 s1 Hu0 Hok (calm_program_init _ _ _ Hcalm) E1).
    destruct (xrun_init crash bdrop P os [o] Hu0) as (outs' & F' & s' & lost & E' & HF & _ & Ho & _).
    rewrite E1 in E'. injection E' as <- <- <-.
    cbn [xrun] in E2. unfold dbind in E2. destruct (xstep crash bdrop P F1 o s1) as [[[[x F2]|F2] s2]|] eqn:E3; [| |discriminate E2].
    + cbn in E2. injection E2 as <- <- <-.
      destruct (xstep_spec0 crash bdrop (flat_map xgiven (os ++ [o])) P F1 o HF Hu1 s1 (got_back outs1 ++ lost)) as (r & s3 & E4 & _ & HR).
      { eapply xown_perm; [|exact Ho]. cbn [flat_map]. perm. }
      rewrite E3 in E4. injection E4 as <- <-. destruct HR as (Hr & _ & _). unfold xout in Hr. cbn [fst snd] in Hr.
      eapply pstep_keeps; [exact HK|exact Hok1|exact HI| |exact Hr]. intros i cfg t. apply (fwf_wf bdrop F1 i cfg t HF).
    + cbn in E2. injection E2 as <- <- <-. destruct (Hcalm os o [] outs1 F1 s1 F2 s2 eq_refl E1 E3) as [Hc Hp].
      destruct (unwound crash bdrop P F1 o s1 F2 s2 HF Hc E3) as [->|(i & cfg & t & t' & Et & -> & Ef & Hs)]; [exact HI|].
      apply Forall_set; [exact HI|]. exact (Hsurv cfg o t t' Hok1 Hp (slot_at I _ i cfg t HI Et) Ef Hs).
Qed.
End Inv.
