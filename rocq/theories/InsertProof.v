(** The invariant of nodes and its preservation by insertion. *)
From Verif Require Export SplitProof.

Section NodeFacts.
Context {B K V : Type}.
Notation node := (node B K V).

Lemma entries_inner b (cs : list node) : entries (Node b (CInner cs)) = flat_map entries cs.
Proof. reflexivity. Qed.
Lemma entries_leaf b (es : list (K * V)) : entries (Node b (CLeaf es) : node) = es.
Proof. reflexivity. Qed.

Lemma keys_flat_map (cs : list node) : map fst (flat_map entries cs) = flat_map keys cs.
Proof. induction cs as [|c cs IH]; cbn; [reflexivity|]. rewrite map_app, IH. reflexivity. Qed.

Lemma keys_inner b (cs : list node) : keys (Node b (CInner cs)) = flat_map keys cs.
Proof. unfold keys at 1. rewrite entries_inner. apply keys_flat_map. Qed.

Lemma keys_leaf b (es : list (K * V)) : keys (Node b (CLeaf es) : node) = flat_map (fun kv => [fst kv]) es.
Proof. unfold keys. cbn. induction es as [|[k v] es IH]; cbn; congruence. Qed.

Definition entry_entries (e : entry B K V) : list (K * V) :=
  match e with EInner c => entries (snd c) | ELeaf kv => [kv] end.

(** Induction on a node through its children. *)
Lemma node_ind' (R : node -> Prop) :
  (forall b es, R (Node b (CLeaf es))) ->
  (forall b cs, Forall R cs -> R (Node b (CInner cs))) -> forall n, R n.
Proof.
  intros Hl Hi. fix IH 1. intros [b [cs|es]].
  - apply Hi. induction cs as [|c cs IHcs]; constructor; [apply IH|assumption].
  - apply Hl.
Qed.
End NodeFacts.

Section Insert.
Context {B K V : Type} (P : Params B K) (cfg : config).
Context (ok : K -> Prop) (rel : B -> list K -> Prop) (L : rel_laws P ok rel).
Context (lo : nat) (strict : Prop).
Notation node := (node B K V).
Notation cap := (max_children cfg).
Notation minc := (min_children cfg).

(** Least number of children of a non-root node at a level (inner nodes are never empty). *)
Definition lo_at (level : nat) : nat := match level with 0 => lo | S _ => Nat.max 1 lo end.

(** Well-formed node at a level: uniform depth, right bounds, at most [cap] children, valid keys, and (if
    [strict]) enough children in every proper descendant. *)
Fixpoint wf (level : nat) (n : node) : Prop :=
  rel (node_bounds n) (keys n) /\ fanout n <= cap /\
  match level, node_children n with
  | 0, CLeaf es => Forall (fun kv => ok (fst kv)) es
  | S l, CInner cs => Forall (fun c => wf l c /\ (strict -> lo_at l <= fanout c)) cs
  | _, _ => False
  end.

Definition child_ok (l : nat) (c : node) : Prop := wf l c /\ (strict -> lo_at l <= fanout c).

Lemma wf_leaf b es :
  wf 0 (Node b (CLeaf es)) <->
  rel b (map fst es) /\ length es <= cap /\ Forall (fun kv => ok (fst kv)) es.
Proof. reflexivity. Qed.

Lemma wf_inner l b cs :
  wf (S l) (Node b (CInner cs)) <->
  rel b (flat_map keys cs) /\ length cs <= cap /\ Forall (child_ok l) cs.
Proof. cbn [wf]. rewrite keys_inner. reflexivity. Qed.

Lemma wf_inv level n : wf level n ->
  match level with
  | 0 => exists b es, n = Node b (CLeaf es)
  | S l => exists b cs, n = Node b (CInner cs)
  end.
Proof.
  destruct n as [b [cs|es]], level; cbn; intros (_ & _ & H); try contradiction; eauto.
Qed.

Lemma wf_rel level n : wf level n -> rel (node_bounds n) (keys n).
Proof. destruct level; cbn; tauto. Qed.

Lemma wf_ok level n : wf level n -> Forall (fun kv => ok (fst kv)) (entries n).
Proof.
  revert n; induction level as [|l IH]; intros n H.
  - destruct (wf_inv _ _ H) as (b & es & ->). rewrite wf_leaf in H. destruct H as (_ & _ & H). exact H.
  - destruct (wf_inv _ _ H) as (b & cs & ->). rewrite wf_inner in H. destruct H as (_ & _ & H).
    rewrite entries_inner. apply Forall_flat_map. eapply Forall_impl; [|exact H].
    intros c [Hc _]. apply IH, Hc.
Qed.

Lemma children_rel l cs : Forall (child_ok l) cs ->
  rel (b_union_all (bops P) (map node_bounds cs)) (flat_map keys cs).
Proof.
  intros H. rewrite flat_map_concat_map. apply (rel_union_all _ _ _ L).
  induction H as [|c cs [Hc _] _ IH]; constructor; [apply (wf_rel _ _ Hc)|exact IH].
Qed.

Definition entry_ok (e : entry B K V) : Prop :=
  match e with ELeaf kv => ok (fst kv) | EInner c => child_ok (fst c) (snd c) end.

Lemma entry_rel e : entry_ok e -> rel (entry_bounds P e) (map fst (entry_entries e)).
Proof.
  destruct e as [[l c]|[k v]]; cbn.
  - intros [H _]. apply (wf_rel _ _ H).
  - intros H. apply (rel_key _ _ _ L), H.
Qed.

Definition ins_post (level : nat) (n : node) (added : list (K * V)) (r : node * option (container B K V))
  : Prop :=
  let '(n', sib) := r in
  match sib with
  | None => Permutation (entries n') (entries n ++ added) /\ wf level n' /\ fanout n <= fanout n'
  | Some (lv, m) =>
    lv = level /\ Permutation (entries n' ++ entries m) (entries n ++ added)
    /\ wf level n' /\ wf level m /\ (strict -> lo_at level <= fanout n' /\ lo_at level <= fanout m)
  end.

Context (nopanic : Prop) (Hns : nopanic -> strict).
Context (Hcap : nopanic -> 2 <= cap).
Context (Hlo : strict -> lo <= 1 \/ lo <= Nat.min minc (cap - minc)).

Lemma self_insert_spec level n e :
  wf level n -> entry_ok e -> target_level e = level ->
  post (self_insert P cfg level n e) (~ nopanic) (ins_post level n (entry_entries e)).
Proof.
  intros Hwf He Ht.
  assert (Hrel_e := entry_rel e He).
  destruct e as [[el en]|[k v]]; cbn [target_level fst] in Ht.
  - destruct level as [|l]; [lia|]. assert (el = l) by lia. subst el.
    destruct (wf_inv _ _ Hwf) as (b & cs & ->). rewrite wf_inner in Hwf. destruct Hwf as (Hr & Hl & Hcs).
    cbn [entry_ok fst snd] in He. unfold self_insert. cbn [children_at node_children read_inner bind].
    destruct (Nat.eqb_spec (S l - 1) l) as [_|]; [|lia]. cbn [negb].
    unfold try_push. destruct (Nat.eqb_spec (length cs) cap) as [Hfull|Hnf].
    + eapply post_bind2.
      * apply (split_spec P node_bounds ok rel L keys); [exact Hfull|].
        unfold elts_ok. constructor; [apply (wf_rel _ _ (proj1 He))|].
        eapply Forall_impl; [|exact Hcs]. intros c [Hc _]. apply (wf_rel _ _ Hc).
      * intros [[[b1 b2] g1] g2] _ (Hp & H1 & H2 & Hs & Hm & Hr1 & Hr2). cbn [post ins_post].
        assert (Hcs' : Forall (child_ok l) (g1 ++ g2)).
        { eapply Forall_perm; [exact Hp|]. constructor; assumption. }
        apply Forall_app in Hcs' as [Hg1 Hg2]. rewrite !wf_inner.
        split; [reflexivity|]. split.
        { rewrite !entries_inner, <- flat_map_app. rewrite <- (Permutation_flat_map_ entries _ _ Hp). cbn. perm. }
        cbn [fanout node_children]. cbn [lo_at].
        split; [split; [assumption|split; [lia|assumption]]|].
        split; [split; [assumption|split; [lia|assumption]]|].
        intros Hst. destruct (Hlo Hst) as [?|?]; lia.
      * intros Hc0 HS; specialize (Hcap HS); lia.
    + cbn [post ins_post]. rewrite !entries_inner, flat_map_app, wf_inner. cbn [flat_map fanout node_children].
      split; [cbn; perm|]. split; [|rewrite app_length; lia]. split; [|split].
      * rewrite flat_map_app. apply (rel_union _ _ _ L); [exact Hr|]. cbn [flat_map]. rewrite app_nil_r. exact Hrel_e.
      * rewrite app_length; cbn; lia.
      * apply Forall_app; split; [assumption|]. constructor; auto.
  - subst level. destruct (wf_inv _ _ Hwf) as (b & es & ->). rewrite wf_leaf in Hwf. destruct Hwf as (Hr & Hl & Hes).
    cbn [entry_ok fst snd] in He. unfold self_insert. cbn [children_at node_children read_leaf bind].
    unfold try_push. destruct (Nat.eqb_spec (length es) cap) as [Hfull|Hnf].
    + eapply post_bind2.
      * apply (split_spec P _ ok rel L (fun kv : K * V => [fst kv])); [exact Hfull|].
        unfold elts_ok. apply Forall_forall. intros [k' v'] Hin. cbn. apply (rel_key _ _ _ L).
        destruct Hin as [[= <- <-]|Hin]; [exact He|]. exact (proj1 (Forall_forall _ _) Hes (k', v') Hin).
      * intros [[[b1 b2] g1] g2] _ (Hp & H1 & H2 & Hs & Hm & Hr1 & Hr2). cbn [post ins_post].
        assert (Hes' : Forall (fun kv => ok (fst kv)) (g1 ++ g2)).
        { eapply Forall_perm; [exact Hp|]. constructor; assumption. }
        apply Forall_app in Hes' as [Hg1 Hg2]. rewrite !wf_leaf.
        assert (Hmf : forall g : list (K * V), flat_map (fun kv => [fst kv]) g = map fst g)
          by (intros g; induction g as [|? g IHg]; cbn; congruence).
        rewrite !Hmf in *.
        split; [reflexivity|]. split; [rewrite !entries_leaf; cbn; rewrite <- Hp; perm|].
        cbn [fanout node_children]. cbn [lo_at].
        split; [split; [assumption|split; [lia|assumption]]|].
        split; [split; [assumption|split; [lia|assumption]]|].
        intros Hst. destruct (Hlo Hst) as [?|?]; lia.
      * intros Hc0 HS; specialize (Hcap HS); lia.
    + cbn [post ins_post]. rewrite !entries_leaf, wf_leaf. cbn [fanout node_children entry_entries].
      split; [perm|]. rewrite app_length. split; [|lia]. split; [|split].
      * rewrite map_app. apply (rel_union _ _ _ L); [exact Hr|]. exact Hrel_e.
      * cbn [length] in *. lia.
      * apply Forall_app; split; [assumption|]. constructor; auto.
Qed.

Lemma select_spec cs b : cs <> [] -> exists i, select P cs b = Some i /\ i < length cs.
Proof.
  intros H. unfold select.
  destruct (min_by_some (select_cmp P b) (enumerate cs)) as [[i x] E].
  { destruct cs; [congruence|discriminate]. }
  rewrite E. exists i. split; [reflexivity|]. now apply min_by_in, in_enumerate, nth_error_lt in E.
Qed.

Lemma entries_set_nth i (c c' : node) cs :
  nth_error cs i = Some c -> exists rest,
    Permutation (flat_map entries cs) (entries c ++ rest)
    /\ Permutation (flat_map entries (set_nth i c' cs)) (entries c' ++ rest).
Proof.
  intros H. destruct (nth_error_split_set i c c' cs H) as (l1 & l2 & -> & _ & ->).
  exists (flat_map entries l1 ++ flat_map entries l2). rewrite !flat_map_app. cbn [flat_map].
  split; perm.
Qed.

(** The common tail of [node_insert] and [node_insert_unique] after a child took the new entry. *)
Lemma child_inserted_spec l b cs i c c' sib added eb :
  wf (S l) (Node b (CInner cs)) -> nth_error cs i = Some c ->
  ins_post l c added (c', sib) -> rel eb (map fst added) ->
  post (match sib with
        | Some new_child =>
          self_insert P cfg (S l)
            (Node (b_union_all (bops P) (map node_bounds (set_nth i c' cs))) (CInner (set_nth i c' cs)))
            (EInner new_child)
        | None => Ok (Node (b_union (bops P) b eb) (CInner (set_nth i c' cs)), None)
        end) (~ nopanic) (ins_post (S l) (Node b (CInner cs)) added).
Proof.
  intros Hwf Hc Hpost Heb.
  assert (Hwf' := Hwf). rewrite wf_inner in Hwf'. destruct Hwf' as (Hr & Hl & Hcs).
  assert (Hcok : child_ok l c) by (eapply Forall_nth_error; eassumption).
  destruct Hcok as [Hcwf Hclo].
  destruct (entries_set_nth i c c' cs Hc) as (rest & Hp1 & Hp2).
  destruct sib as [[lv m]|]; cbn [ins_post] in Hpost.
  - destruct Hpost as (-> & Hp & Hw1 & Hw2 & Hlos).
    assert (Hcs' : Forall (child_ok l) (set_nth i c' cs)).
    { apply Forall_set_nth; [exact Hcs|]. split; [exact Hw1|]. intros HS; apply Hlos, HS. }
    eapply post_mono; [apply (self_insert_spec (S l))| |]; try tauto.
    + rewrite wf_inner, set_nth_length. split; [now apply (children_rel l)|]. split; assumption.
    + split; [exact Hw2|]. intros HS; apply Hlos, HS.
    + cbn [target_level fst]. lia.
    + intros [n' [[lv' m']|]]; cbn [ins_post fanout node_children entry_entries snd]; rewrite ?entries_inner, ?set_nth_length.
      * intros (-> & Hq & H). split; [reflexivity|]. split; [|exact H].
        rewrite Hq, Hp1, Hp2. transitivity ((entries c' ++ entries m) ++ rest); [perm|]. rewrite Hp. perm.
      * intros (Hq & H). split; [|exact H].
        rewrite Hq, Hp1, Hp2. transitivity ((entries c' ++ entries m) ++ rest); [perm|]. rewrite Hp. perm.
  - destruct Hpost as (Hp & Hw1 & Hf). cbn [post ins_post]. rewrite !entries_inner, wf_inner, set_nth_length.
    assert (Hperm : Permutation (flat_map entries (set_nth i c' cs)) (flat_map entries cs ++ added)).
    { rewrite Hp1, Hp2, Hp. perm. }
    split; [exact Hperm|]. split.
    + split; [|split; [exact Hl|]].
      * eapply (rel_perm _ _ _ L).
        2:{ apply (rel_union _ _ _ L); [exact Hr|]. exact Heb. }
        rewrite <- !keys_flat_map, <- map_app. apply Permutation_map. symmetry. exact Hperm.
      * apply Forall_set_nth; [exact Hcs|]. split; [exact Hw1|]. intros HS. specialize (Hclo HS). lia.
    + cbn. rewrite set_nth_length. lia.
Qed.

Lemma node_insert_spec level n e :
  wf level n -> (nopanic -> level <> 0 -> 1 <= fanout n) -> entry_ok e -> target_level e <= level ->
  post (node_insert P cfg level n e) (~ nopanic) (ins_post level n (entry_entries e)).
Proof.
  revert n; induction level as [|l IH]; intros n Hwf Hne He Ht.
  - cbn [node_insert]. destruct (Nat.eqb_spec (target_level e) 0); [|lia]. cbn [negb].
    apply self_insert_spec; auto.
  - cbn [node_insert]. destruct (Nat.eqb_spec (target_level e) (S l)); cbn [negb].
    { apply self_insert_spec; auto. }
    destruct (wf_inv _ _ Hwf) as (b & cs & ->). cbn [node_children read_inner bind].
    assert (Hwf' := Hwf). rewrite wf_inner in Hwf'. destruct Hwf' as (Hr & Hl & Hcs).
    destruct (Nat.eq_dec (length cs) 0) as [H0|H0].
    { destruct cs; [|discriminate]. cbn. intros HS. specialize (Hne HS ltac:(lia)). cbn in Hne. lia. }
    destruct (select_spec (map node_bounds cs) (entry_bounds P e)) as (i & Ei & Hi).
    { intros E. apply H0. now destruct cs. }
    rewrite Ei. cbn [unwrap bind]. rewrite map_length in Hi.
    destruct (nth_error_exists i cs Hi) as [c Hc]. rewrite Hc. cbn [unwrap bind].
    assert (Hcok : child_ok l c) by (eapply Forall_nth_error; eassumption).
    destruct Hcok as [Hcwf Hclo].
    eapply post_bind.
    { apply IH; [exact Hcwf| |exact He|lia].
      intros HS Hl0. specialize (Hclo (Hns HS)). unfold lo_at in Hclo. destruct l; lia. }
    intros [c' sib] Ec' Hpost. cbn beta iota.
    eapply child_inserted_spec; [exact Hwf|exact Hc|exact Hpost|]. apply entry_rel, He.
Qed.

(** Whole trees. *)
Definition wf_root (t : rtree B K V) : Prop :=
  wf (fst t) (snd t) /\ (nopanic -> fst t <> 0 -> 2 <= fanout (snd t)).

Lemma new_wf : wf_root (rtree_new P).
Proof.
  split; [|intros _ H; now elim H]. cbn. split; [apply (rel_empty _ _ _ L)|]. split; [lia|constructor].
Qed.

Lemma branch_spec level n m :
  wf level n -> wf level m -> (strict -> lo_at level <= fanout n /\ lo_at level <= fanout m) ->
  post (branch P cfg (level, n) (level, m)) (~ nopanic)
    (fun t => Permutation (contents t) (entries n ++ entries m) /\ wf_root t /\ fst t = S level).
Proof.
  intros Hn Hm Hlos. unfold branch. cbn [fst snd]. rewrite Nat.eqb_refl. cbn [negb].
  unfold push. destruct (Nat.eqb_spec (length (@nil node)) cap) as [E|E].
  { cbn in *. intros HS. specialize (Hcap HS). lia. }
  cbn [bind app]. destruct (Nat.eqb_spec (length [n]) cap) as [E'|E'].
  { cbn in *. intros HS. specialize (Hcap HS). lia. }
  cbn [bind post app]. unfold contents, wf_root. cbn [fst snd]. rewrite Nat.add_comm. cbn [plus].
  rewrite wf_inner, entries_inner. cbn [flat_map].
  split; [perm|]. split; [|reflexivity]. split; [|intros; cbn; lia].
  split; [|split].
  - apply (rel_union _ _ _ L); [apply (wf_rel _ _ Hn)|]. rewrite app_nil_r. apply (wf_rel _ _ Hm).
  - cbn in *. lia.
  - constructor; [split; [exact Hn|]|constructor; [split; [exact Hm|]|constructor]]; intros HS; apply Hlos, HS.
Qed.

Lemma insert_entry_spec t e :
  wf_root t -> entry_ok e -> target_level e <= fst t ->
  post (insert_entry P cfg t e) (~ nopanic)
    (fun t' => Permutation (contents t') (contents t ++ entry_entries e) /\ wf_root t' /\ fst t <= fst t').
Proof.
  intros [Hwf Hroot] He Ht. destruct t as [level n]. cbn [fst snd] in *. unfold insert_entry. cbn [fst snd].
  eapply post_bind.
  { apply node_insert_spec; auto. intros HS Hl. specialize (Hroot HS Hl). lia. }
  intros [n' [[lv m]|]] _ Hpost; cbn [ins_post] in Hpost.
  - destruct Hpost as (-> & Hp & Hw1 & Hw2 & Hlos).
    eapply post_mono; [apply branch_spec; eassumption|tauto|].
    intros t' (Hq & Hw & Hl'). unfold contents at 2. cbn [snd fst]. rewrite Hq, Hp. repeat split; try apply Hw; auto. lia.
  - destruct Hpost as (Hp & Hw1 & Hf). cbn [post]. unfold contents, wf_root. cbn [fst snd].
    split; [exact Hp|]. split; [|lia]. split; [exact Hw1|]. intros HS Hl. specialize (Hroot HS Hl). lia.
Qed.
End Insert.
