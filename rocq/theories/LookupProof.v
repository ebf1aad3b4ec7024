(** Lookups: get, get_mut, insert_unique. *)
From Verif Require Export InsertProof.

(** ** Erasing values *)
Section Erase.
Context {B K V W : Type} (f : V -> W).
Notation node := (node B K V).

Lemma map_node_entries (n : node) :
  entries (map_node f n) = map (fun kv => (fst kv, f (snd kv))) (entries n).
Proof.
  induction n as [b es|b cs IH] using node_ind'; [reflexivity|].
  cbn [map_node]. rewrite !entries_inner.
  induction IH as [|c cs Hc _ IHcs]; cbn [map flat_map]; [reflexivity|].
  rewrite map_app, Hc, IHcs. reflexivity.
Qed.

Lemma map_node_keys (n : node) : keys (map_node f n) = keys n.
Proof. unfold keys. rewrite map_node_entries, map_map. reflexivity. Qed.

Lemma map_node_fanout (n : node) : fanout (map_node f n) = fanout n.
Proof. destruct n as [b [cs|es]]; cbn; apply map_length. Qed.

Lemma map_node_bounds (n : node) : node_bounds (map_node f n) = node_bounds n.
Proof. destruct n as [b [cs|es]]; reflexivity. Qed.

Lemma map_node_wf cfg ok rel lo strict level (n : node) :
  wf cfg ok rel lo strict level (map_node f n) <-> wf cfg ok rel lo strict level n.
Proof.
  revert n; induction level as [|l IH]; intros n; cbn [wf];
    rewrite map_node_keys, map_node_fanout, map_node_bounds; destruct n as [b [cs|es]]; cbn [map_node node_children];
    try reflexivity.
  - rewrite !Forall_forall.
    assert (E : (forall x, In x (map (fun kv : K * V => (fst kv, f (snd kv))) es) -> ok (fst x))
                <-> (forall x, In x es -> ok (fst x))).
    { split; intros H x Hx.
      - apply (in_map (fun kv : K * V => (fst kv, f (snd kv)))) in Hx. apply (H _ Hx).
      - apply in_map_iff in Hx as ([k v] & <- & Hx). apply (H _ Hx). }
    rewrite E. reflexivity.
  - rewrite !Forall_forall.
    assert (E : (forall x, In x (map (map_node f) cs) ->
                   wf cfg ok rel lo strict l x /\ (strict -> lo_at lo l <= fanout x)) <->
                (forall x, In x cs -> wf cfg ok rel lo strict l x /\ (strict -> lo_at lo l <= fanout x))).
    { split; intros H x Hx.
      - apply (in_map (map_node f)) in Hx. specialize (H _ Hx). now rewrite IH, map_node_fanout in H.
      - apply in_map_iff in Hx as (c & <- & Hx). rewrite IH, map_node_fanout. apply (H _ Hx). }
    rewrite E. reflexivity.
Qed.
End Erase.

Lemma erase_wf {B K V} cfg ok rel lo strict level (n n' : node B K V) :
  erase n = erase n' -> wf cfg ok rel lo strict level n -> wf cfg ok rel lo strict level n'.
Proof.
  unfold erase. intros E H.
  apply (map_node_wf (fun _ => tt)) in H. rewrite E in H. now apply map_node_wf in H.
Qed.

Lemma erase_fanout {B K V} (n n' : node B K V) : erase n = erase n' -> fanout n = fanout n'.
Proof.
  intros E. rewrite <- (map_node_fanout (fun _ => tt) n), <- (map_node_fanout (fun _ => tt) n').
  unfold erase in E. now rewrite E.
Qed.

Lemma erase_keys {B K V} (n n' : node B K V) : erase n = erase n' -> keys n = keys n'.
Proof.
  intros E. rewrite <- (map_node_keys (fun _ => tt) n), <- (map_node_keys (fun _ => tt) n').
  unfold erase in E. now rewrite E.
Qed.

(** ** get and get_mut *)
Section Get.
Context {B K V : Type} (P : Params B K).
Context {Q : Type} (BR : Borrowed B K Q).
Notation node := (node B K V).
Notation matches q := (fun kv : K * V => q_eq BR (borrow BR (fst kv)) q).

Lemma entries_get_mut_get es q :
  option_map fst (entries_get_mut BR es q) = option_map snd (find (matches q) es).
Proof.
  induction es as [|[k v] es IH]; cbn [entries_get_mut find fst]; [reflexivity|].
  destruct (q_eq BR (borrow BR k) q); [reflexivity|]. rewrite <- IH. now destruct (entries_get_mut BR es q) as [[? ?]|].
Qed.

(** The two lookups agree on every tree whatsoever. *)
Lemma node_get_get_mut level (n : node) q :
  node_get P BR level n q = (let* r := node_get_mut P BR level n q in Ok (option_map fst r)).
Proof.
  revert n; induction level as [|l IH]; intros n; cbn [node_get node_get_mut].
  - destruct (read_leaf _) as [es| | |]; cbn [bind]; try reflexivity.
    rewrite <- entries_get_mut_get. now destruct (entries_get_mut BR es q) as [[? ?]|].
  - destruct (read_inner _) as [cs| | |]; cbn [bind]; try reflexivity.
    set (G := (fix loop (cs0 : list node) : res (option V) := _)).
    set (M := (fix loop (cs0 : list node) : res (option (V * (V -> list node))) := _)).
    assert (E : G cs = (let* r := M cs in Ok (option_map fst r))).
    { induction cs as [|c cs IHcs]; [reflexivity|]. cbn [G M].
      destruct (b_contains _ _ _).
      - rewrite IH. destruct (node_get_mut P BR l c q) as [[[v put]|]| | |]; cbn [bind option_map fst]; try reflexivity.
        fold G M. rewrite IHcs. now destruct (M cs) as [[[v put]|]| | |].
      - cbn [bind]. fold G M. rewrite IHcs. now destruct (M cs) as [[[v put]|]| | |]. }
    rewrite E. now destruct (M cs) as [[[v put]|]| | |].
Qed.

Context (cfg : config) (ok : K -> Prop) (rel : B -> list K -> Prop) (lo : nat) (strict : Prop).
(** [complete]: pruning by [contains] never hides an equal key. *)
Context (complete : Prop).
Context (Hcomplete : complete -> forall b l k q, rel b l -> In k l -> ok k ->
           q_eq BR (borrow BR k) q = true -> b_contains (bops P) b (q_bounds BR q) = true).
Notation wf := (wf cfg ok rel lo strict).

(** Outcome of a mutable lookup in a list of entries [es]; [get] reads the entries of what is put back. *)
Definition lookup_post {N} (ents : N -> list (K * V)) (es : list (K * V)) (q : Q) (r : option (V * (V -> N)))
  : Prop :=
  match r with
  | None => complete -> find (matches q) es = None
  | Some (v, put) =>
    exists l1 k l2, es = l1 ++ (k, v) :: l2 /\ q_eq BR (borrow BR k) q = true
      /\ (complete -> forall y, In y l1 -> matches q y = false)
      /\ forall v', ents (put v') = l1 ++ (k, v') :: l2
  end.

Lemma entries_get_mut_spec es q :
  match entries_get_mut BR es q with
  | None => find (matches q) es = None
  | Some (v, put) =>
    exists l1 k l2, es = l1 ++ (k, v) :: l2 /\ q_eq BR (borrow BR k) q = true
      /\ (forall y, In y l1 -> matches q y = false)
      /\ forall v', put v' = l1 ++ (k, v') :: l2
  end.
Proof.
  induction es as [|[k v] es IH]; cbn [entries_get_mut find fst]; [reflexivity|].
  destruct (q_eq BR (borrow BR k) q) eqn:E.
  - exists [], k, es. cbn. intuition.
  - destruct (entries_get_mut BR es q) as [[v0 put]|]; cbn [option_map fst snd]; [|exact IH].
    destruct IH as (l1 & k0 & l2 & -> & Hk & Hl & Hput).
    exists ((k, v) :: l1), k0, l2. repeat split; auto.
    + intros y [<-|Hy]; auto.
    + intros v'. rewrite Hput. reflexivity.
Qed.

Lemma map_erase_app (l1 l2 : list (K * V)) k v v' :
  map (fun kv => (fst kv, tt)) (l1 ++ (k, v) :: l2) = map (fun kv => (fst kv, tt)) (l1 ++ (k, v') :: l2).
Proof. rewrite !map_app. reflexivity. Qed.

Lemma node_get_mut_spec level n q :
  wf level n ->
  exists r, node_get_mut P BR level n q = Ok r /\ lookup_post entries (entries n) q r
    /\ match r with Some (_, put) => forall v', erase (put v') = erase n | None => True end.
Proof.
  revert n; induction level as [|l IH]; intros n Hwf; cbn [node_get_mut].
  - destruct (wf_inv _ _ _ _ _ _ _ Hwf) as (b & es & ->). cbn [node_children read_leaf bind].
    eexists; split; [reflexivity|]. rewrite entries_leaf.
    assert (H := entries_get_mut_spec es q). destruct (entries_get_mut BR es q) as [[v put]|]; cbn [option_map fst snd lookup_post].
    + destruct H as (l1 & k & l2 & E & Hk & Hl & Hput). split.
      * exists l1, k, l2. repeat split; auto.
      * intros v'. unfold erase. cbn [node_bounds map_node]. rewrite Hput, E. do 2 f_equal. apply map_erase_app.
    + auto.
  - destruct (wf_inv _ _ _ _ _ _ _ Hwf) as (b & cs & ->). cbn [node_children read_inner bind].
    rewrite wf_inner in Hwf. destruct Hwf as (_ & _ & Hcs). rewrite entries_inner.
    set (M := (fix loop (cs0 : list node) : res (option (V * (V -> list node))) := _)).
    assert (E : exists r, M cs = Ok r /\ lookup_post (flat_map entries) (flat_map entries cs) q r
              /\ match r with Some (_, put) => forall v', map erase (put v') = map erase cs | None => True end).
    { induction Hcs as [|c cs [Hc _] Hcs IHcs]; [eexists; split; [reflexivity|]; split; [cbn; reflexivity|exact I]|].
      destruct IHcs as (r2 & E2 & Hr2 & He2). cbn [M].
      assert (H1 : exists r1, (if b_contains (bops P) (node_bounds c) (q_bounds BR q)
                               then node_get_mut P BR l c q else Ok None) = Ok r1
                    /\ lookup_post entries (entries c) q r1
                    /\ match r1 with Some (_, put) => forall v', erase (put v') = erase c | None => True end).
      { destruct (b_contains _ _ _) eqn:Eb; [apply IH, Hc|].
        exists None. split; [reflexivity|]. split; [|exact I]. intros HC. apply find_none_iff. intros [k v] Hin. cbn.
        destruct (q_eq BR (borrow BR k) q) eqn:Eq; [|reflexivity].
        rewrite <- Eb. symmetry. apply (Hcomplete HC _ (keys c) k).
        - apply (wf_rel _ _ _ _ _ _ _ Hc).
        - apply (in_map fst) in Hin. exact Hin.
        - assert (Hok := wf_ok _ _ _ _ _ _ _ Hc). rewrite Forall_forall in Hok. apply (Hok _ Hin).
        - exact Eq. }
      destruct H1 as (r1 & -> & Hr1 & He1). cbn [bind].
      destruct r1 as [[v put]|].
      - eexists; split; [reflexivity|]. cbn [lookup_post] in Hr1 |- *.
        destruct Hr1 as (l1 & k & l2 & E & Hk & Hl & Hput). cbn [flat_map]. split.
        + exists l1, k, (l2 ++ flat_map entries cs). rewrite E, <- app_assoc. repeat split; auto.
          intros v'. cbn [flat_map]. now rewrite Hput, <- app_assoc.
        + intros v'. cbn [map]. now rewrite He1.
      - fold M. rewrite E2. cbn [bind]. eexists; split; [reflexivity|].
        destruct r2 as [[v put]|]; cbn [option_map fst snd lookup_post] in *.
        + destruct Hr2 as (l1 & k & l2 & E & Hk & Hl & Hput). cbn [flat_map]. split.
          * exists (entries c ++ l1), k, l2. rewrite E, <- app_assoc. repeat split; auto.
            -- intros HC y Hy. apply in_app_or in Hy as [Hy|Hy]; [|now apply Hl].
               specialize (Hr1 HC). rewrite find_none_iff in Hr1. apply Hr1, Hy.
            -- intros v'. rewrite Hput, <- app_assoc. reflexivity.
          * intros v'. cbn [map]. now rewrite He2.
        + split; [|exact I]. intros HC. cbn [flat_map]. rewrite find_app_, (Hr1 HC). apply (Hr2 HC). }
    destruct E as (r & -> & Hr & He). cbn [bind]. eexists; split; [reflexivity|].
    destruct r as [[v put]|]; cbn [option_map fst snd lookup_post node_bounds] in *.
    + split.
      * destruct Hr as (l1 & k & l2 & E & Hk & Hl & Hput). exists l1, k, l2. repeat split; auto.
      * intros v'. unfold erase in *. cbn [map_node]. now rewrite He.
    + auto.
Qed.

Lemma node_get_spec level n q :
  wf level n -> complete -> node_get P BR level n q = Ok (option_map snd (find (matches q) (entries n))).
Proof.
  intros Hwf HC. rewrite node_get_get_mut. destruct (node_get_mut_spec level n q Hwf) as (r & -> & Hr & _).
  cbn [bind]. destruct r as [[v put]|]; cbn [lookup_post option_map fst] in *.
  - destruct Hr as (l1 & k & l2 & E & Hk & Hl & _). rewrite (find_split_iff _ _ _ _ _ E Hk (Hl HC)). reflexivity.
  - now rewrite (Hr HC).
Qed.

Lemma node_get_safe level (n : node) q : wf level n -> exists o, node_get P BR level n q = Ok o.
Proof.
  intros Hwf. rewrite node_get_get_mut. destruct (node_get_mut_spec level n q Hwf) as (r & -> & _). cbn. eauto.
Qed.
End Get.

(** ** insert_unique *)
Section InsertUnique.
Context {B K V : Type} (P : Params B K) (cfg : config).
Context (ok : K -> Prop) (rel : B -> list K -> Prop) (L : rel_laws P ok rel).
Context (lo : nat) (strict : Prop).
Notation node := (node B K V).
Notation cap := (max_children cfg).
Notation minc := (min_children cfg).
Context (nopanic : Prop) (Hns : nopanic -> strict).
Context (Hcap : nopanic -> 2 <= cap).
Context (Hlo : strict -> lo <= 1 \/ lo <= Nat.min minc (cap - minc)).
Context (complete : Prop).
Context (Hcomplete : complete -> forall b l k' k, rel b l -> In k' l -> ok k' ->
           key_eq P k' k = true -> b_contains (bops P) b (key_bounds P k) = true).
Notation wf := (wf cfg ok rel lo strict).
Notation ins_post := (ins_post cfg ok rel lo strict).
Notation same k := (fun kv : K * V => key_eq P (fst kv) k).

Definition uniq_post (level : nat) (n : node) (k : K) (v : V)
    (r : option V * node * option (container B K V)) : Prop :=
  let '(old, n', sib) := r in
  match old with
  | None => ins_post level n [(k, v)] (n', sib) /\ (complete -> find (same k) (entries n) = None)
  | Some o =>
    sib = None /\ wf level n' /\ fanout n' = fanout n
    /\ exists l1 k' l2, entries n = l1 ++ (k', o) :: l2 /\ key_eq P k' k = true
         /\ (complete -> forall y, In y l1 -> same k y = false)
         /\ entries n' = l1 ++ (k', v) :: l2
  end.

Lemma filter_enumerate_none {T} (f : T -> bool) (cs : list T) :
  filter (fun ic => f (snd ic)) (enumerate cs) = [] -> forall c, In c cs -> f c = false.
Proof.
  intros E c Hc. apply In_nth_error in Hc as [i Hi].
  destruct (f c) eqn:Ef; [|reflexivity].
  assert (H : In (i, c) (filter (fun ic => f (snd ic)) (enumerate cs))).
  { apply filter_In. split; [now apply in_enumerate|exact Ef]. }
  rewrite E in H. destruct H.
Qed.

Lemma filter_enumerate_one {T} (f : T -> bool) (cs : list T) i c :
  filter (fun ic => f (snd ic)) (enumerate cs) = [(i, c)] ->
  nth_error cs i = Some c /\ f c = true /\ forall j d, nth_error cs j = Some d -> j <> i -> f d = false.
Proof.
  intros E. assert (H : In (i, c) (filter (fun ic => f (snd ic)) (enumerate cs))) by (rewrite E; now left).
  apply filter_In in H as [H1 H2]. split; [now apply in_enumerate|]. split; [exact H2|].
  intros j d Hd Hj. destruct (f d) eqn:Ef; [|reflexivity].
  assert (H : In (j, d) (filter (fun ic => f (snd ic)) (enumerate cs))).
  { apply filter_In. split; [now apply in_enumerate|exact Ef]. }
  rewrite E in H. destruct H as [[= -> ->]|[]]. congruence.
Qed.

Lemma not_contained_no_match l c k :
  child_ok cfg ok rel lo strict l c -> b_contains (bops P) (node_bounds c) (key_bounds P k) = false ->
  complete -> find (same k) (entries c) = None.
Proof.
  intros [Hc _] Eb HC. apply find_none_iff. intros [k' v'] Hin. cbn [fst].
  destruct (key_eq P k' k) eqn:Eq; [|reflexivity].
  rewrite <- Eb. symmetry. apply (Hcomplete HC _ (keys c) k').
  - apply (wf_rel _ _ _ _ _ _ _ Hc).
  - apply (in_map fst) in Hin. exact Hin.
  - assert (Hok := wf_ok _ _ _ _ _ _ _ Hc). rewrite Forall_forall in Hok. apply (Hok _ Hin).
  - exact Eq.
Qed.

Lemma find_flat_map_none (f : K * V -> bool) (cs : list node) :
  (forall c, In c cs -> find f (entries c) = None) -> find f (flat_map entries cs) = None.
Proof.
  intros H. apply find_none_iff. intros x Hx. apply in_flat_map in Hx as (c & Hc & Hx).
  specialize (H c Hc). rewrite find_none_iff in H. auto.
Qed.

Lemma node_insert_unique_spec level n k v :
  wf level n -> (nopanic -> level <> 0 -> 1 <= fanout n) -> ok k ->
  post (node_insert_unique P cfg level n k v) (~ nopanic) (uniq_post level n k v).
Proof.
  revert n; induction level as [|l IH]; intros n Hwf Hne Hk.
  - cbn [node_insert_unique]. destruct (wf_inv _ _ _ _ _ _ _ Hwf) as (b & es & ->).
    cbn [node_children read_leaf bind].
    assert (H := entries_get_mut_spec (self_borrow P) es k).
    destruct (entries_get_mut (self_borrow P) es k) as [[o put]|].
    + destruct H as (l1 & k' & l2 & E & Heq & Hl & Hput). cbn [post uniq_post]. cbn in Heq, Hl.
      split; [reflexivity|]. rewrite wf_leaf in *. rewrite !entries_leaf, Hput. cbn [fanout node_children node_bounds].
      destruct Hwf as (Hr & Hlen & Hes). rewrite E in Hr, Hlen, Hes |- *.
      split; [|split; [now rewrite !app_length|exists l1, k', l2; auto]].
      rewrite !map_app, !app_length in *. split; [exact Hr|]. split; [exact Hlen|].
      apply Forall_app in Hes as [H1 H2]. apply Forall_app. split; [exact H1|].
      inversion H2; subst. constructor; assumption.
    + eapply post_bind; [apply (node_insert_spec P cfg ok rel L lo strict nopanic Hns Hcap Hlo); [exact Hwf|exact Hne|exact Hk|cbn; lia]|].
      intros [n' sib] _ Hp. cbn [post uniq_post]. split; [exact Hp|]. intros _. exact H.
  - cbn [node_insert_unique]. destruct (wf_inv _ _ _ _ _ _ _ Hwf) as (b & cs & ->).
    cbn [node_children read_inner bind].
    assert (Hwf' := Hwf). rewrite wf_inner in Hwf'. destruct Hwf' as (Hr & Hlen & Hcs).
    set (plain := bind (node_insert P cfg (S l) (Node b (CInner cs)) (ELeaf (k, v))) _).
    assert (Hplain : (complete -> find (same k) (flat_map entries cs) = None) ->
      post plain (~ nopanic) (uniq_post (S l) (Node b (CInner cs)) k v)).
    { intros Hnone. unfold plain. eapply post_bind; [apply (node_insert_spec P cfg ok rel L lo strict nopanic Hns Hcap Hlo); [exact Hwf|exact Hne|exact Hk|cbn; lia]|].
      intros [n' sib] _ Hp. cbn [post uniq_post]. split; [exact Hp|]. rewrite entries_inner. exact Hnone. }
    destruct (filter _ (enumerate cs)) as [|[i c] [|ic2 rest]] eqn:Ef.
    + apply Hplain. intros HC. apply find_flat_map_none. intros c Hc.
      rewrite Forall_forall in Hcs.
      apply (not_contained_no_match l c k (Hcs c Hc)); [|exact HC].
      apply (filter_enumerate_none (fun c => b_contains (bops P) (node_bounds c) (key_bounds P k)) cs Ef c Hc).
    + apply (filter_enumerate_one (fun c => b_contains (bops P) (node_bounds c) (key_bounds P k))) in Ef
        as (Hc & Hcb & Hothers).
      assert (Hcok : child_ok cfg ok rel lo strict l c) by (eapply Forall_nth_error; eassumption).
      destruct Hcok as [Hcwf Hclo].
      assert (Hpre : forall j d, nth_error cs j = Some d -> j <> i -> complete -> find (same k) (entries d) = None).
      { intros j d Hd Hj HC. apply (not_contained_no_match l); [eapply Forall_nth_error; eassumption| |exact HC].
        eapply Hothers; eassumption. }
      eapply post_bind.
      { apply IH; [exact Hcwf| |exact Hk].
        intros HS Hl0. specialize (Hclo (Hns HS)). unfold lo_at in Hclo. destruct l; lia. }
      intros [[old c'] sib] _ Hpost. cbn beta iota. destruct old as [o|].
      * cbn [uniq_post] in Hpost. destruct Hpost as (-> & Hw & Hf & l1 & k' & l2 & E & Heq & Hl1 & E').
        cbn [post uniq_post node_bounds].
        split; [reflexivity|]. rewrite wf_inner, set_nth_length. cbn [fanout node_children]. rewrite set_nth_length.
        rewrite !entries_inner.
        destruct (nth_error_split_set i c c' cs Hc) as (m1 & m2 & Ecs & Hi & Eset). rewrite Eset, Ecs.
        rewrite !flat_map_app. cbn [flat_map]. rewrite E, E'.
        split; [split; [|split; [now rewrite <- Ecs|]]|split; [reflexivity|]].
        -- assert (Hkeys : keys c' = keys c).
           { unfold keys. rewrite E, E', !map_app. reflexivity. }
           apply (rel_absorb _ _ _ L) with (k' := k').
           ++ rewrite Ecs in Hr. rewrite flat_map_app in Hr. cbn [flat_map] in *. now rewrite Hkeys.
           ++ rewrite Hkeys. unfold keys. rewrite E, map_app.
              apply in_or_app. right. apply in_or_app. left. apply in_or_app. right. now left.
           ++ exact Hk.
           ++ exact Heq.
        -- rewrite Ecs in Hcs. apply Forall_app in Hcs as [H1 H2]. inversion H2; subst.
           apply Forall_app. split; [exact H1|]. constructor; [|assumption]. split; [exact Hw|]. rewrite Hf. exact Hclo.
        -- exists (flat_map entries m1 ++ l1), k', (l2 ++ flat_map entries m2).
           split; [rewrite <- !app_assoc; cbn; now rewrite <- ?app_assoc|]. split; [exact Heq|]. split.
           ++ intros HC y Hy. apply in_app_or in Hy as [Hy|Hy]; [|now apply Hl1].
              assert (Hn : find (same k) (flat_map entries m1) = None).
              { apply find_flat_map_none. intros d Hd. apply In_nth_error in Hd as [j Hj].
                apply (Hpre j d); [|intros ->; apply nth_error_lt in Hj; lia|exact HC].
                rewrite Ecs. rewrite nth_error_app1; [exact Hj|]. now apply nth_error_lt in Hj. }
              rewrite find_none_iff in Hn. apply (Hn y Hy).
           ++ rewrite <- !app_assoc. cbn. now rewrite <- ?app_assoc.
      * cbn [uniq_post] in Hpost. destruct Hpost as (Hpost & Hnone).
        assert (Hci := child_inserted_spec P cfg ok rel L lo strict nopanic Hns Hcap Hlo l b cs i c c' sib [(k, v)]
                         (key_bounds P k) Hwf Hc Hpost (rel_key _ _ _ L k Hk)).
        assert (Hfind : complete -> find (same k) (flat_map entries cs) = None).
        { intros HC. apply find_flat_map_none. intros d Hd. apply In_nth_error in Hd as [j Hj].
          destruct (Nat.eq_dec j i) as [->|Hji]; [|now apply (Hpre j d)].
          rewrite Hc in Hj. injection Hj as <-. apply Hnone, HC. }
        destruct sib as [m|].
        -- eapply post_bind; [exact Hci|]. intros [n' sib'] _ Hp. cbn [post uniq_post].
           split; [exact Hp|]. rewrite entries_inner. exact Hfind.
        -- cbn [post uniq_post] in *. split; [exact Hci|]. rewrite entries_inner. exact Hfind.
    + destruct (node_get_mut_spec P (self_borrow P) cfg ok rel lo strict complete Hcomplete (S l)
                  (Node b (CInner cs)) k Hwf) as (r & -> & Hr' & He).
      cbn [bind]. destruct r as [[o put]|].
      * cbn [post uniq_post lookup_post] in *. split; [reflexivity|].
        destruct Hr' as (l1 & k' & l2 & E & Heq & Hl1 & Hput). cbn in Heq, Hl1.
        split; [eapply erase_wf; [symmetry; apply He|exact Hwf]|].
        split; [apply erase_fanout, He|]. exists l1, k', l2. rewrite entries_inner in *. auto.
      * apply Hplain. exact Hr'.
Qed.

Lemma container_insert_unique_spec t k v :
  wf_root cfg ok rel lo strict nopanic t -> ok k ->
  post (container_insert_unique P cfg t k v) (~ nopanic)
    (fun r => let '(old, t') := r in
       wf_root cfg ok rel lo strict nopanic t' /\
       match old with
       | None => Permutation (contents t') (contents t ++ [(k, v)]) /\ fst t <= fst t'
                 /\ (complete -> find (same k) (contents t) = None)
       | Some o =>
         fst t' = fst t /\ exists l1 k' l2, contents t = l1 ++ (k', o) :: l2 /\ key_eq P k' k = true
         /\ (complete -> forall y, In y l1 -> same k y = false)
         /\ contents t' = l1 ++ (k', v) :: l2
       end).
Proof.
  intros [Hwf Hroot] Hk. destruct t as [level n]. unfold container_insert_unique. cbn [fst snd] in *.
  eapply post_bind.
  { apply node_insert_unique_spec; auto. intros HS Hl. specialize (Hroot HS Hl). lia. }
  intros [[old n'] sib] _ Hpost. cbn beta iota. destruct old as [o|]; cbn [uniq_post] in Hpost.
  - destruct Hpost as (-> & Hw & Hf & Hex). cbn [post]. unfold wf_root, contents. cbn [fst snd].
    rewrite Hf. auto.
  - destruct Hpost as (Hpost & Hnone). destruct sib as [[lv m]|]; cbn [InsertProof.ins_post] in Hpost.
    + destruct Hpost as (-> & Hp & Hw1 & Hw2 & Hlos).
      eapply post_bind; [eapply branch_spec; eassumption|].
      intros t' _ (Hq & Hw & Hl'). cbn [post]. split; [exact Hw|]. unfold contents at 2. cbn [snd fst].
      rewrite Hq, Hp. split; [reflexivity|]. split; [lia|]. exact Hnone.
    + destruct Hpost as (Hp & Hw1 & Hf). cbn [post]. unfold contents, wf_root. cbn [fst snd].
      split; [split; [exact Hw1|]|].
      * intros HS Hl. specialize (Hroot HS Hl). lia.
      * auto.
Qed.
End InsertUnique.
