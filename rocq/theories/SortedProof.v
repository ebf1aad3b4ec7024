(** The ordered iterators, over any lawful priority queue. *)
From Verif Require Export MutProof.

Section SortedProof.
Context {B K V M : Type} (m_cmp : M -> M -> comparison) (CL : cmp_laws m_cmp).
Context (PQ : PQueue (ranked B K V M)) (QL : pqueue_laws (ranked_cmp m_cmp) PQ).
Context (sb : B -> option M) (sk : K -> option M).
Notation node := (node B K V).
Notation ranked := (ranked B K V M).

(** The ranked entries below a node. *)
Definition ranked_entries (n : node) : list (K * V) :=
  filter (fun e => match sk (fst e) with Some _ => true | None => false end) (entries n).

(** A node has a lower bound for its ranked entries. *)
Definition bounded_by (m : M) (es : list (K * V)) : Prop :=
  forall e me, In e es -> sk (fst e) = Some me -> m_cmp m me <> Gt.
Fixpoint scored (n : node) : Prop :=
  match n with
  | Node _ (CLeaf _) => True
  | Node _ (CInner cs) =>
    (fix all (cs : list node) : Prop :=
       match cs with
       | [] => True
       | c :: r => scored c /\ match sb (node_bounds c) with
                               | Some m => bounded_by m (entries c)
                               | None => forall e, In e (entries c) -> sk (fst e) = None
                               end /\ all r
       end) cs
  end.

Definition node_scored (c : node) : Prop :=
  match sb (node_bounds c) with
  | Some m => bounded_by m (entries c)
  | None => forall e, In e (entries c) -> sk (fst e) = None
  end.

Lemma scored_inner b cs : scored (Node b (CInner cs)) <-> Forall (fun c => scored c /\ node_scored c) cs.
Proof.
  cbn. induction cs as [|c cs IH]; cbn; [split; [constructor|auto]|]. split.
  - intros (H1 & H2 & H3). constructor; [split; assumption|]. now apply IH.
  - intros H. inversion H as [|? ? [H1 H2] H3]; subst. split; [exact H1|]. split; [exact H2|]. now apply IH.
Qed.

Definition item_ok (r : ranked) : Prop :=
  match r with
  | ((m, 0), IEntry e) => sk (fst e) = Some m
  | ((m, S l), INode n) => kinded l n /\ scored n /\ bounded_by m (entries n)
  | _ => False
  end.
Definition heap_ok (h : heap PQ) : Prop := Forall item_ok (h_items PQ h).

Definition rest_item (r : ranked) : list (K * V) :=
  match snd r with INode n => ranked_entries n | IEntry e => [e] end.
Definition remaining (h : heap PQ) : list (K * V) := flat_map rest_item (h_items PQ h).

Lemma push_all_spec {T} (score : T -> option M) wrap level l h :
  Permutation (h_items PQ (push_all PQ score wrap level l h))
    (flat_map (fun x => match score x with Some m => [((m, level), wrap x)] | None => [] end) l ++ h_items PQ h).
Proof.
  revert h; induction l as [|x l IH]; intros h; cbn [push_all flat_map]; [reflexivity|].
  rewrite IH. destruct (score x) as [m|]; [|reflexivity].
  rewrite (pq_push _ _ QL). perm.
Qed.

Notation weight h := (list_sum (map (@ranked_weight B K V M) (h_items PQ h))).

Lemma list_sum_perm l l' : Permutation l l' -> list_sum l = list_sum l'.
Proof. induction 1; cbn; change (fold_right Nat.add 0) with list_sum in *; lia. Qed.

Lemma weight_pop h x h1 : Permutation (h_items PQ h) (x :: h_items PQ h1) -> weight h = ranked_weight x + weight h1.
Proof. intros Hp. now rewrite (list_sum_perm _ _ (Permutation_map ranked_weight Hp)). Qed.
Lemma weight_pos (x : ranked) : 0 < ranked_weight x.
Proof. destruct x as [[m l] [[b [cs|es]]|e]]; cbn; lia. Qed.

Lemma push_weight {T} (score : T -> option M) wrap level (w : T -> nat) l h :
  (forall (m : M) x, ranked_weight ((m, level), wrap x) = w x) ->
  weight (push_all PQ score wrap level l h) <= list_sum (map w l) + weight h.
Proof.
  intros Hw. revert h; induction l as [|x l IH]; intros h; cbn [push_all map]; [cbn; lia|].
  specialize (IH (match score x with Some m => h_push PQ ((m, level), wrap x) h | None => h end)).
  change (list_sum (w x :: map w l)) with (w x + list_sum (map w l)).
  destruct (score x) as [m|]; [|lia]. rewrite (weight_pop _ _ _ (pq_push _ _ QL ((m, level), wrap x) h)) in IH.
  rewrite Hw in IH. lia.
Qed.
Lemma list_sum_ones {T} (l : list T) : list_sum (map (fun _ => 1) l) = length l.
Proof. induction l; cbn; auto. Qed.

Lemma ranked_none (n : node) : (forall e, In e (entries n) -> sk (fst e) = None) -> ranked_entries n = [].
Proof.
  unfold ranked_entries. intros H. induction (entries n) as [|e es IH]; cbn; [reflexivity|].
  rewrite (H e (or_introl eq_refl)). apply IH. intros x Hx. apply H. now right.
Qed.

(** What is left below the popped node is pushed. *)
Lemma push_inner_rest level b cs : Forall (fun c => scored c /\ node_scored c) cs ->
  flat_map rest_item (flat_map (fun c => match sb (node_bounds c) with Some m => [((m, level), INode c)] | None => [] end) cs)
  = ranked_entries (Node b (CInner cs)).
Proof.
  unfold ranked_entries. cbn [entries]. induction 1 as [|c cs [_ Hc] _ IH]; cbn [flat_map]; [reflexivity|].
  rewrite filter_app, flat_map_app. apply (f_equal2 (@app _)); [|exact IH]. unfold node_scored in Hc.
  destruct (sb (node_bounds c)); cbn; [apply app_nil_r|]. symmetry. now apply ranked_none.
Qed.

Lemma push_leaf_rest level b (es : list (K * V)) :
  flat_map rest_item (flat_map (fun e => match sk (fst e) with Some m => [((m, level), IEntry e)] | None => [] end) es)
  = ranked_entries (Node b (CLeaf es)).
Proof.
  unfold ranked_entries. cbn [entries]. induction es as [|e es IH]; cbn; [reflexivity|].
  rewrite flat_map_app. etransitivity; [apply (f_equal2 (@app _) eq_refl IH)|]. destruct (sk (fst e)); reflexivity.
Qed.

Lemma remaining_push {T} (score : T -> option M) wrap level l h :
  Permutation (remaining (push_all PQ score wrap level l h))
    (flat_map rest_item (flat_map (fun x => match score x with Some m => [((m, level), wrap x)] | None => [] end) l) ++ remaining h).
Proof. unfold remaining. rewrite (Permutation_flat_map_ _ _ _ (push_all_spec score wrap level l h)). now rewrite flat_map_app. Qed.

(** Everything that remains in a heap is at least the least score. *)
Lemma remaining_least m level (h : heap PQ) e : heap_ok h -> In e (remaining h) ->
  (forall y, In y (h_items PQ h) -> score_cmp m_cmp (m, level) (fst y) <> Gt) ->
  exists me, sk (fst e) = Some me /\ m_cmp m me <> Gt.
Proof.
  intros Hok Hin Hle. unfold remaining in Hin. apply in_flat_map in Hin as (x & Hx & Hin).
  unfold heap_ok in Hok. rewrite Forall_forall in Hok. specialize (Hok x Hx). specialize (Hle x Hx).
  destruct x as [[mx lx] it]. unfold score_cmp in Hle. cbn [fst snd] in Hle.
  assert (Hmx : m_cmp m mx <> Gt) by (destruct (m_cmp m mx); congruence).
  destruct lx as [|lx], it as [n|e']; cbn in Hok; try contradiction; cbn in Hin.
  - destruct Hin as [<-|[]]. eauto.
  - destruct Hok as (_ & _ & Hb). unfold ranked_entries in Hin. apply filter_In in Hin as [Hin He].
    destruct (sk (fst e)) as [me|] eqn:Ee; [|discriminate]. exists me. split; [reflexivity|].
    eapply (cmp_le_trans _ CL); [exact Hmx|]. eapply Hb; eassumption.
Qed.

Lemma sorted_loop_spec fuel h : heap_ok h -> weight h <= fuel ->
  exists o h', sorted_loop PQ sb sk fuel h = Ok (o, h') /\ heap_ok h' /\
  match o with
  | None => remaining h = [] /\ h_pop PQ h' = None
  | Some e => Permutation (remaining h) (e :: remaining h') /\
      exists m, sk (fst e) = Some m /\ forall e', In e' (remaining h') -> exists m', sk (fst e') = Some m' /\ m_cmp m m' <> Gt
  end.
Proof.
  revert h; induction fuel as [|fuel IH]; intros h Hok Hw; cbn [sorted_loop].
  - destruct (h_pop PQ h) as [[[[m level] value] h1]|] eqn:Ep.
    + exfalso. apply (pq_pop_some _ _ QL) in Ep as [Hp _]. unfold heap_ok in Hok.
      assert (Hw' := weight_pop _ _ _ Hp). assert (Hp0 := weight_pos ((m, level), value)). lia.
    + exists None, h. split; [reflexivity|]. split; [exact Hok|]. split; [|exact Ep].
      apply (pq_pop_none _ _ QL) in Ep. unfold remaining. now rewrite Ep.
  - destruct (h_pop PQ h) as [[[[m level] value] h1]|] eqn:Ep.
    2: { exists None, h. split; [reflexivity|]. split; [exact Hok|]. split; [|exact Ep].
         apply (pq_pop_none _ _ QL) in Ep. unfold remaining. now rewrite Ep. }
    apply (pq_pop_some _ _ QL) in Ep as [Hp Hmin].
    assert (Hw' := weight_pop _ _ _ Hp).
    assert (Hrem : Permutation (remaining h) (rest_item ((m, level), value) ++ remaining h1)).
    { unfold remaining. now rewrite (Permutation_flat_map_ _ _ _ Hp). }
    assert (Hok' := Forall_perm _ _ _ Hp Hok). inversion Hok' as [|? ? Hi Hok1]; subst.
    destruct level as [|[|l]]; cbn in Hi.
    + destruct value as [|e]; [contradiction|]. cbn [item_entry bind]. exists (Some e), h1.
      split; [reflexivity|]. split; [exact Hok1|]. split; [exact Hrem|]. exists m. split; [exact Hi|].
      intros e' He'. eapply (remaining_least m 0); [exact Hok1|exact He'|]. intros y Hy. exact (Hmin y Hy).
    + destruct value as [n|]; [|contradiction]. destruct Hi as (Hk & Hs & Hb). destruct n as [b [cs|es]]; [contradiction|].
      cbn [item_node node_children read_leaf bind].
      set (h2 := push_all PQ _ _ _ es h1). assert (Hp2 := push_all_spec (fun e => sk (fst e)) IEntry 0 es h1). fold h2 in Hp2.
      assert (Hr2 := remaining_push (fun e => sk (fst e)) IEntry 0 es h1). fold h2 in Hr2. rewrite (push_leaf_rest 0 b) in Hr2.
      destruct (IH h2) as (o & h' & E & H1 & H2).
      * unfold heap_ok. apply (Forall_perm _ _ _ (Permutation_sym Hp2)). apply Forall_app. split; [|exact Hok1].
        apply Forall_forall. intros x Hx. apply in_flat_map in Hx as (e & He & Hx). destruct (sk (fst e)) eqn:Ee; [|destruct Hx].
        destruct Hx as [<-|[]]. exact Ee.
      * assert (Hp3 := push_weight (fun e => sk (fst e)) IEntry 0 (fun _ => 1) es h1 (fun _ _ => eq_refl)). fold h2 in Hp3.
        rewrite list_sum_ones in Hp3. cbn [ranked_weight snd item_weight] in Hw'. lia.
      * exists o, h'. split; [exact E|]. split; [exact H1|]. cbn [rest_item snd] in Hrem. rewrite <- Hr2 in Hrem. destruct o as [e|].
        -- destruct H2 as [H2 H3]. split; [now rewrite Hrem|exact H3].
        -- destruct H2 as [H2 H3]. rewrite H2 in Hrem. split; [now apply Permutation_nil, Permutation_sym|exact H3].
    + destruct value as [n|]; [|contradiction]. destruct Hi as (Hk & Hs & Hb). destruct n as [b [cs|es]]; [|contradiction].
      rewrite scored_inner in Hs. cbn [item_node node_children read_inner bind].
      set (h2 := push_all PQ _ _ _ cs h1). assert (Hp2 := push_all_spec (fun c => sb (node_bounds c)) INode (S l) cs h1). fold h2 in Hp2.
      assert (Hr2 : Permutation (remaining h2) (ranked_entries (Node b (CInner cs)) ++ remaining h1)).
      { rewrite <- (push_inner_rest (S l) b cs Hs). apply remaining_push. }
      destruct (IH h2) as (o & h' & E & H1 & H2).
      * unfold heap_ok. apply (Forall_perm _ _ _ (Permutation_sym Hp2)). apply Forall_app. split; [|exact Hok1].
        apply Forall_forall. intros x Hx. apply in_flat_map in Hx as (c & Hc & Hx). destruct (sb (node_bounds c)) eqn:Ec; [|destruct Hx].
        destruct Hx as [<-|[]]. cbn [kinded node_children] in Hk. rewrite Forall_forall in Hk, Hs. destruct (Hs c Hc) as [Hs1 Hs2].
        cbn. split; [auto|]. split; [exact Hs1|]. unfold node_scored in Hs2. now rewrite Ec in Hs2.
      * assert (Hp3 := push_weight (fun c => sb (node_bounds c)) INode (S l) (@item_weight B K V) cs h1 (fun _ _ => eq_refl)). fold h2 in Hp3.
        cbn [ranked_weight snd item_weight] in Hw'. lia.
      * exists o, h'. split; [exact E|]. split; [exact H1|]. cbn [rest_item snd] in Hrem. rewrite <- Hr2 in Hrem. destruct o as [e|].
        -- destruct H2 as [H2 H3]. split; [now rewrite Hrem|exact H3].
        -- destruct H2 as [H2 H3]. rewrite H2 in Hrem. split; [now apply Permutation_nil, Permutation_sym|exact H3].
Qed.

(** One call of [next]. *)
Lemma sorted_next_spec h : heap_ok h -> exists o h', sorted_next PQ sb sk h = Ok (o, h') /\ heap_ok h' /\
  match o with
  | None => remaining h = [] /\ remaining h' = []
  | Some e => Permutation (remaining h) (e :: remaining h') /\
      exists m, sk (fst e) = Some m /\ forall e', In e' (remaining h') -> exists m', sk (fst e') = Some m' /\ m_cmp m m' <> Gt
  end.
Proof.
  intros H. destruct (sorted_loop_spec (weight h) h H (Nat.le_refl _)) as (o & h' & E & H1 & H2). exists o, h'.
  split; [exact E|]. split; [exact H1|]. destruct o; [exact H2|]. destruct H2 as [H2 H3]. split; [exact H2|].
  apply (pq_pop_none _ _ QL) in H3. unfold remaining. now rewrite H3.
Qed.

Lemma sorted_exhausted h : heap_ok h -> remaining h = [] -> iterates (sorted_next PQ sb sk) h [].
Proof.
  intros H1 H2. apply (iterates_sim _ (fun h l => heap_ok h /\ remaining h = [] /\ l = [])); [|auto].
  intros s l (Hs & Hr & ->). destruct (sorted_next_spec s Hs) as (o & h' & E & G1 & G2). exists h'.
  destruct o as [e|]; [|cbn; split; [exact E|]; tauto]. destruct G2 as [G2 _]. rewrite Hr in G2. apply Permutation_nil in G2. discriminate.
Qed.

Lemma iterates_cons {S A} (next : S -> res (option A * S)) s x s' l :
  next s = Ok (Some x, s') -> iterates next s' l -> iterates next s (x :: l).
Proof.
  intros E H [|n]; [reflexivity|]. cbn [calls]. rewrite E. cbn [bind]. rewrite H. cbn [bind map app firstn repeat]. do 2 f_equal.
  change (None :: repeat None n) with (repeat (@None A) (Datatypes.S n)).
  replace (Datatypes.S n) with (n + 1) by lia. rewrite repeat_app, app_assoc.
  rewrite (firstn_app n (_ ++ _)). rewrite app_length, repeat_length. replace (n - _) with 0 by lia. cbn. now rewrite app_nil_r.
Qed.

(** The rank order on entries that have a rank. *)
Definition rank_le (x y : K * V) : Prop :=
  match sk (fst x), sk (fst y) with Some a, Some b => m_cmp a b <> Gt | _, _ => False end.

Lemma sorted_iterates h : heap_ok h -> exists l, iterates (sorted_next PQ sb sk) h l /\ Permutation l (remaining h)
  /\ ForallOrdPairs rank_le l.
Proof.
  remember (length (remaining h)) as n eqn:En. revert h En. induction n as [|n IH]; intros h En Hok.
  - symmetry in En. apply length_zero_iff_nil in En. exists []. rewrite En. split; [now apply sorted_exhausted|]. split; [constructor|constructor].
  - destruct (sorted_next_spec h Hok) as (o & h' & E & H1 & H2). destruct o as [e|].
    2: { destruct H2 as [H2 _]. rewrite H2 in En. discriminate. }
    destruct H2 as (Hp & m & Hm & Hle). assert (El := Permutation_length Hp). cbn in El.
    destruct (IH h' ltac:(lia) H1) as (l & Hi & Hl & Hs). exists (e :: l). split; [now apply (iterates_cons _ _ _ h')|].
    split; [rewrite Hp; now constructor|]. constructor; [|exact Hs].
    apply Forall_forall. intros y Hy. destruct (Hle y) as (m' & Hy' & Hc); [now rewrite <- Hl|].
    unfold rank_le. now rewrite Hm, Hy'.
Qed.

Context (P : Params B K) (cfg : config) (ok : K -> Prop) (incl : B -> B -> Prop).
Context (RL : forall b k m, ok k -> incl b (key_bounds P k) -> sk k = Some m -> exists m', sb b = Some m' /\ m_cmp m' m <> Gt).

Lemma node_scored_wf lo strict l (c : node) : wf cfg ok (rel_cover P incl) lo strict l c -> node_scored c.
Proof.
  intros Hw. assert (Hr := wf_rel _ _ _ _ _ _ _ Hw). assert (Ho := wf_ok _ _ _ _ _ _ _ Hw). rewrite Forall_forall in Ho.
  assert (Hin : forall e, In e (entries c) -> incl (node_bounds c) (key_bounds P (fst e))).
  { intros e He. apply Hr. unfold keys. now apply in_map. }
  unfold node_scored. destruct (sb (node_bounds c)) as [m|] eqn:Eb.
  - intros e me He Hme. destruct (RL _ _ _ (Ho e He) (Hin e He) Hme) as (m' & E & H). congruence.
  - intros e He. destruct (sk (fst e)) as [me|] eqn:Ee; [|reflexivity].
    destruct (RL _ _ _ (Ho e He) (Hin e He) Ee) as (m' & E & _). congruence.
Qed.

Lemma scored_wf lo strict l (n : node) : wf cfg ok (rel_cover P incl) lo strict l n -> scored n.
Proof.
  revert n; induction l as [|l IH]; intros n Hw; destruct (wf_inv _ _ _ _ _ _ _ Hw) as (b & x & ->); [exact I|].
  apply scored_inner. rewrite wf_inner in Hw. destruct Hw as (_ & _ & Hcs). eapply Forall_impl; [|exact Hcs].
  intros c [Hc _]. split; [now apply IH|]. eapply node_scored_wf; eassumption.
Qed.

Lemma sorted_new_spec lo strict (t : rtree B K V) : wf cfg ok (rel_cover P incl) lo strict (fst t) (snd t) ->
  heap_ok (sorted_new PQ sb t) /\ Permutation (remaining (sorted_new PQ sb t)) (ranked_entries (snd t)).
Proof.
  intros Hw. assert (Hs := node_scored_wf _ _ _ _ Hw). unfold sorted_new, node_scored in *.
  destruct (sb (node_bounds (snd t))) as [m|].
  - assert (Hp := pq_push _ _ QL ((m, fst t + 1), INode (snd t)) (h_new PQ)). rewrite (pq_new _ _ QL) in Hp. split.
    + unfold heap_ok. apply (Forall_perm _ _ _ (Permutation_sym Hp)). constructor; [|constructor].
      rewrite Nat.add_1_r. cbn. split; [exact (wf_kinded _ _ _ _ _ _ _ Hw)|]. split; [exact (scored_wf _ _ _ _ Hw)|exact Hs].
    + unfold remaining. rewrite (Permutation_flat_map_ _ _ _ Hp). cbn. now rewrite app_nil_r.
  - unfold heap_ok, remaining. rewrite (pq_new _ _ QL). split; [constructor|]. now rewrite (ranked_none _ Hs).
Qed.

Lemma sorted_full lo strict (t : rtree B K V) : wf cfg ok (rel_cover P incl) lo strict (fst t) (snd t) ->
  exists l, iterates (sorted_next PQ sb sk) (sorted_new PQ sb t) l /\ Permutation l (ranked_entries (snd t))
  /\ ForallOrdPairs rank_le l.
Proof.
  intros Hw. destruct (sorted_new_spec _ _ _ Hw) as [H1 H2]. destruct (sorted_iterates _ H1) as (l & G1 & G2 & G3).
  exists l. rewrite <- H2. auto.
Qed.
End SortedProof.
