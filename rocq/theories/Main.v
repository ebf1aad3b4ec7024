(** The properties of the tree core, as lemmas. *)
From Verif Require Export Reach Wide.

Section Main.
Context {B K V : Type} (P : Params B K) (cfg : config).
Notation cap := (max_children cfg).
Notation minc := (min_children cfg).
Notation tree := (rtree B K V).

Ltac fals := intros F; exact (False_ind _ F).

(** *** Which invariants reachable trees satisfy *)
Lemma inv_any ok (t : tree) : reachable P cfg ok t -> wf_root cfg ok rel_any 0 False False t.
Proof. apply (reachable_wf P cfg ok rel_any (any_laws P ok)); try tauto; lia. Qed.

Lemma inv_cover ok incl (t : tree) : bounds_laws (bops P) incl ->
  reachable P cfg ok t -> wf_root cfg ok (rel_cover P incl) 0 False False t.
Proof. intros L. apply (reachable_wf P cfg ok _ (cover_laws P ok incl L)); try tauto; lia. Qed.

Lemma inv_exact ok (t : tree) : semilattice_laws (bops P) ->
  (forall k k', key_eq P k' k = true -> key_bounds P k' = key_bounds P k) ->
  reachable P cfg ok t -> wf_root cfg ok (rel_exact P) 0 False False t.
Proof. intros SL Hk. apply (reachable_wf P cfg ok _ (exact_laws P SL ok Hk)); try tauto; lia. Qed.

Lemma inv_guaranteed ok (t : tree) :
  reachable P cfg ok t -> wf_root cfg ok rel_any (guaranteed_fill cfg) True False t.
Proof. unfold guaranteed_fill. apply (reachable_wf P cfg ok rel_any (any_laws P ok)); try tauto; lia. Qed.

Lemma guaranteed_min : 2 * minc <= cap -> guaranteed_fill cfg = minc.
Proof. unfold guaranteed_fill. lia. Qed.

Lemma inv_fill ok (t : tree) : 2 * minc <= cap ->
  reachable P cfg ok t -> wf_root cfg ok rel_any minc True False t.
Proof. intros H. apply (reachable_wf P cfg ok rel_any (any_laws P ok)); try tauto; lia. Qed.

Lemma inv_nonempty ok (t : tree) : 1 <= minc ->
  reachable P cfg ok t -> wf_root cfg ok rel_any 1 True False t.
Proof. intros H. apply (reachable_wf P cfg ok rel_any (any_laws P ok)); try tauto; lia. Qed.

Lemma supported_cases : supported cfg -> 2 <= cap /\ (minc = 0 \/ 2 <= minc).
Proof. unfold supported. lia. Qed.

Lemma inv_min0 ok (t : tree) : 2 <= cap -> minc = 0 ->
  reachable P cfg ok t -> wf_root cfg ok rel_any 0 True True t.
Proof. intros H H0. apply (reachable_wf P cfg ok rel_any (any_laws P ok)); try tauto; lia. Qed.

Lemma inv_grown ok (t : tree) : 2 <= cap ->
  grown P cfg ok t -> wf_root cfg ok rel_any 1 True True t.
Proof. intros H1. apply (grown_wf P cfg ok rel_any (any_laws P ok)); try tauto; lia. Qed.

(** *** insert *)
Lemma insert_contents ok (t t' : tree) k v :
  reachable P cfg ok t -> ok k -> rtree_insert P cfg t k v = Ok t' ->
  Permutation (contents t') ((k, v) :: contents t).
Proof.
  intros Hr Hk E. apply inv_any in Hr.
  assert (H := insert_entry_spec P cfg ok rel_any (any_laws P ok) 0 False False ltac:(tauto) ltac:(tauto) ltac:(tauto)
                 t (ELeaf (k, v)) Hr Hk (Nat.le_0_l _)).
  unfold rtree_insert in E. rewrite E in H. destruct H as [H _]. cbn [entry_entries] in H. rewrite H. perm.
Qed.

(** *** get *)
Section Lookup.
Context (ok : K -> Prop) (incl : B -> B -> Prop) (BL : bounds_laws (bops P) incl).
Context {Q : Type} (BR : Borrowed B K Q) (LL : lookup_laws P BR incl ok).
Notation matches q := (fun kv : K * V => q_eq BR (borrow BR (fst kv)) q).

Lemma cover_contains b l k q : rel_cover P incl b l -> In k l -> ok k ->
  q_eq BR (borrow BR k) q = true -> b_contains (bops P) b (q_bounds BR q) = true.
Proof. intros H Hin Hok Hq. eapply (contains_complete _ _ _ _ LL); [exact Hok|exact Hq|apply H, Hin]. Qed.

Lemma cover_intersects b l k q : rel_cover P incl b l -> In k l -> ok k ->
  q_eq BR (borrow BR k) q = true -> b_intersects (bops P) b (q_bounds BR q) = true.
Proof. intros H Hin Hok Hq. eapply (intersects_complete _ _ _ _ LL); [exact Hok|exact Hq|apply H, Hin]. Qed.

Lemma get_find (t : tree) q : reachable P cfg ok t ->
  rtree_get P BR t q = Ok (option_map snd (find (matches q) (contents t))).
Proof.
  intros Hr. apply (inv_cover _ incl _ BL) in Hr. destruct Hr as [Hw _]. unfold rtree_get.
  apply (node_get_spec P BR cfg ok (rel_cover P incl) 0 False True); auto.
  intros _. apply cover_contains.
Qed.

Lemma get_mut_spec (t : tree) q : reachable P cfg ok t ->
  exists r, rtree_get_mut P BR t q = Ok r /\
  match r with
  | None => forall kv, In kv (contents t) -> matches q kv = false
  | Some (v, put) =>
    rtree_get P BR t q = Ok (Some v) /\
    (forall v', rtree_get P BR (put v') q = Ok (Some v') /\ same_but_values t (put v')) /\
    exists l1 k l2, contents t = l1 ++ (k, v) :: l2 /\ matches q (k, v) = true
      /\ (forall kv, In kv l1 -> matches q kv = false)
      /\ forall v', contents (put v') = l1 ++ (k, v') :: l2
  end.
Proof.
  intros Hr. assert (Hr' := Hr). apply (inv_cover _ incl _ BL) in Hr'. destruct Hr' as [Hw _].
  unfold rtree_get_mut.
  destruct (node_get_mut_spec P BR cfg ok (rel_cover P incl) 0 False True (fun _ => cover_contains) (fst t) (snd t) q Hw)
    as (r & -> & Hl & He).
  cbn [bind]. eexists; split; [reflexivity|]. destruct r as [[v put]|]; cbn [option_map fst snd lookup_post] in *.
  - destruct Hl as (l1 & k & l2 & E & Hk & Hl1 & Hput). specialize (Hl1 I).
    split; [|split].
    + rewrite get_find by exact Hr. unfold contents. now rewrite (find_split_iff _ _ _ _ _ E Hk Hl1).
    + intros v'. assert (Hs : same_but_values t (fst t, put v')).
      { split; [reflexivity|]. cbn [snd]. now rewrite He. }
      split; [|exact Hs]. rewrite get_find by (eapply r_values; eassumption).
      unfold contents. cbn [snd]. rewrite Hput.
      rewrite (find_split_iff (matches q) _ (k, v') l1 l2 eq_refl Hk Hl1). reflexivity.
    + exists l1, k, l2. repeat split; auto.
  - apply find_none_iff, Hl. exact I.
Qed.

(** *** remove *)
Lemma remove_spec (t t' : tree) q o : reachable P cfg ok t ->
  rtree_remove P cfg BR t q = Ok (o, t') ->
  match o with
  | None => t' = t /\ forall kv, In kv (contents t) -> matches q kv = false
  | Some v => exists k, matches q (k, v) = true /\ Permutation (contents t) ((k, v) :: contents t')
  end.
Proof.
  intros Hr E. apply (inv_cover _ incl _ BL) in Hr.
  assert (H := container_remove_spec P cfg ok (rel_cover P incl) (cover_laws P ok incl BL) 0 False BR False
     ltac:(tauto) ltac:(tauto) ltac:(tauto) ltac:(tauto) ltac:(tauto) True (fun _ => cover_intersects) t q Hr).
  unfold rtree_remove in E. rewrite E in H. cbn [post] in H. destruct H as [_ H]. destruct o as [v|].
  - destruct H as (k & [Hk _] & Hp). exists k. split; [exact Hk|exact Hp].
  - destruct H as [H1 H2]. split; [exact H1|]. apply find_none_iff, H2. exact I.
Qed.

(** Which of several equal entries is removed. *)
Lemma remove_order (t t' : tree) q v : reachable P cfg ok t ->
  rtree_remove P cfg BR t q = Ok (Some v, t') ->
  exists ls1 es1 k es2 ls2, leaves (snd t) = ls1 ++ (es1 ++ (k, v) :: es2) :: ls2 /\ matches q (k, v) = true
    /\ (forall kv, In kv es1 -> matches q kv = false)
    /\ (forall es kv, In es ls2 -> In kv es -> matches q kv = false)
    /\ Permutation (contents t') (concat (ls1 ++ (es1 ++ es2) :: ls2)).
Proof.
  intros Hr E. apply (inv_cover _ incl _ BL) in Hr.
  assert (H := container_remove_spec P cfg ok (rel_cover P incl) (cover_laws P ok incl BL) 0 False BR False
     ltac:(tauto) ltac:(tauto) ltac:(tauto) ltac:(tauto) ltac:(tauto) True (fun _ => cover_intersects) t q Hr).
  unfold rtree_remove in E. rewrite E in H. cbn [post] in H. destruct H as [_ (k & [Hk Hl] & Hp)].
  destruct (Hl I) as (ls1 & es1 & es2 & ls2 & El & H1 & H2). exists ls1, es1, k, es2, ls2.
  split; [exact El|]. split; [exact Hk|]. split; [exact H1|]. split; [exact H2|].
  symmetry. apply (Permutation_cons_inv (a := (k, v))). rewrite <- Hp. unfold contents. rewrite <- concat_leaves, El.
  rewrite !concat_app. cbn [concat]. perm.
Qed.

Lemma remove_some (t t' : tree) q o : reachable P cfg ok t ->
  rtree_remove P cfg BR t q = Ok (o, t') ->
  (o <> None <-> exists kv, In kv (contents t) /\ matches q kv = true).
Proof.
  intros Hr E. apply remove_spec in E; [|exact Hr]. destruct o as [v|].
  - split; [|congruence]. intros _. destruct E as (k & Hk & Hp). exists (k, v). split; [|exact Hk].
    rewrite Hp. now left.
  - split; [congruence|]. intros (kv & Hin & Hm) _. destruct E as [_ E]. rewrite (E kv Hin) in Hm. discriminate.
Qed.
End Lookup.

(** *** insert_unique *)
Section Unique.
Context (ok : K -> Prop) (incl : B -> B -> Prop) (BL : bounds_laws (bops P) incl).
Context (LL : lookup_laws P (self_borrow P) incl ok).

Lemma insert_unique_spec (t t' : tree) k v o : reachable P cfg ok t -> ok k ->
  rtree_insert_unique P cfg t k v = Ok (o, t') ->
  match o with
  | None => (forall kv, In kv (contents t) -> key_eq P (fst kv) k = false)
            /\ Permutation (contents t') ((k, v) :: contents t)
  | Some old => fst t' = fst t /\
      exists l1 k' l2, contents t = l1 ++ (k', old) :: l2 /\ key_eq P k' k = true
        /\ (forall kv, In kv l1 -> key_eq P (fst kv) k = false)
        /\ contents t' = l1 ++ (k', v) :: l2
  end.
Proof.
  intros Hr Hk E. apply (inv_cover _ incl _ BL) in Hr.
  assert (H := container_insert_unique_spec P cfg ok (rel_cover P incl) (cover_laws P ok incl BL) 0 False False
     ltac:(tauto) ltac:(tauto) ltac:(tauto) True (fun _ => cover_contains ok incl (self_borrow P) LL) t k v Hr Hk).
  unfold rtree_insert_unique in E. rewrite E in H. cbn [post] in H. destruct H as [_ H]. destruct o as [old|].
  - destruct H as (Hl & l1 & k' & l2 & E1 & E2 & E3 & E4). split; [exact Hl|]. exists l1, k', l2. repeat split; auto.
  - destruct H as (Hp & _ & Hf). split; [apply find_none_iff, Hf; exact I|]. rewrite Hp. perm.
Qed.
End Unique.

(** *** Keys of reachable trees *)
Lemma reachable_keys ok (t : tree) : reachable P cfg ok t -> forall kv, In kv (contents t) -> ok (fst kv).
Proof.
  intros Hr. apply inv_any in Hr. destruct Hr as [Hw _]. apply wf_ok in Hw. now rewrite Forall_forall in Hw.
Qed.

(** *** len, is_empty *)
Lemma len_spec ok (t : tree) : reachable P cfg ok t -> rtree_len t = Ok (length (contents t)).
Proof. intros Hr. apply inv_any in Hr. destruct Hr as [Hw _]. eapply node_len_spec, Hw. Qed.

Lemma is_empty_spec ok (t : tree) : 1 <= minc -> reachable P cfg ok t ->
  exists b, rtree_is_empty t = Ok b /\ (b = true <-> contents t = []).
Proof.
  intros Hm Hr. apply inv_nonempty in Hr; [|exact Hm]. destruct Hr as [Hw _]. unfold rtree_is_empty.
  rewrite (node_is_empty_spec _ _ _ _ _ _ _ Hw). eexists; split; [reflexivity|].
  rewrite Nat.eqb_eq. split.
  - intros E. unfold contents. destruct t as [level n]. cbn [fst snd] in *. destruct level as [|l];
      destruct (wf_inv _ _ _ _ _ _ _ Hw) as (b & x & ->); cbn in E; apply length_zero_iff_nil in E; subst x; reflexivity.
  - intros E. destruct (Nat.eq_dec (fanout (snd t)) 0) as [|Hne]; [assumption|].
    assert (H := entries_nonempty cfg ok rel_any 1 True (fst t) (snd t) I (le_n _) Hw ltac:(lia)).
    unfold contents in E. rewrite E in H. cbn in H. lia.
Qed.

Lemma is_empty_safe ok (t : tree) : reachable P cfg ok t -> exists b, rtree_is_empty t = Ok b.
Proof.
  intros Hr. apply inv_any in Hr. destruct Hr as [Hw _]. unfold rtree_is_empty.
  rewrite (node_is_empty_spec _ _ _ _ _ _ _ Hw). eauto.
Qed.

(** *** clone, drop *)
Lemma clone_spec ok (t : tree) : reachable P cfg ok t -> rtree_clone cfg t = Ok t.
Proof.
  intros Hr. apply inv_any in Hr. destruct Hr as [Hw _]. unfold rtree_clone.
  rewrite (clone_node_spec _ _ _ _ _ _ _ Hw). cbn. now destruct t.
Qed.

Lemma drop_spec ok (t : tree) : reachable P cfg ok t -> exists l, rtree_drop t = Ok l /\ Permutation l (contents t).
Proof. intros Hr. apply inv_any in Hr. destruct Hr as [Hw _]. eapply drop_node_spec, Hw. Qed.

(** *** bounding volume hierarchy *)
Lemma bvh_cover ok incl (t : tree) i n : bounds_laws (bops P) incl -> reachable P cfg ok t -> node_at t i n ->
  forall k v, In (k, v) (entries n) -> incl (node_bounds n) (key_bounds P k).
Proof.
  intros L Hr Hat k v Hin. apply (inv_cover _ incl _ L) in Hr.
  destruct (node_at_wf _ _ _ _ _ _ _ _ _ Hr Hat) as [Hw _]. apply wf_rel in Hw. apply Hw.
  apply (in_map fst) in Hin. exact Hin.
Qed.

Lemma exact_children ok (rel : B -> list K -> Prop) lo strict i (n : node B K V) : semilattice_laws (bops P) ->
  (forall b l, rel b l -> rel_exact P b l) -> wf cfg ok rel lo strict i n ->
  node_bounds n = b_union_all (bops P) (child_bounds (key_bounds P) n).
Proof.
  intros SL Hrel Hw. rewrite (sl_union_all _ SL).
  destruct i as [|l]; destruct (wf_inv _ _ _ _ _ _ _ Hw) as (b & x & ->); unfold child_bounds; cbn [node_children node_bounds].
  - apply wf_rel, Hrel in Hw. unfold rel_exact, keys in Hw. cbn in Hw. now rewrite map_map in Hw.
  - rewrite wf_inner in Hw. destruct Hw as (Hr & _ & Hcs). apply Hrel in Hr. unfold rel_exact in Hr. rewrite Hr.
    clear Hr. induction Hcs as [|c cs [Hc _] Hcs IH]; cbn [flat_map map fold_right]; [reflexivity|].
    rewrite map_app, (uni_app P SL), IH. f_equal. apply wf_rel, Hrel in Hc. now rewrite Hc.
Qed.

Lemma bvh_exact ok (t : tree) i n : semilattice_laws (bops P) ->
  (forall k k', key_eq P k' k = true -> key_bounds P k' = key_bounds P k) ->
  reachable P cfg ok t -> node_at t i n ->
  node_bounds n = b_union_all (bops P) (child_bounds (key_bounds P) n).
Proof.
  intros SL Hk Hr Hat. apply inv_exact in Hr; auto.
  destruct (node_at_wf _ _ _ _ _ _ _ _ _ Hr Hat) as [Hw _].
  eapply exact_children; [exact SL| |exact Hw]. auto.
Qed.

Lemma debug_bvh_node ok beq level (n : node B K V) : semilattice_laws (bops P) ->
  (forall b, beq b b = true) -> wf cfg ok (rel_exact P) 0 False level n ->
  debug_assert_bvh P beq level n = Ok (node_bounds n).
Proof.
  intros SL Hb. revert n; induction level as [|l IH]; intros n Hw;
    assert (He := exact_children ok _ _ _ _ n SL (fun _ _ H => H) Hw);
    destruct (wf_inv _ _ _ _ _ _ _ Hw) as (b & x & ->); cbn [debug_assert_bvh node_children read_leaf read_inner bind node_bounds] in *.
  - cbn in He. rewrite <- He, Hb. reflexivity.
  - rewrite wf_inner in Hw. destruct Hw as (_ & _ & Hcs).
    set (loop := (fix loop (cs : list (node B K V)) : res (list B) := _)).
    assert (E : loop x = Ok (map node_bounds x)).
    { clear He. induction Hcs as [|c cs [Hc _] Hcs IHcs]; [reflexivity|].
      cbn [loop]. rewrite (IH c Hc). cbn [bind]. fold loop. rewrite IHcs. reflexivity. }
    rewrite E. cbn [bind]. unfold child_bounds in He. cbn [node_children] in He. rewrite <- He, Hb. reflexivity.
Qed.

Lemma debug_bvh_spec ok beq (t : tree) : semilattice_laws (bops P) ->
  (forall k k', key_eq P k' k = true -> key_bounds P k' = key_bounds P k) ->
  (forall b, beq b b = true) ->
  reachable P cfg ok t -> rtree_debug_assert_bvh P beq t = Ok (node_bounds (snd t)).
Proof.
  intros SL Hk Hb Hr. apply inv_exact in Hr; auto. destruct Hr as [Hw _]. eapply debug_bvh_node; eassumption.
Qed.

(** *** fill *)
Lemma fill_max ok (t : tree) i n : reachable P cfg ok t -> node_at t i n -> fanout n <= cap.
Proof.
  intros Hr Hat. apply inv_any in Hr. destruct (node_at_wf _ _ _ _ _ _ _ _ _ Hr Hat) as [Hw _].
  destruct i; cbn in Hw; tauto.
Qed.

Lemma fill_guaranteed ok (t : tree) i n : reachable P cfg ok t -> node_at t i n -> i < fst t ->
  guaranteed_fill cfg <= fanout n.
Proof.
  intros Hr Hat Hi. apply inv_guaranteed in Hr. destruct (node_at_wf _ _ _ _ _ _ _ _ _ Hr Hat) as (Hw & _ & Hf).
  specialize (Hf Hi I). unfold lo_at in Hf. destruct i; lia.
Qed.

Lemma fill_min ok (t : tree) i n : 2 * minc <= cap -> reachable P cfg ok t -> node_at t i n -> i < fst t ->
  minc <= fanout n.
Proof. intros H Hr Hat Hi. rewrite <- (guaranteed_min H). eapply fill_guaranteed; eassumption. Qed.

Lemma fill_root ok (t : tree) : supported cfg -> reachable P cfg ok t -> fst t <> 0 -> 2 <= fanout (snd t).
Proof.
  intros Hs Hr. destruct (supported_cases Hs) as [Hc [Hz|Hm]].
  - apply (inv_min0 _ _ Hc Hz) in Hr. apply Hr. exact I.
  - exact (all_wide_root cfg ok Hc t (reachable_wide P cfg ok Hc Hm t Hr)).
Qed.

Lemma debug_min_node ok level (n : node B K V) (is_root : bool) : 
  wf cfg ok rel_any minc True level n -> (is_root = false -> minc <= fanout n) ->
  debug_assert_min_children cfg is_root level n = Ok tt.
Proof.
  revert n is_root; induction level as [|l IH]; intros n is_root Hw Hf; cbn [debug_assert_min_children];
    rewrite (shallow_len_spec _ _ _ _ _ _ _ Hw); cbn [bind].
  - destruct (Nat.ltb_spec (fanout n) minc); [|now rewrite andb_false_r].
    destruct is_root; [reflexivity|]. specialize (Hf eq_refl). lia.
  - replace (negb is_root && (fanout n <? minc)) with false.
    2:{ destruct is_root; [reflexivity|]. specialize (Hf eq_refl). destruct (Nat.ltb_spec (fanout n) minc); [lia|reflexivity]. }
    destruct (wf_inv _ _ _ _ _ _ _ Hw) as (b & x & ->). cbn [node_children read_inner bind].
    rewrite wf_inner in Hw. destruct Hw as (_ & _ & Hcs). clear Hf.
    induction Hcs as [|c cs [Hc Hl] Hcs IHcs]; [reflexivity|].
    rewrite IH; [exact IHcs|exact Hc|]. intros _. specialize (Hl I). unfold lo_at in Hl. destruct l; lia.
Qed.

Lemma debug_min_spec ok (t : tree) : 2 * minc <= cap -> reachable P cfg ok t ->
  rtree_debug_assert_min_children cfg t = Ok tt.
Proof.
  intros H Hr. apply inv_fill in Hr; [|exact H]. destruct Hr as [Hw _]. eapply debug_min_node; [exact Hw|discriminate].
Qed.

(** *** depth and height *)
Lemma uniform_depth ok (t : tree) i n : reachable P cfg ok t -> node_at t i n ->
  match node_children n with CLeaf _ => i = 0 | CInner _ => i <> 0 end.
Proof.
  intros Hr Hat. apply inv_any in Hr. destruct (node_at_wf _ _ _ _ _ _ _ _ _ Hr Hat) as [Hw _].
  destruct i; destruct (wf_inv _ _ _ _ _ _ _ Hw) as (b & x & ->); cbn; auto.
Qed.

Lemma height_bound ok (t : tree) : supported cfg -> reachable P cfg ok t ->
  fst t <> 0 -> 2 * guaranteed_fill cfg ^ fst t <= length (contents t).
Proof.
  intros Hs Hr H0. assert (Hroot := fill_root ok t Hs Hr H0).
  apply inv_guaranteed in Hr. destruct Hr as [Hw _].
  assert (H := entries_count cfg ok rel_any (guaranteed_fill cfg) True (fst t) (snd t) I Hw). unfold contents.
  assert (2 * guaranteed_fill cfg ^ fst t <= fanout (snd t) * guaranteed_fill cfg ^ fst t)
    by (apply Nat.mul_le_mono_r; assumption). lia.
Qed.

Lemma height_log ok (t : tree) : 2 <= minc -> minc + 2 <= cap -> reachable P cfg ok t ->
  fst t <> 0 -> 2 ^ S (fst t) <= length (contents t).
Proof.
  intros H1 H2 Hr H0. assert (Hs : supported cfg) by (unfold supported; lia).
  assert (H := height_bound ok t Hs Hr H0).
  assert (2 ^ fst t <= guaranteed_fill cfg ^ fst t) by (apply Nat.pow_le_mono_l; unfold guaranteed_fill; lia).
  rewrite Nat.pow_succ_r'. lia.
Qed.

(** *** panics and undefined behaviour *)
Lemma step_post ok (t : tree) o (nopanic : Prop) lo (strict : Prop)
  (Hns : nopanic -> strict) (Hcap : nopanic -> 2 <= cap)
  (Hlo : strict -> lo <= 1 \/ lo <= Nat.min minc (cap - minc)) :
  ((forall k, o <> ORemove k) \/ ((strict -> lo <= minc) /\ (nopanic -> minc = 0 \/ 2 <= lo))) ->
  ok_op ok o -> wf_root cfg ok rel_any lo strict nopanic t ->
  post (step P cfg t o) (~ nopanic) (fun r => wf_root cfg ok rel_any lo strict nopanic (snd r)).
Proof.
  intros Hrm Hok Hw. destruct o as [k v|k v|k|k|k v| | |]; cbn [step ok_op op_key] in *.
  - eapply post_bind; [apply (insert_entry_spec P cfg ok rel_any (any_laws P ok) lo strict nopanic Hns Hcap Hlo t (ELeaf (k, v)) Hw Hok (Nat.le_0_l _))|].
    intros t' _ (_ & H & _). exact H.
  - eapply post_bind; [apply (container_insert_unique_spec P cfg ok rel_any (any_laws P ok) lo strict nopanic Hns Hcap Hlo False ltac:(tauto) t k v Hw Hok)|].
    intros [p t'] _ (H & _). exact H.
  - destruct Hrm as [Hrm|[H1 H2]]; [elim (Hrm k); reflexivity|].
    eapply post_bind; [apply (container_remove_spec P cfg ok rel_any (any_laws P ok) lo strict (self_borrow P) nopanic Hns Hcap Hlo H1 H2 False ltac:(tauto) t k Hw)|].
    intros [p t'] _ (H & _). exact H.
  - destruct Hw as [Hw1 Hw2]. destruct (node_get_safe P (self_borrow P) cfg ok rel_any lo strict False ltac:(tauto) (fst t) (snd t) k Hw1) as (p & E).
    unfold rtree_get. rewrite E. cbn. split; assumption.
  - destruct (node_get_mut_spec P (self_borrow P) cfg ok rel_any lo strict False ltac:(tauto) (fst t) (snd t) k (proj1 Hw)) as (r & E & _ & He).
    unfold rtree_get_mut. rewrite E. cbn [bind option_map post]. destruct r as [[old put]|]; cbn [option_map fst snd]; [|exact Hw].
    eapply wf_root_values; [exact Hw|]. split; [reflexivity|]. cbn [snd]. now rewrite He.
  - unfold rtree_len. rewrite (node_len_spec _ _ _ _ _ _ _ (proj1 Hw)). exact Hw.
  - unfold rtree_is_empty. rewrite (node_is_empty_spec _ _ _ _ _ _ _ (proj1 Hw)). exact Hw.
  - unfold rtree_clone. rewrite (clone_node_spec _ _ _ _ _ _ _ (proj1 Hw)). cbn. exact Hw.
Qed.

Lemma run_post ok os (t : tree) (nopanic : Prop) lo (strict : Prop)
  (Hns : nopanic -> strict) (Hcap : nopanic -> 2 <= cap)
  (Hlo : strict -> lo <= 1 \/ lo <= Nat.min minc (cap - minc)) :
  ((forall k, ~ In (ORemove k) os) \/ ((strict -> lo <= minc) /\ (nopanic -> minc = 0 \/ 2 <= lo))) ->
  Forall (ok_op ok) os -> wf_root cfg ok rel_any lo strict nopanic t ->
  post (run P cfg t os) (~ nopanic) (fun r => wf_root cfg ok rel_any lo strict nopanic (snd r)).
Proof.
  revert t; induction os as [|o os IH]; intros t Hrm Hok Hw; cbn [run]; [exact Hw|].
  inversion Hok as [|? ? Hok1 Hok2]; subst.
  eapply post_bind; [apply (step_post ok t o nopanic lo strict Hns Hcap Hlo)|].
  - destruct Hrm as [Hrm|Hrm]; [left; intros k ->; apply (Hrm k); now left|right; exact Hrm].
  - exact Hok1.
  - exact Hw.
  - intros [x t'] _ Hw'. eapply post_bind; [apply IH|].
    + destruct Hrm as [Hrm|Hrm]; [left; intros k Hin; apply (Hrm k); now right|right; exact Hrm].
    + exact Hok2.
    + exact Hw'.
    + intros [xs t2] _ H. exact H.
Qed.

(** For every configuration: never [UB] (nor out of fuel). *)
Lemma run_no_ub os : run P cfg (rtree_new P : tree) os <> UB /\ run P cfg (rtree_new P : tree) os <> OutOfFuel.
Proof.
  assert (H := run_post any_key os (rtree_new P) False 0 False ltac:(tauto) ltac:(tauto) ltac:(tauto)
    ltac:(right; tauto)).
  assert (Hf : Forall (ok_op any_key) os).
  { apply Forall_forall. intros o _. unfold ok_op, any_key. now destruct (op_key o). }
  specialize (H Hf (inv_any any_key _ (r_new P cfg any_key))).
  destruct (run P cfg (rtree_new P) os); cbn in H; split; congruence || tauto.
Qed.

Lemma run_no_panic_grow os : 2 <= cap -> (forall k, ~ In (ORemove k) os) ->
  exists r, run P cfg (rtree_new P : tree) os = Ok r.
Proof.
  intros H1 H2.
  assert (H := run_post any_key os (rtree_new P) True 1 True ltac:(tauto) ltac:(lia) ltac:(lia) ltac:(left; exact H2)).
  assert (Hf : Forall (ok_op any_key) os).
  { apply Forall_forall. intros o _. unfold ok_op, any_key. now destruct (op_key o). }
  specialize (H Hf (inv_grown any_key _ H1 (g_new P cfg any_key))).
  apply post_exists in H as (r & E & _); [eauto|tauto].
Qed.

(** Single calls on reachable trees. *)
Lemma remove_post ok (t : tree) (Q : Type) (BR : Borrowed B K Q) q (nopanic : Prop) lo (strict : Prop)
  (Hns : nopanic -> strict) (Hcap : nopanic -> 2 <= cap)
  (Hlo : strict -> lo <= 1 \/ lo <= Nat.min minc (cap - minc)) :
  (strict -> lo <= minc) -> (nopanic -> minc = 0 \/ 2 <= lo) ->
  wf_root cfg ok rel_any lo strict nopanic t ->
  post (rtree_remove P cfg BR t q) (~ nopanic) (fun r => wf_root cfg ok rel_any lo strict nopanic (snd r)).
Proof.
  intros H1 H2 Hw.
  eapply post_mono; [apply (container_remove_spec P cfg ok rel_any (any_laws P ok) lo strict BR nopanic Hns Hcap Hlo H1 H2 False ltac:(tauto) t q Hw)|auto|].
  intros [p t'] (H & _). exact H.
Qed.

Lemma step_total ok (t : tree) o : supported cfg -> reachable P cfg ok t -> ok_op ok o -> exists r, step P cfg t o = Ok r.
Proof.
  intros Hs Hr Hok. destruct (supported_cases Hs) as [Hc [Hz|Hm]].
  - apply (inv_min0 _ _ Hc Hz) in Hr.
    assert (H := step_post ok t o True 0 True ltac:(tauto) ltac:(lia) ltac:(lia) ltac:(right; lia) Hok Hr).
    apply post_exists in H as (r & E & _); [eauto|tauto].
  - apply (reachable_wide P cfg ok Hc Hm) in Hr. assert (Hroot := all_wide_root cfg ok Hc t Hr).
    destruct o as [k v|k v|k|k|k v| | |]; cbn [step ok_op op_key] in *.
    + assert (H := insert_wide P cfg ok Hc t k v Hr Hok). apply post_exists in H as (t' & E & _); [|tauto].
      rewrite E. cbn. eauto.
    + assert (H := insert_unique_wide P cfg ok Hc t k v Hr Hok). apply post_exists in H as ([p t'] & E & _); [|tauto].
      rewrite E. cbn. eauto.
    + assert (H := remove_wide P cfg ok Hc Hm t (self_borrow P) k Hr). apply post_exists in H as ([p t'] & E & _); [|tauto].
      rewrite E. cbn. eauto.
    + destruct (node_get_safe P (self_borrow P) cfg ok rel_any 1 True False ltac:(tauto) (fst t) (snd t) k (proj1 (proj1 Hr))) as (p & E).
      unfold rtree_get. rewrite E. cbn. eauto.
    + destruct (node_get_mut_spec P (self_borrow P) cfg ok rel_any 1 True False ltac:(tauto) (fst t) (snd t) k (proj1 (proj1 Hr))) as (r & E & _ & He).
      unfold rtree_get_mut. rewrite E. cbn [bind option_map]. destruct r as [[old put]|]; cbn [option_map fst snd]; eauto.
    + unfold rtree_len. rewrite (node_len_spec _ _ _ _ _ _ _ (proj1 (proj1 Hr))). cbn. eauto.
    + unfold rtree_is_empty. rewrite (node_is_empty_spec _ _ _ _ _ _ _ (proj1 (proj1 Hr))). cbn. eauto.
    + unfold rtree_clone. rewrite (clone_node_spec _ _ _ _ _ _ _ (proj1 (proj1 Hr))). cbn. eauto.
Qed.

Lemma remove_total ok (t : tree) (Q : Type) (BR : Borrowed B K Q) q : supported cfg -> reachable P cfg ok t ->
  exists r, rtree_remove P cfg BR t q = Ok r.
Proof.
  intros Hs Hr. destruct (supported_cases Hs) as [Hc [Hz|Hm]].
  - apply (inv_min0 _ _ Hc Hz) in Hr.
    assert (H := remove_post ok t Q BR q True 0 True ltac:(tauto) ltac:(lia) ltac:(lia) ltac:(lia) ltac:(lia) Hr).
    apply post_exists in H as (r & E & _); [eauto|tauto].
  - apply (reachable_wide P cfg ok Hc Hm) in Hr.
    assert (H := remove_wide P cfg ok Hc Hm t BR q Hr). apply post_exists in H as (r & E & _); [eauto|tauto].
Qed.

Lemma insert_total ok (t : tree) k v : supported cfg -> reachable P cfg ok t -> ok k -> exists t', rtree_insert P cfg t k v = Ok t'.
Proof.
  intros Hs Hr Hk. destruct (step_total ok t (OInsert k v) Hs Hr Hk) as [r E]. cbn in E.
  destruct (rtree_insert P cfg t k v); try discriminate. eauto.
Qed.

Lemma insert_unique_total ok (t : tree) k v : supported cfg -> reachable P cfg ok t -> ok k ->
  exists r, rtree_insert_unique P cfg t k v = Ok r.
Proof.
  intros Hs Hr Hk. destruct (step_total ok t (OInsertUnique k v) Hs Hr Hk) as [r E]. cbn in E.
  destruct (rtree_insert_unique P cfg t k v); try discriminate. eauto.
Qed.

Lemma grown_step_total ok (t : tree) o : 2 <= cap -> grown P cfg ok t -> ok_op ok o -> (forall k, o <> ORemove k) ->
  exists r, step P cfg t o = Ok r.
Proof.
  intros H1 Hr Hok Hrm. apply inv_grown in Hr; auto.
  assert (H := step_post ok t o True 1 True ltac:(tauto) ltac:(lia) ltac:(lia) ltac:(left; exact Hrm) Hok Hr).
  apply post_exists in H as (r & E & _); [eauto|tauto].
Qed.

(** No call on a reachable tree is undefined behaviour, whatever the configuration. *)
Lemma step_no_ub ok (t : tree) o : reachable P cfg ok t -> ok_op ok o -> step P cfg t o <> UB /\ step P cfg t o <> OutOfFuel.
Proof.
  intros Hr Hok. apply inv_any in Hr.
  assert (H := step_post ok t o False 0 False ltac:(tauto) ltac:(tauto) ltac:(tauto) ltac:(right; tauto) Hok Hr).
  destruct (step P cfg t o); cbn in H; split; congruence || tauto.
Qed.

Lemma remove_no_ub ok (t : tree) (Q : Type) (BR : Borrowed B K Q) q : reachable P cfg ok t ->
  rtree_remove P cfg BR t q <> UB /\ rtree_remove P cfg BR t q <> OutOfFuel.
Proof.
  intros Hr. apply inv_any in Hr.
  assert (H := remove_post ok t Q BR q False 0 False ltac:(tauto) ltac:(tauto) ltac:(tauto) ltac:(tauto) ltac:(tauto) Hr).
  destruct (rtree_remove P cfg BR t q); cbn in H; split; congruence || tauto.
Qed.

Lemma get_safe ok (t : tree) (Q : Type) (BR : Borrowed B K Q) q : reachable P cfg ok t -> exists o, rtree_get P BR t q = Ok o.
Proof. intros Hr. apply inv_any in Hr. eapply (node_get_safe P BR cfg ok rel_any 0 False False); [tauto|apply Hr]. Qed.

Lemma get_mut_safe ok (t : tree) (Q : Type) (BR : Borrowed B K Q) q : reachable P cfg ok t ->
  exists o, rtree_get_mut P BR t q = Ok o.
Proof.
  intros Hr. apply inv_any in Hr.
  destruct (node_get_mut_spec P BR cfg ok rel_any 0 False False ltac:(tauto) (fst t) (snd t) q (proj1 Hr)) as (r & E & _).
  unfold rtree_get_mut. rewrite E. cbn. eauto.
Qed.

(** Histories of calls reach reachable trees. *)
Lemma step_reachable ok (t t' : tree) o x : reachable P cfg ok t -> ok_op ok o -> step P cfg t o = Ok (x, t') ->
  reachable P cfg ok t'.
Proof.
  intros Hr Hok. destruct o as [k v|k v|k|k|k v| | |]; cbn [step ok_op op_key] in *.
  - destruct (rtree_insert P cfg t k v) eqn:E; cbn; try discriminate. intros [= _ <-]. eapply r_insert; eassumption.
  - destruct (rtree_insert_unique P cfg t k v) as [[p t1]| | |] eqn:E; cbn; try discriminate. intros [= _ <-].
    eapply r_insert_unique; eassumption.
  - destruct (rtree_remove P cfg (self_borrow P) t k) as [[p t1]| | |] eqn:E; cbn; try discriminate. intros [= _ <-].
    eapply r_remove; eassumption.
  - destruct (rtree_get P (self_borrow P) t k) eqn:E; cbn; try discriminate. now intros [= _ <-].
  - assert (Hw := inv_any ok t Hr).
    destruct (node_get_mut_spec P (self_borrow P) cfg ok rel_any 0 False False ltac:(tauto) (fst t) (snd t) k (proj1 Hw)) as (r & E & _ & He).
    unfold rtree_get_mut. rewrite E. cbn [bind]. destruct r as [[old put]|]; cbn; intros [= _ <-]; [|exact Hr].
    eapply r_values; [exact Hr|]. split; [reflexivity|]. cbn [snd]. now rewrite He.
  - destruct (rtree_len t) eqn:E; cbn; try discriminate. now intros [= _ <-].
  - destruct (rtree_is_empty t) eqn:E; cbn; try discriminate. now intros [= _ <-].
  - destruct (rtree_clone cfg t) eqn:E; cbn; try discriminate. intros [= _ <-]. eapply r_clone; eassumption.
Qed.

Lemma run_reachable ok os (t t' : tree) xs : reachable P cfg ok t -> Forall (ok_op ok) os -> run P cfg t os = Ok (xs, t') ->
  reachable P cfg ok t'.
Proof.
  revert t xs; induction os as [|o os IH]; intros t xs Hr Hok; cbn [run]; [now intros [= _ <-]|].
  inversion Hok as [|? ? Hok1 Hok2]; subst.
  destruct (step P cfg t o) as [[x t1]| | |] eqn:E; cbn; try discriminate.
  destruct (run P cfg t1 os) as [[xs1 t2]| | |] eqn:E2; cbn; try discriminate. intros [= _ <-].
  eapply IH; [|exact Hok2|exact E2]. eapply step_reachable; eassumption.
Qed.

Lemma run_total ok os (t : tree) : supported cfg -> reachable P cfg ok t -> Forall (ok_op ok) os ->
  exists r, run P cfg t os = Ok r.
Proof.
  intros Hs. revert t; induction os as [|o os IH]; intros t Hr Hok; cbn [run]; [eauto|].
  inversion Hok as [|? ? Hok1 Hok2]; subst. destruct (step_total ok t o Hs Hr Hok1) as [[x t'] E]. rewrite E. cbn [bind].
  destruct (IH t' (step_reachable ok t t' o x Hr Hok1 E) Hok2) as [[xs t2] E2]. rewrite E2. cbn. eauto.
Qed.

Lemma run_no_panic os : supported cfg -> exists r, run P cfg (rtree_new P : tree) os = Ok r.
Proof.
  intros Hs. apply (run_total any_key); [exact Hs|apply r_new|].
  apply Forall_forall. intros o _. unfold ok_op, any_key. now destruct (op_key o).
Qed.

(** *** insert_unique and remove make a map *)
Section MapRefine.
Context (ok : K -> Prop) (incl : B -> B -> Prop) (BL : bounds_laws (bops P) incl).
Context (LL : lookup_laws P (self_borrow P) incl ok) (EL : key_eq_laws (key_eq P)).
Notation eqb := (key_eq P).
Notation lookup l k := (option_map snd (find (fun kv : K * V => eqb (fst kv) k) l)).

Lemma eqb_false_sym a b : eqb a b = false -> eqb b a = false.
Proof. intros H. destruct (eqb b a) eqn:E; [|reflexivity]. apply (keq_sym _ EL) in E. congruence. Qed.

Lemma unique_perm (l l' : list (K * V)) : Permutation l l' -> unique_keys eqb l -> unique_keys eqb l'.
Proof.
  unfold unique_keys. induction 1 as [|x l l' Hp IH|x y l|l l' l'' _ IH1 _ IH2]; intros H; auto.
  - inversion H as [|? ? H1 H2]; subst. constructor; [|auto]. eapply Forall_perm; eassumption.
  - inversion H as [|? ? H1 H2]; subst. inversion H2 as [|? ? H3 H4]; subst. inversion H1 as [|? ? H5 H6]; subst.
    constructor; [constructor; [now apply eqb_false_sym|assumption]|]. constructor; assumption.
Qed.

(** With unique keys, looking up does not depend on the order. *)
Lemma lookup_unique (l : list (K * V)) k k' v : unique_keys eqb l -> In (k', v) l -> eqb k' k = true -> lookup l k = Some v.
Proof.
  unfold unique_keys. induction 1 as [|[a w] l Ha Hl IH]; intros Hin Hk; [destruct Hin|]. cbn [find fst].
  destruct (eqb a k) eqn:E; cbn [option_map snd].
  - destruct Hin as [[= -> ->]|Hin]; [reflexivity|]. rewrite Forall_forall in Ha. specialize (Ha _ Hin). cbn in Ha.
    apply (keq_sym _ EL) in Hk. rewrite (keq_trans _ EL _ _ _ E Hk) in Ha. discriminate.
  - destruct Hin as [[= -> ->]|Hin]; [congruence|]. auto.
Qed.

Lemma lookup_none (l : list (K * V)) k : (forall kv, In kv l -> eqb (fst kv) k = false) -> lookup l k = None.
Proof. intros H. now rewrite (proj2 (find_none_iff _ _) H). Qed.

Lemma lookup_some (l : list (K * V)) k v : lookup l k = Some v -> exists k', In (k', v) l /\ eqb k' k = true.
Proof.
  destruct (find _ l) as [[k' w]|] eqn:E; cbn; [|discriminate]. intros [= ->].
  apply find_some in E as [E1 E2]. eauto.
Qed.

Lemma lookup_perm (l l' : list (K * V)) k : unique_keys eqb l -> Permutation l l' -> lookup l k = lookup l' k.
Proof.
  intros Hu Hp. destruct (lookup l' k) as [v|] eqn:E.
  - apply lookup_some in E as (k' & Hin & Hk). eapply lookup_unique; [exact Hu| |exact Hk]. now rewrite Hp.
  - apply lookup_none. intros kv Hin. destruct (eqb (fst kv) k) eqn:Ek; [|reflexivity]. exfalso.
    destruct kv as [k' v]. rewrite (lookup_unique l' k k' v) in E; [discriminate| | |exact Ek].
    + eapply unique_perm; eassumption.
    + now rewrite <- Hp.
Qed.

Lemma lookup_cons (l : list (K * V)) a v k : lookup ((a, v) :: l) k = if eqb a k then Some v else lookup l k.
Proof. cbn [find fst]. now destruct (eqb a k). Qed.

Definition refines (t : tree) (m : fmap (K := K) (V := V)) : Prop :=
  reachable P cfg ok t /\ unique_keys eqb (contents t) /\ forall k, lookup (contents t) k = m k.

Lemma replace_lookup (l1 l2 : list (K * V)) a v w k : lookup (l1 ++ (a, w) :: l2) k =
  match lookup l1 k with Some x => Some x | None => if eqb a k then Some w else lookup l2 k end
  /\ (lookup (l1 ++ (a, v) :: l2) k = match lookup l1 k with Some x => Some x | None => if eqb a k then Some v else lookup l2 k end).
Proof.
  rewrite !find_app_. destruct (find _ l1); cbn [option_map]; [auto|]. rewrite !lookup_cons. auto.
Qed.

Lemma eqb_swap a b c : eqb a b = true -> eqb a c = eqb b c.
Proof.
  intros H. destruct (eqb b c) eqn:E.
  - now apply (keq_trans _ EL _ b).
  - destruct (eqb a c) eqn:E2; [|reflexivity]. apply (keq_sym _ EL) in H.
    rewrite (keq_trans _ EL _ _ _ H E2) in E. discriminate.
Qed.

(** Replacing the value of the entry with key [a] (equal to [k]). *)
Lemma replaced (l1 l2 : list (K * V)) a old v k :
  unique_keys eqb (l1 ++ (a, old) :: l2) -> eqb a k = true ->
  unique_keys eqb (l1 ++ (a, v) :: l2)
  /\ lookup (l1 ++ (a, old) :: l2) k = Some old
  /\ forall k', lookup (l1 ++ (a, v) :: l2) k' = if eqb k k' then Some v else lookup (l1 ++ (a, old) :: l2) k'.
Proof.
  intros Hu Hk.
  assert (Hu1 : unique_keys eqb ((a, old) :: l1 ++ l2)) by (eapply unique_perm; [|exact Hu]; perm).
  assert (Hu2 : unique_keys eqb ((a, v) :: l1 ++ l2)).
  { inversion Hu1 as [|? ? H1 H2]; subst. constructor; assumption. }
  assert (Hu3 : unique_keys eqb (l1 ++ (a, v) :: l2)) by (eapply unique_perm; [|exact Hu2]; perm).
  split; [exact Hu3|]. split.
  - eapply lookup_unique; [exact Hu| |exact Hk]. apply in_or_app. right. now left.
  - intros k'. rewrite (lookup_perm (l1 ++ (a, v) :: l2) ((a, v) :: l1 ++ l2)) by (auto; perm).
    rewrite (lookup_perm (l1 ++ (a, old) :: l2) ((a, old) :: l1 ++ l2)) by (auto; perm).
    rewrite !lookup_cons, (eqb_swap a k k' Hk). now destruct (eqb k k').
Qed.

Lemma map_step_refines (t t' : tree) m o x y m' : refines t m -> ok_op ok o ->
  step P cfg t o = Ok (x, t') -> map_step eqb m o = Some (y, m') -> x = y /\ refines t' m'.
Proof.
  intros (Hr & Hu & Hm) Hok E Em. assert (Hr' := step_reachable ok t t' o x Hr Hok E).
  destruct o as [k v|k v|k|k|k v| | |]; cbn [step map_step ok_op op_key] in *; try discriminate.
  - destruct (rtree_insert_unique P cfg t k v) as [[p t1]| | |] eqn:E1; cbn in E; try discriminate.
    injection E as <- <-. injection Em as <- <-.
    apply (insert_unique_spec ok incl BL LL) in E1; auto. destruct p as [old|].
    + destruct E1 as (_ & l1 & a & l2 & Ec & Ha & Hl1 & Ec'). rewrite Ec in Hu, Hm.
      destruct (replaced l1 l2 a old v k Hu Ha) as (Hu' & Hl & Hl'). split; [now rewrite <- Hm, Hl|].
      split; [exact Hr'|]. rewrite Ec'. split; [exact Hu'|]. intros k'. rewrite Hl'. unfold map_set.
      destruct (eqb k k'); [reflexivity|apply Hm].
    + destruct E1 as (Hn & Hp). split; [rewrite <- Hm, (lookup_none _ _ Hn); reflexivity|].
      assert (Hu' : unique_keys eqb ((k, v) :: contents t)).
      { constructor; [|exact Hu]. apply Forall_forall. intros kv Hin. apply eqb_false_sym, Hn, Hin. }
      split; [exact Hr'|]. split; [eapply unique_perm; [symmetry; exact Hp|exact Hu']|].
      intros k'. rewrite <- (lookup_perm _ _ k' Hu' (Permutation_sym Hp)), lookup_cons. unfold map_set. now rewrite Hm.
  - destruct (rtree_remove P cfg (self_borrow P) t k) as [[p t1]| | |] eqn:E1; cbn in E; try discriminate.
    injection E as <- <-. injection Em as <- <-.
    apply (remove_spec ok incl BL (self_borrow P) LL) in E1; auto. cbn in E1. destruct p as [v|].
    + destruct E1 as (a & Ha & Hp).
      assert (Hu' : unique_keys eqb ((a, v) :: contents t1)) by (eapply unique_perm; eassumption).
      split.
      { rewrite <- Hm. f_equal. symmetry. eapply lookup_unique; [exact Hu| |exact Ha]. rewrite Hp. now left. }
      split; [exact Hr'|]. inversion Hu' as [|? ? H1 H2]; subst. split; [exact H2|].
      intros k'. unfold map_del. rewrite <- Hm, (lookup_perm _ _ k' Hu Hp), lookup_cons, (eqb_swap a k k' Ha).
      destruct (eqb k k') eqn:Ek; [|reflexivity]. apply lookup_none. intros kv Hin.
      rewrite Forall_forall in H1. specialize (H1 kv Hin). cbn in H1.
      destruct (eqb (fst kv) k') eqn:E2; [|reflexivity]. exfalso.
      apply (keq_sym _ EL) in E2. rewrite <- (eqb_swap a k k' Ha) in Ek.
      rewrite (keq_trans _ EL _ _ _ Ek E2) in H1. discriminate.
    + destruct E1 as (-> & Hn). assert (Hl : m k = None) by (rewrite <- Hm; now apply lookup_none).
      split; [now rewrite Hl|]. split; [exact Hr'|]. split; [exact Hu|]. intros k'. unfold map_del. rewrite Hm.
      destruct (eqb k k') eqn:Ek; [|reflexivity]. rewrite <- Hm. apply lookup_none. intros kv Hin.
      specialize (Hn kv Hin). cbn in Hn. destruct (eqb (fst kv) k') eqn:E2; [|reflexivity]. exfalso.
      apply (keq_sym _ EL) in Ek. rewrite (keq_trans _ EL _ _ _ E2 Ek) in Hn. discriminate.
  - rewrite (get_find ok incl BL (self_borrow P) LL t k Hr) in E. cbn in E. injection E as <- <-. injection Em as <- <-.
    split; [now rewrite <- Hm|]. repeat split; auto.
  - destruct (get_mut_spec ok incl BL (self_borrow P) LL t k Hr) as (r & E1 & Hs). rewrite E1 in E. cbn in E.
    injection Em as <- <-. destruct r as [[old put]|].
    + injection E as <- <-. cbn in Hs. destruct Hs as (_ & _ & l1 & a & l2 & Ec & Ha & Hl1 & Ec').
      rewrite Ec in Hu, Hm. destruct (replaced l1 l2 a old v k Hu Ha) as (Hu' & Hl & Hl').
      rewrite <- Hm, Hl. split; [reflexivity|]. split; [exact Hr'|]. rewrite Ec'. split; [exact Hu'|].
      intros k'. rewrite Hl'. unfold map_set. destruct (eqb k k'); [reflexivity|apply Hm].
    + injection E as <- <-. cbn in Hs. assert (Hl : m k = None) by (rewrite <- Hm; now apply lookup_none).
      rewrite Hl. split; [reflexivity|]. repeat split; auto.
  - rewrite (clone_spec ok t Hr) in E. cbn in E. injection E as <- <-. injection Em as <- <-.
    split; [reflexivity|]. repeat split; auto.
Qed.

Lemma map_run_refines os (t t' : tree) m xs ys m' : refines t m -> Forall (ok_op ok) os ->
  run P cfg t os = Ok (xs, t') -> map_run eqb m os = Some (ys, m') -> xs = ys /\ refines t' m'.
Proof.
  revert t m xs ys; induction os as [|o os IH]; intros t m xs ys Hr Hok; cbn [run map_run].
  - intros [= <- <-] [= <- <-]. auto.
  - inversion Hok as [|? ? Hok1 Hok2]; subst.
    destruct (step P cfg t o) as [[x t1]| | |] eqn:E; cbn [bind]; try discriminate.
    destruct (run P cfg t1 os) as [[xs1 t2]| | |] eqn:E2; cbn [bind]; try discriminate. intros [= <- <-].
    destruct (map_step eqb m o) as [[y m1]|] eqn:E3; [|discriminate].
    destruct (map_run eqb m1 os) as [[ys1 m2]|] eqn:E4; [|discriminate]. intros [= <- <-].
    destruct (map_step_refines t t1 m o x y m1 Hr Hok1 E E3) as [-> Hr1].
    destruct (IH t1 m1 xs1 ys1 Hr1 Hok2 E2 E4) as [-> Hr2]. auto.
Qed.

Lemma new_refines : refines (rtree_new P) (fun _ => None).
Proof. split; [apply r_new|]. split; [constructor|reflexivity]. Qed.

Lemma map_step_some m (o : op K V) : map_op o -> exists y m', map_step eqb m o = Some (y, m').
Proof. destruct o; cbn; try tauto; eauto. Qed.

Lemma map_run_some m (os : list (op K V)) : Forall map_op os -> exists ys m', map_run eqb m os = Some (ys, m').
Proof.
  intros H. revert m. induction H as [|o os Ho _ IH]; intros m; cbn [map_run]; [eauto|].
  destruct (map_step_some m o Ho) as (y & m1 & ->). destruct (IH m1) as (ys & m2 & ->). eauto.
Qed.

Lemma map_history os : supported cfg -> Forall map_op os -> Forall (ok_op ok) os ->
  exists xs (t : tree) m, run P cfg (rtree_new P) os = Ok (xs, t) /\ map_run eqb (fun _ => None) os = Some (xs, m)
  /\ unique_keys eqb (contents t) /\ forall k, lookup (contents t) k = m k.
Proof.
  intros Hsup Hm Hok. destruct (run_no_panic os Hsup) as [[xs t] E].
  destruct (map_run_some (fun _ => None) os Hm) as (ys & m & Em).
  destruct (map_run_refines os _ _ _ _ _ _ new_refines Hok E Em) as (-> & _ & Hu & Hl).
  exists ys, t, m. auto.
Qed.
End MapRefine.

Lemma final_reachable ok os : Forall (ok_op ok) os -> reachable P cfg ok (final P cfg os : tree).
Proof.
  intros Hok. unfold final. destruct (run P cfg (rtree_new P) os) as [[xs t]| | |] eqn:E; try apply r_new.
  eapply run_reachable; [apply r_new|exact Hok|exact E].
Qed.

Lemma final_reachable_any os : reachable P cfg any_key (final P cfg os : tree).
Proof. apply final_reachable. apply Forall_forall. intros o _. unfold ok_op, any_key. now destruct (op_key o). Qed.
End Main.

(** *** Statements in the form used by the properties *)
Section Forms.
Context {B K V : Type} (P : Params B K) (cfg : config).
Notation tree := (rtree B K V).
Context (ok : K -> Prop) (incl : B -> B -> Prop) (BL : bounds_laws (bops P) incl).

Section Lookup.
Context {Q : Type} (BR : Borrowed B K Q) (LL : lookup_laws P BR incl ok).

Lemma get_iff (t : tree) q : reachable P cfg ok t ->
  (rtree_get P BR t q = Ok None <-> forall k v, In (k, v) (contents t) -> q_eq BR (borrow BR k) q = false)
  /\ forall v, rtree_get P BR t q = Ok (Some v) <->
       exists l1 k l2, contents t = l1 ++ (k, v) :: l2 /\ q_eq BR (borrow BR k) q = true
         /\ forall k' v', In (k', v') l1 -> q_eq BR (borrow BR k') q = false.
Proof.
  intros Hr. rewrite (get_find P cfg ok incl BL BR LL t q Hr).
  set (f := fun kv : K * V => q_eq BR (borrow BR (fst kv)) q). split.
  - transitivity (find f (contents t) = None).
    + destruct (find f (contents t)); cbn; split; congruence.
    + rewrite find_none_iff. split; [intros H k v Hin; apply (H (k, v) Hin)|intros H [k v] Hin; apply (H k v Hin)].
  - intros v. split.
    + intros E. destruct (find f (contents t)) as [[k w]|] eqn:Ef; [|discriminate]. injection E as ->.
      apply find_split in Ef as (l1 & l2 & E1 & E2 & E3). exists l1, k, l2. split; [exact E1|]. split; [exact E2|].
      intros k' v' Hin. apply (E3 (k', v') Hin).
    + intros (l1 & k & l2 & E1 & E2 & E3). rewrite (find_split_iff f _ (k, v) l1 l2 E1 E2); [reflexivity|].
      intros [k' v'] Hin. apply (E3 k' v' Hin).
Qed.

Lemma remove_full (t t' : tree) q o : reachable P cfg ok t -> rtree_remove P cfg BR t q = Ok (o, t') ->
  (o <> None <-> exists k v, In (k, v) (contents t) /\ q_eq BR (borrow BR k) q = true) /\
  match o with
  | None => t' = t
  | Some v => exists k, q_eq BR (borrow BR k) q = true /\ Permutation (contents t) ((k, v) :: contents t')
  end.
Proof.
  intros Hr E. split.
  - rewrite (remove_some P cfg ok incl BL BR LL t t' q o Hr E). split.
    + intros ([k v] & H). eauto.
    + intros (k & v & H). exists (k, v). exact H.
  - apply (remove_spec P cfg ok incl BL BR LL) in E; [|exact Hr]. destruct o as [v|]; [|tauto].
    destruct E as (k & H1 & H2). exists k. auto.
Qed.

Lemma remove_only (t t' : tree) q o l1 k v l2 : reachable P cfg ok t ->
  contents t = l1 ++ (k, v) :: l2 -> q_eq BR (borrow BR k) q = true ->
  (forall k' v', In (k', v') (l1 ++ l2) -> q_eq BR (borrow BR k') q = false) ->
  rtree_remove P cfg BR t q = Ok (o, t') -> o = Some v /\ Permutation (contents t') (l1 ++ l2).
Proof.
  intros Hr Ec Hk Hl E. apply remove_full in E as [E1 E2]; [|exact Hr]. destruct o as [w|].
  - destruct E2 as (k2 & Hk2 & Hp). rewrite Ec in Hp.
    assert (Hin : In (k2, w) (l1 ++ (k, v) :: l2)) by (rewrite Hp; now left).
    assert (Heq : (k2, w) = (k, v)).
    { apply in_app_or in Hin as [Hin|[<-|Hin]]; [|reflexivity|]; exfalso;
        rewrite (Hl k2 w) in Hk2; try discriminate; apply in_or_app; auto. }
    injection Heq as -> ->. split; [reflexivity|]. symmetry. apply (Permutation_cons_inv (a := (k, v))).
    rewrite <- Hp. perm.
  - exfalso. apply (proj2 E1); [|reflexivity]. exists k, v. split; [|exact Hk]. rewrite Ec. apply in_or_app. right. now left.
Qed.

Lemma get_mut_full (t : tree) q : reachable P cfg ok t ->
  exists r, rtree_get_mut P BR t q = Ok r /\
  match r with
  | None => rtree_get P BR t q = Ok None
  | Some (v, put) =>
    rtree_get P BR t q = Ok (Some v) /\
    (forall v', rtree_get P BR (put v') q = Ok (Some v') /\ same_but_values t (put v')) /\
    exists l1 k l2, contents t = l1 ++ (k, v) :: l2 /\ forall v', contents (put v') = l1 ++ (k, v') :: l2
  end.
Proof.
  intros Hr. destruct (get_mut_spec P cfg ok incl BL BR LL t q Hr) as (r & E & H). exists r. split; [exact E|].
  destruct r as [[v put]|].
  - destruct H as (H1 & H2 & l1 & k & l2 & E1 & _ & _ & E2). split; [exact H1|]. split; [exact H2|].
    exists l1, k, l2. auto.
  - apply (proj1 (get_iff t q Hr)). intros k v Hin. apply (H (k, v) Hin).
Qed.
End Lookup.

Context (LL : lookup_laws P (self_borrow P) incl ok).

Lemma insert_unique_full (t t' : tree) k v o : reachable P cfg ok t -> ok k ->
  rtree_insert_unique P cfg t k v = Ok (o, t') ->
  match o with
  | None => (forall k' v', In (k', v') (contents t) -> key_eq P k' k = false)
            /\ Permutation (contents t') ((k, v) :: contents t)
  | Some old => fst t' = fst t /\
      exists l1 k' l2, contents t = l1 ++ (k', old) :: l2 /\ key_eq P k' k = true
        /\ (forall k'' v'', In (k'', v'') l1 -> key_eq P k'' k = false)
        /\ contents t' = l1 ++ (k', v) :: l2
  end.
Proof.
  intros Hr Hk E. apply (insert_unique_spec P cfg ok incl BL LL) in E; auto. destruct o as [old|].
  - destruct E as (E0 & l1 & k' & l2 & E1 & E2 & E3 & E4). split; [exact E0|]. exists l1, k', l2. repeat split; auto.
    intros k'' v'' Hin. apply (E3 (k'', v'') Hin).
  - destruct E as [E1 E2]. split; [|exact E2]. intros k' v' Hin. apply (E1 (k', v') Hin).
Qed.

Lemma find_again (EL : key_eq_laws (key_eq P)) (t t' : tree) k v : reachable P cfg ok t -> ok k ->
  rtree_insert P cfg t k v = Ok t' -> rtree_get P (self_borrow P) t' k <> Ok None.
Proof.
  intros Hr Hk E Hn. assert (Hr' : reachable P cfg ok t') by (eapply r_insert; eassumption).
  apply (proj1 (get_iff (self_borrow P) LL t' k Hr')) with (k := k) (v := v) in Hn.
  - cbn in Hn. rewrite (keq_refl _ EL) in Hn. discriminate.
  - rewrite (insert_contents P cfg ok t t' k v Hr Hk E). now left.
Qed.
End Forms.

Section Forms2.
Context {B K V : Type} (P : Params B K) (cfg : config).
Notation tree := (rtree B K V).

Lemma ok_any (o : op K V) : ok_op any_key o.
Proof. unfold ok_op, any_key. now destruct (op_key o). Qed.

Lemma is_empty_sound ok (t : tree) : reachable P cfg ok t ->
  exists b, rtree_is_empty t = Ok b /\ (b = true -> rtree_len t = Ok 0).
Proof.
  intros Hr. rewrite (len_spec P cfg ok t Hr). apply inv_any in Hr. destruct Hr as [Hw _]. unfold rtree_is_empty.
  rewrite (node_is_empty_spec _ _ _ _ _ _ _ Hw). eexists; split; [reflexivity|]. rewrite Nat.eqb_eq.
  intros E. unfold contents. destruct t as [level n]. cbn [fst snd] in *.
  destruct level as [|l]; destruct (wf_inv _ _ _ _ _ _ _ Hw) as (b & x & ->); cbn in E; apply length_zero_iff_nil in E; subst x; reflexivity.
Qed.
End Forms2.
