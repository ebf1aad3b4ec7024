(** Reachable trees keep the invariant; the read-only operations on them. *)
From Verif Require Export RemoveProof.

Section ReadOnly.
Context {B K V : Type} (P : Params B K) (cfg : config).
Context (ok : K -> Prop) (rel : B -> list K -> Prop) (lo : nat) (strict : Prop).
Notation node := (node B K V).
Notation cap := (max_children cfg).
Notation minc := (min_children cfg).
Notation wf := (wf cfg ok rel lo strict).

Lemma clone_vec_spec {T} (l acc : list T) :
  length acc + length l <= cap -> clone_vec cfg l acc = Ok (acc ++ l).
Proof.
  revert acc; induction l as [|x l IH]; intros acc H; cbn [clone_vec].
  - now rewrite app_nil_r.
  - cbn [length] in H. unfold push. destruct (Nat.eqb_spec (length acc) cap); [lia|]. cbn [bind].
    rewrite IH; [now rewrite <- app_assoc|]. rewrite app_length. cbn. lia.
Qed.

Lemma clone_node_spec level (n : node) : wf level n -> clone_node cfg level n = Ok n.
Proof.
  revert n; induction level as [|l IH]; intros n Hwf; cbn [clone_node];
    destruct (wf_inv _ _ _ _ _ _ _ Hwf) as (b & x & ->); cbn [node_children read_leaf read_inner bind node_bounds].
  - rewrite wf_leaf in Hwf. destruct Hwf as (_ & Hl & _). destruct (Nat.ltb_spec cap (length x)); [lia|].
    rewrite clone_vec_spec by (cbn; lia). reflexivity.
  - rewrite wf_inner in Hwf. destruct Hwf as (_ & Hl & Hcs).
    set (loop := (fix loop (cs new : list node) : res (list node) := _)).
    assert (E : forall cs new, Forall (child_ok cfg ok rel lo strict l) cs -> length new + length cs <= cap ->
              loop cs new = Ok (new ++ cs)).
    { induction cs as [|c cs IHcs]; intros new Hc Hlen; cbn [loop].
      - now rewrite app_nil_r.
      - inversion Hc as [|? ? [Hc1 _] Hc2]; subst. rewrite (IH c Hc1). cbn [bind length] in *.
        unfold push. destruct (Nat.eqb_spec (length new) cap); [lia|]. cbn [bind]. fold loop.
        rewrite IHcs; [now rewrite <- app_assoc|assumption|]. rewrite app_length. cbn. lia. }
    rewrite E by (cbn; auto). reflexivity.
Qed.

Lemma node_len_spec level (n : node) : wf level n -> node_len level n = Ok (length (entries n)).
Proof.
  revert n; induction level as [|l IH]; intros n Hwf; cbn [node_len];
    destruct (wf_inv _ _ _ _ _ _ _ Hwf) as (b & x & ->); cbn [node_children read_leaf read_inner bind].
  - reflexivity.
  - rewrite wf_inner in Hwf. destruct Hwf as (_ & Hl & Hcs). rewrite entries_inner.
    set (loop := (fix loop (cs : list node) (size : nat) : res nat := _)).
    assert (E : forall cs size, Forall (child_ok cfg ok rel lo strict l) cs ->
              loop cs size = Ok (size + length (flat_map entries cs))).
    { induction cs as [|c cs IHcs]; intros size Hc; cbn [loop].
      - cbn. now rewrite Nat.add_0_r.
      - inversion Hc as [|? ? [Hc1 _] Hc2]; subst. rewrite (IH c Hc1). cbn [bind]. fold loop.
        rewrite IHcs by assumption. cbn [flat_map]. rewrite app_length. f_equal. lia. }
    now rewrite E.
Qed.

Lemma node_is_empty_spec level (n : node) : wf level n -> node_is_empty level n = Ok (fanout n =? 0).
Proof.
  intros Hwf. destruct level; destruct (wf_inv _ _ _ _ _ _ _ Hwf) as (b & x & ->); reflexivity.
Qed.

Lemma drop_node_spec level (n : node) : wf level n ->
  exists l, drop_node level n = Ok l /\ Permutation l (entries n).
Proof.
  revert n; induction level as [|l IH]; intros n Hwf; cbn [drop_node];
    destruct (wf_inv _ _ _ _ _ _ _ Hwf) as (b & x & ->); cbn [node_children read_leaf read_inner bind].
  - eexists; split; [reflexivity|]. rewrite entries_leaf. symmetry. apply Permutation_rev.
  - rewrite wf_inner in Hwf. destruct Hwf as (_ & Hl & Hcs). rewrite entries_inner.
    set (loop := (fix loop (cs : list node) : res (list (K * V)) := _)).
    clear Hl. induction Hcs as [|c cs [Hc _] Hcs IHcs].
    + cbn. eauto.
    + destruct (IH c Hc) as (d & Ed & Hd). destruct IHcs as (ds & Eds & Hds).
      cbn [loop]. rewrite Ed. cbn [bind]. fold loop. rewrite Eds. cbn [bind flat_map].
      eexists; split; [reflexivity|]. now apply Permutation_app.
Qed.

Lemma entries_nonempty level (n : node) :
  strict -> 1 <= lo -> wf level n -> 1 <= fanout n -> 1 <= length (entries n).
Proof.
  intros HS Hlo1. revert n; induction level as [|l IH]; intros n Hwf Hf;
    destruct (wf_inv _ _ _ _ _ _ _ Hwf) as (b & x & ->).
  - exact Hf.
  - rewrite wf_inner in Hwf. destruct Hwf as (_ & Hl & Hcs). rewrite entries_inner. cbn in Hf.
    destruct x as [|c cs]; [cbn in Hf; lia|]. inversion Hcs as [|? ? [Hc1 Hc2] _]; subst.
    cbn [flat_map]. rewrite app_length. specialize (Hc2 HS).
    assert (1 <= fanout c) by (unfold lo_at in Hc2; destruct l; lia).
    specialize (IH c Hc1 ltac:(assumption)). lia.
Qed.

Lemma entries_count level (n : node) :
  strict -> wf level n -> fanout n * lo ^ level <= length (entries n).
Proof.
  intros HS. revert n; induction level as [|l IH]; intros n Hwf;
    destruct (wf_inv _ _ _ _ _ _ _ Hwf) as (b & x & ->).
  - cbn. lia.
  - rewrite wf_inner in Hwf. destruct Hwf as (_ & Hl & Hcs). rewrite entries_inner. cbn [fanout node_children].
    clear Hl. induction Hcs as [|c cs [Hc1 Hc2] Hcs IHcs]; [cbn; lia|].
    cbn [flat_map length]. rewrite app_length. specialize (IH c Hc1). specialize (Hc2 HS).
    assert (lo <= fanout c) by (unfold lo_at in Hc2; destruct l; lia).
    cbn [Nat.pow] in *. assert (lo * lo ^ l <= fanout c * lo ^ l) by (apply Nat.mul_le_mono_r; assumption). lia.
Qed.

Context (nopanic : Prop).
Notation wf_root := (wf_root cfg ok rel lo strict nopanic).

Lemma node_at_wf (t : rtree B K V) i n : wf_root t -> node_at t i n ->
  wf i n /\ i <= fst t /\ (i < fst t -> strict -> lo_at lo i <= fanout n).
Proof.
  intros [Hwf _]. induction 1 as [|i b cs c Hat IH Hin].
  - split; [exact Hwf|]. split; [lia|]. lia.
  - destruct IH as (Hw & Hle & _). rewrite wf_inner in Hw. destruct Hw as (_ & _ & Hcs).
    rewrite Forall_forall in Hcs. destruct (Hcs c Hin) as [Hc1 Hc2]. split; [exact Hc1|]. split; [lia|].
    intros _. exact Hc2.
Qed.

Lemma node_at_keys (t : rtree B K V) i n : node_at t i n -> forall kv, In kv (entries n) -> In kv (contents t).
Proof.
  induction 1 as [|i b cs c Hat IH Hin]; intros kv Hkv; [exact Hkv|].
  apply IH. rewrite entries_inner. apply in_flat_map. eauto.
Qed.
End ReadOnly.

Section Reachable.
Context {B K V : Type} (P : Params B K) (cfg : config).
Context (ok : K -> Prop) (rel : B -> list K -> Prop) (L : rel_laws P ok rel).
Context (lo : nat) (strict : Prop).
Notation cap := (max_children cfg).
Notation minc := (min_children cfg).
Context (nopanic : Prop) (Hns : nopanic -> strict).
Context (Hcap : nopanic -> 2 <= cap).
Context (Hlo : strict -> lo <= 1 \/ lo <= Nat.min minc (cap - minc)).
Notation wf_root := (wf_root cfg ok rel lo strict nopanic).

Lemma wf_root_insert (t t' : rtree B K V) k v : wf_root t -> ok k -> rtree_insert P cfg t k v = Ok t' -> wf_root t'.
Proof.
  intros Hw Hk E. unfold rtree_insert in E.
  assert (H := insert_entry_spec P cfg ok rel L lo strict nopanic Hns Hcap Hlo t (ELeaf (k, v)) Hw Hk (Nat.le_0_l _)).
  rewrite E in H. apply H.
Qed.

Lemma wf_root_insert_unique (t t' : rtree B K V) k v o :
  wf_root t -> ok k -> rtree_insert_unique P cfg t k v = Ok (o, t') -> wf_root t'.
Proof.
  intros Hw Hk E. unfold rtree_insert_unique in E.
  assert (H := container_insert_unique_spec P cfg ok rel L lo strict nopanic Hns Hcap Hlo False
                 (False_rect _) t k v Hw Hk).
  rewrite E in H. apply H.
Qed.

Lemma wf_root_clone (t t' : rtree B K V) : wf_root t -> rtree_clone cfg t = Ok t' -> t' = t :> rtree B K V.
Proof.
  intros [Hw _] E. unfold rtree_clone in E. rewrite (clone_node_spec _ _ _ _ _ _ _ Hw) in E.
  cbn in E. injection E as <-. now destruct t.
Qed.

Lemma wf_root_values (t t' : rtree B K V) : wf_root t -> same_but_values t t' -> wf_root t'.
Proof.
  intros [Hw Hr] [E1 E2]. split.
  - rewrite <- E1. eapply erase_wf; eassumption.
  - rewrite <- E1, <- (erase_fanout _ _ E2). exact Hr.
Qed.

Lemma grown_wf (t : rtree B K V) : grown P cfg ok t -> wf_root t.
Proof.
  induction 1 as [|t k v t' _ IH Hk E|t k v o t' _ IH Hk E|t t' _ IH E|t t' _ IH E].
  - now apply (new_wf P cfg ok rel L lo strict nopanic).
  - exact (wf_root_insert t t' k v IH Hk E).
  - exact (wf_root_insert_unique t t' k v o IH Hk E).
  - rewrite (wf_root_clone t t' IH E). exact IH.
  - exact (wf_root_values t t' IH E).
Qed.

Context (Hrem : strict -> lo <= minc).
Context (Hroot2 : nopanic -> minc = 0 \/ 2 <= lo).

Lemma wf_root_remove (t t' : rtree B K V) {Q} (BR : Borrowed B K Q) q o :
  wf_root t -> rtree_remove P cfg BR t q = Ok (o, t') -> wf_root t'.
Proof.
  intros Hw E. unfold rtree_remove in E.
  assert (H := container_remove_spec P cfg ok rel L lo strict BR nopanic Hns Hcap Hlo Hrem Hroot2 False
                 (False_rect _) t q Hw).
  rewrite E in H. apply H.
Qed.

Lemma reachable_wf (t : rtree B K V) : reachable P cfg ok t -> wf_root t.
Proof.
  induction 1 as [|t k v t' _ IH Hk E|t k v o t' _ IH Hk E|t Q BR q o t' _ IH E|t t' _ IH E|t t' _ IH E].
  - now apply (new_wf P cfg ok rel L lo strict nopanic).
  - exact (wf_root_insert t t' k v IH Hk E).
  - exact (wf_root_insert_unique t t' k v o IH Hk E).
  - exact (wf_root_remove t t' BR q o IH E).
  - rewrite (wf_root_clone t t' IH E). exact IH.
  - exact (wf_root_values t t' IH E).
Qed.
End Reachable.

(** ** Instances of the bounds relation *)
Section Instances.
Context {B K : Type} (P : Params B K).
Notation kb := (key_bounds P).

(** "The bounds include every key." *)
Definition rel_cover (incl : B -> B -> Prop) (b : B) (l : list K) : Prop := forall k, In k l -> incl b (kb k).

Lemma cover_laws ok incl : bounds_laws (bops P) incl -> rel_laws P ok (rel_cover incl).
Proof.
  intros L. split; unfold rel_cover.
  - intros b l l' Hp H k Hk. apply H. now rewrite Hp.
  - intros k [].
  - intros k _ k' [<-|[]]. apply (incl_refl _ _ L).
  - intros a b l m Ha Hb k Hk. apply in_app_or in Hk as [Hk|Hk].
    + eapply (incl_trans _ _ L); [apply (union_l _ _ L)|auto].
    + eapply (incl_trans _ _ L); [apply (union_r _ _ L)|auto].
  - intros bs ls H k Hk. apply in_concat in Hk as (l & Hl & Hk).
    assert (Hex : exists b, In b bs /\ incl b (kb k)).
    { induction H as [|b l0 bs ls Hb _ IH]; [destruct Hl|].
      destruct Hl as [->|Hl]; [exists b; split; [now left|auto]|].
      destruct (IH Hl) as (b' & ? & ?). exists b'. split; [now right|assumption]. }
    destruct Hex as (b & Hb & Hi). eapply (incl_trans _ _ L); [apply (union_all_member _ _ L), Hb|exact Hi].
  - intros b l k k' Hb _ _ _ k2 Hk2. eapply (incl_trans _ _ L); [apply (union_l _ _ L)|auto].
Qed.

(** No requirement on bounds at all. *)
Definition rel_any (b : B) (l : list K) : Prop := True.
Lemma any_laws ok : rel_laws P ok rel_any.
Proof. split; unfold rel_any; auto. Qed.

(** "The bounds are the union of the keys' bounds." *)
Definition rel_exact (b : B) (l : list K) : Prop :=
  b = fold_right (b_union (bops P)) (b_empty (bops P)) (map kb l).

Section Exact.
Context (SL : semilattice_laws (bops P)).
Notation uni := (fold_right (b_union (bops P)) (b_empty (bops P))).

Lemma uni_app l m : uni (l ++ m) = b_union (bops P) (uni l) (uni m).
Proof.
  induction l as [|b l IH]; cbn; [now rewrite (sl_empty _ SL)|]. now rewrite IH, (sl_assoc _ SL).
Qed.
Lemma uni_perm l m : Permutation l m -> uni l = uni m.
Proof.
  induction 1 as [|b l m _ IH|a b l|l m n _ IH1 _ IH2]; cbn; try congruence.
  now rewrite !(sl_assoc _ SL), (sl_comm _ SL b a).
Qed.
Lemma uni_absorb b l : In b l -> b_union (bops P) (uni l) b = uni l.
Proof.
  intros H. apply in_split in H as (l1 & l2 & ->).
  rewrite (uni_perm (l1 ++ b :: l2) (b :: l1 ++ l2)) by perm. cbn.
  rewrite (sl_comm _ SL _ b), (sl_assoc _ SL). now rewrite (sl_idem _ SL).
Qed.

Lemma exact_laws ok : (forall k k', key_eq P k' k = true -> kb k' = kb k) -> rel_laws P ok rel_exact.
Proof.
  intros Hkb. split; unfold rel_exact.
  - intros b l l' Hp ->. now apply uni_perm, Permutation_map.
  - reflexivity.
  - intros k _. cbn. now rewrite (sl_comm _ SL), (sl_empty _ SL).
  - intros a b l m -> ->. now rewrite map_app, uni_app.
  - intros bs ls H. rewrite (sl_union_all _ SL).
    induction H as [|b l bs ls -> _ IH]; cbn [concat map fold_right]; [reflexivity|].
    now rewrite map_app, uni_app, IH.
  - intros b l k k' -> Hin _ E. rewrite <- (Hkb k k' E). apply uni_absorb. now apply in_map.
Qed.
End Exact.
End Instances.
