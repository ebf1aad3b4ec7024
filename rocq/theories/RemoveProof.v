(** Removal, re-insertion of underfull nodes, root collapse. *)
From Verif Require Export LookupProof.

Section Remove.
Context {B K V : Type} (P : Params B K) (cfg : config).
Context (ok : K -> Prop) (rel : B -> list K -> Prop) (L : rel_laws P ok rel).
Context (lo : nat) (strict : Prop).
Context {Q : Type} (BR : Borrowed B K Q).
Notation node := (node B K V).
Notation cap := (max_children cfg).
Notation minc := (min_children cfg).
Context (nopanic : Prop) (Hns : nopanic -> strict).
Context (Hcap : nopanic -> 2 <= cap).
Context (Hlo : strict -> lo <= 1 \/ lo <= Nat.min minc (cap - minc)).
Context (Hrem : strict -> lo <= minc).
Context (Hroot2 : nopanic -> minc = 0 \/ 2 <= lo).
Context (complete : Prop).
Context (Hcomplete : complete -> forall b l k q, rel b l -> In k l -> ok k ->
           q_eq BR (borrow BR k) q = true -> b_intersects (bops P) b (q_bounds BR q) = true).
Notation wf := (wf cfg ok rel lo strict).
Notation child_ok := (child_ok cfg ok rel lo strict).
Notation matches q := (fun kv : K * V => q_eq BR (borrow BR (fst kv)) q).

Definition cc_ents (cc : children_container B K V) : list (K * V) :=
  match cc with CCInner _ cs => flat_map entries cs | CCLeaf es => es end.

Definition slot_ok (level : nat) (ch : children node (K * V)) : Prop :=
  match level, ch with
  | 0, CLeaf es => Forall (fun kv => ok (fst kv)) es
  | S l, CInner cs => Forall (child_ok l) cs
  | _, _ => False
  end.

Definition cc_ok (cc : children_container B K V) : Prop := slot_ok (cc_level cc) (cc_leak cc).

(** The entry that is taken: the leaves are searched from the last to the first, each from its first entry. *)
Definition taken (n : node) (q : Q) (k : K) (v : V) : Prop :=
  q_eq BR (borrow BR k) q = true /\
  (complete -> exists ls1 es1 es2 ls2, leaves n = ls1 ++ (es1 ++ (k, v) :: es2) :: ls2
     /\ (forall kv, In kv es1 -> matches q kv = false)
     /\ (forall es kv, In es ls2 -> In kv es -> matches q kv = false)).

Lemma concat_leaves (n : node) : concat (leaves n) = entries n.
Proof.
  induction n as [b es|b cs IH] using node_ind'; [cbn; apply app_nil_r|].
  cbn [leaves entries]. induction IH as [|c cs Hc _ IH]; [reflexivity|]. cbn [flat_map]. rewrite concat_app. congruence.
Qed.

Lemma taken_leaf b es q k v : matches q (k, v) = true -> find (matches q) es = Some (k, v) -> taken (Node b (CLeaf es)) q k v.
Proof.
  intros Hm Hf. split; [exact Hm|]. intros _. destruct (find_split _ _ _ Hf) as (es1 & es2 & -> & _ & H1).
  exists [], es1, es2, []. split; [reflexivity|]. split; [exact H1|]. intros es kv [].
Qed.

Lemma taken_inner b cs i c q k v : nth_error cs i = Some c -> taken c q k v ->
  (complete -> forall j d, S i <= j -> nth_error cs j = Some d -> find (matches q) (entries d) = None) ->
  taken (Node b (CInner cs)) q k v.
Proof.
  intros Hc [Hm Ht] Hnone. split; [exact Hm|]. intros HC. destruct (Ht HC) as (ls1 & es1 & es2 & ls2 & El & H1 & H2).
  destruct (nth_error_split _ _ Hc) as (m1 & m2 & -> & Hi).
  exists (flat_map leaves m1 ++ ls1), es1, es2, (ls2 ++ flat_map leaves m2). split; [|split; [exact H1|]].
  - cbn [leaves]. rewrite flat_map_app. cbn [flat_map]. rewrite El, <- !app_assoc. reflexivity.
  - intros es kv Hes Hkv. apply in_app_or in Hes as [Hes|Hes]; [apply (H2 es kv Hes Hkv)|].
    apply in_flat_map in Hes as (d & Hd & Hes). apply In_nth_error in Hd as [j Hj].
    assert (Hn : find (matches q) (entries d) = None).
    { apply (Hnone HC (length m1 + S j) d); [lia|]. rewrite nth_error_app2 by lia.
      replace (length m1 + S j - length m1) with (S j) by lia. exact Hj. }
    rewrite find_none_iff in Hn. apply Hn. rewrite <- concat_leaves. apply in_concat. exists es. split; assumption.
Qed.

Definition rem_post (level : nat) (n : node) (q : Q)
    (r : option V * node * list (children_container B K V)) : Prop :=
  let '(value, n', unders) := r in
  match value with
  | None => n' = n /\ unders = [] /\ (complete -> find (matches q) (entries n) = None)
  | Some v =>
    exists k, taken n q k v
      /\ Permutation (entries n) ((k, v) :: entries n' ++ flat_map cc_ents unders)
      /\ wf level n' /\ fanout n <= S (fanout n')
      /\ (minc = 0 -> level <> 0 -> fanout n' = fanout n)
      /\ Forall cc_ok unders /\ NoDup (map cc_level unders)
      /\ Forall (fun cc => cc_level cc < level) unders
  end.

Lemma shallow_len_spec level (n : node) : wf level n -> shallow_len level n = Ok (fanout n).
Proof.
  intros H. destruct level; destruct (wf_inv _ _ _ _ _ _ _ H) as (b & x & ->); reflexivity.
Qed.

Lemma container_children_spec level (n : node) : wf level n ->
  exists cc, container_children (level, n) = Ok cc /\ cc_ok cc /\ cc_level cc = level /\ cc_ents cc = entries n.
Proof.
  intros H. destruct level as [|l]; destruct (wf_inv _ _ _ _ _ _ _ H) as (b & x & ->).
  - rewrite wf_leaf in H. eexists. cbn. repeat split. apply H.
  - rewrite wf_inner in H. eexists. cbn. repeat split. apply H.
Qed.

Lemma node_remove_spec level n q :
  wf level n -> post (node_remove P cfg BR level n q) False (rem_post level n q).
Proof.
  revert n; induction level as [|l IH]; intros n Hwf.
  - cbn [node_remove]. destruct (wf_inv _ _ _ _ _ _ _ Hwf) as (b & es & ->).
    cbn [node_children read_leaf bind].
    assert (Hpos := position_spec (matches q) es).
    destruct (position (matches q) es) as [i|].
    + destruct Hpos as ([k v] & Hi & Hm & Hbefore). cbn [fst] in Hm.
      destruct (swap_remove_spec i es) as (x & es' & -> & Hx & Hp & _); [now apply nth_error_lt in Hi|].
      rewrite Hi in Hx. injection Hx as <-. cbn [bind post rem_post snd].
      exists k. rewrite !entries_leaf. cbn [flat_map]. rewrite app_nil_r.
      rewrite wf_leaf in *. destruct Hwf as (Hr & Hlen & Hes). cbn [fanout node_children].
      assert (Hlen' : length es = S (length es')) by (apply Permutation_length in Hp; exact Hp).
      assert (Hes' : Forall (fun kv => ok (fst kv)) es').
      { apply Forall_perm with (1 := Hp) in Hes. now inversion Hes. }
      split; [exact (taken_leaf b es q k v Hm Hbefore)|].
      repeat split; try assumption; try lia; try constructor; try congruence.
      assert (E : map fst es' = concat (map (fun kv => [fst kv]) es')).
      { clear. induction es' as [|? ? IH]; cbn; congruence. }
      rewrite E. apply (rel_union_all _ _ _ L). clear - Hes' L.
      induction Hes' as [|kv es Hkv _ IH]; constructor; [apply (rel_key _ _ _ L), Hkv|exact IH].
    + cbn. repeat split; auto.
  - cbn [node_remove]. destruct (wf_inv _ _ _ _ _ _ _ Hwf) as (b & cs & ->).
    cbn [node_children read_inner bind].
    assert (Hwf' := Hwf). rewrite wf_inner in Hwf'. destruct Hwf' as (Hr & Hlen & Hcs).
    set (loop := (fix loop (i : nat) (cs0 : list node) : res (option V * node * list (children_container B K V)) := _)).
    assert (Hloop : forall i, i <= length cs ->
      (complete -> forall j c, i <= j -> nth_error cs j = Some c -> find (matches q) (entries c) = None) ->
      post (loop i cs) False (rem_post (S l) (Node b (CInner cs)) q)).
    { induction i as [|i IHi]; intros Hi Hnone.
      - cbn. repeat split. intros HC. apply find_flat_map_none.
        intros c Hc. apply In_nth_error in Hc as [j Hj]. apply (Hnone HC j c); [lia|exact Hj].
      - cbn [loop]. destruct (nth_error_exists i cs) as [c Hc]; [lia|]. rewrite Hc. cbn [unwrap bind].
        assert (Hcok : child_ok l c) by (eapply Forall_nth_error; eassumption).
        destruct Hcok as [Hcwf Hclo].
        destruct (b_intersects _ _ _) eqn:Eb.
        + eapply post_bind; [apply IH, Hcwf|]. intros [[value c'] unders] _ Hpost. cbn beta iota.
          destruct value as [v|].
          * cbn [rem_post] in Hpost.
            destruct Hpost as (k & Hk & Hp & Hw & Hf & Hf0 & Hu & Hnd & Hlv).
            rewrite (shallow_len_spec l c' Hw). cbn [bind].
            destruct (entries_set_nth i c c' cs Hc) as (rest & Hp1 & Hp2).
            destruct (nth_error_split_set i c c' cs Hc) as (m1 & m2 & Ecs & Hi' & Eset).
            assert (Hm : Forall (child_ok l) (m1 ++ m2)).
            { rewrite Ecs in Hcs. apply Forall_app in Hcs as [H1 H2]. inversion H2; subst. now apply Forall_app. }
            destruct (Nat.ltb_spec (fanout c') minc) as [Hlt|Hge].
            -- destruct (swap_remove_spec i (set_nth i c' cs)) as (x & cs' & Es & Hx & Hpx & _).
               { rewrite set_nth_length. now apply nth_error_lt in Hc. }
               assert (x = c').
               { rewrite nth_error_set_nth, Nat.eqb_refl in Hx. destruct (i <? length cs); congruence. }
               subst x. rewrite Es. cbn [bind].
               destruct (container_children_spec l c' Hw) as (cc & -> & Hcc & Hccl & Hcce). cbn [bind post rem_post].
               exists k. split; [exact (taken_inner b cs i c q k v Hc Hk Hnone)|].
               assert (Hpm : Permutation cs' (m1 ++ m2)).
               { rewrite Eset in Hpx. apply (Permutation_cons_inv (a := c')). rewrite <- Hpx. perm. }
               assert (Hcs' : Forall (child_ok l) cs') by (eapply Forall_perm; [symmetry; exact Hpm|exact Hm]).
               rewrite flat_map_app. cbn [flat_map]. rewrite app_nil_r, Hcce, !entries_inner.
               assert (Hlen' : length cs = S (length cs')).
               { apply Permutation_length in Hpx. rewrite set_nth_length in Hpx. exact Hpx. }
               splits.
               ++ assert (Hq := Permutation_flat_map_ entries _ _ Hpx). cbn [flat_map] in Hq.
                  rewrite Hp2 in Hq. rewrite Hp1, Hp. apply Permutation_app_inv_l in Hq. rewrite Hq. perm.
               ++ rewrite wf_inner. split; [now apply (children_rel P cfg ok rel L lo strict l)|]. split; [lia|assumption].
               ++ cbn [fanout node_children]. lia.
               ++ intros Hz. lia.
               ++ apply Forall_app. split; [assumption|]. constructor; [assumption|constructor].
               ++ rewrite map_app. cbn [map]. rewrite Hccl.
                  eapply Permutation_NoDup; [apply Permutation_cons_append|].
                  constructor; [|exact Hnd]. intros Hin. apply in_map_iff in Hin as (cc2 & E2 & Hin).
                  rewrite Forall_forall in Hlv. specialize (Hlv _ Hin). lia.
               ++ apply Forall_app. split; [eapply Forall_impl; [|exact Hlv]; cbn; lia|].
                  constructor; [lia|constructor].
            -- cbn [bind post rem_post]. exists k. split; [exact (taken_inner b cs i c q k v Hc Hk Hnone)|]. rewrite !entries_inner.
               assert (Hcs' : Forall (child_ok l) (set_nth i c' cs)).
               { apply Forall_set_nth; [exact Hcs|]. split; [exact Hw|]. intros HS. specialize (Hclo HS).
                 specialize (Hrem HS). unfold lo_at in *; destruct l; [lia|]. destruct minc; lia. }
               splits.
               ++ rewrite Hp1, Hp2, Hp. perm.
               ++ rewrite wf_inner, set_nth_length. split; [now apply (children_rel P cfg ok rel L lo strict l)|]. split; assumption.
               ++ cbn [fanout node_children]. rewrite set_nth_length. lia.
               ++ intros _ _. cbn [fanout node_children]. apply set_nth_length.
               ++ exact Hu.
               ++ exact Hnd.
               ++ eapply Forall_impl; [|exact Hlv]. cbn; lia.
          * cbn [rem_post] in Hpost. destruct Hpost as (-> & -> & Hn). rewrite (set_nth_same i c cs Hc).
            apply IHi; [lia|]. intros HC j d Hj Hd. destruct (Nat.eq_dec j i) as [->|Hne].
            -- rewrite Hc in Hd. injection Hd as <-. apply Hn, HC.
            -- apply (Hnone HC j d); [lia|exact Hd].
        + apply IHi; [lia|]. intros HC j d Hj Hd. destruct (Nat.eq_dec j i) as [->|Hne].
          * rewrite Hc in Hd. injection Hd as <-. apply find_none_iff. intros [k v] Hin. cbn [fst].
            destruct (q_eq BR (borrow BR k) q) eqn:Eq; [|reflexivity].
            rewrite <- Eb. symmetry. apply (Hcomplete HC _ (keys c) k).
            -- apply (wf_rel _ _ _ _ _ _ _ Hcwf).
            -- apply (in_map fst) in Hin. exact Hin.
            -- assert (Hok := wf_ok _ _ _ _ _ _ _ Hcwf). rewrite Forall_forall in Hok. apply (Hok _ Hin).
            -- exact Eq.
          * apply (Hnone HC j d); [lia|exact Hd]. }
    apply Hloop; [lia|]. intros HC j c Hj Hc. apply nth_error_lt in Hc. lia.
Qed.

(** ** The array of underfull nodes *)
Notation slot := (option (children node (K * V))).

Definition slot_ents (s : slot) : list (K * V) :=
  match s with
  | None => []
  | Some (CInner cs) => flat_map entries cs
  | Some (CLeaf es) => es
  end.

Definition arr_ok (s : nat) (arr : list slot) : Prop :=
  forall i ch, nth_error arr i = Some (Some ch) -> slot_ok (s + i) ch.

Lemma cc_leak_ents cc : slot_ents (Some (cc_leak cc)) = cc_ents cc.
Proof. now destruct cc. Qed.

Lemma store_all_spec ccs arr :
  NoDup (map cc_level ccs) -> (forall cc, In cc ccs -> nth_error arr (cc_level cc) = Some None) ->
  Forall cc_ok ccs -> arr_ok 0 arr ->
  exists arr', store_all arr ccs = Ok arr' /\ length arr' = length arr /\ arr_ok 0 arr'
    /\ Permutation (flat_map slot_ents arr') (flat_map slot_ents arr ++ flat_map cc_ents ccs).
Proof.
  revert arr; induction ccs as [|cc ccs IH]; intros arr Hnd Hnone Hcc Harr; cbn [store_all].
  - exists arr. repeat split; auto. cbn. now rewrite app_nil_r.
  - assert (Hslot := Hnone cc (or_introl eq_refl)).
    unfold store_underfull. destruct (Nat.ltb_spec (cc_level cc) (length arr)).
    2:{ apply nth_error_lt in Hslot. lia. }
    cbn [bind]. inversion Hnd as [|? ? Hnin Hnd']; subst. inversion Hcc as [|? ? Hc1 Hc2]; subst.
    destruct (IH (set_nth (cc_level cc) (Some (cc_leak cc)) arr)) as (arr' & E & Hl & Ha & Hp); auto.
    + intros cc2 Hin. rewrite nth_error_set_nth. destruct (Nat.eqb_spec (cc_level cc) (cc_level cc2)) as [E|E].
      * elim Hnin. rewrite E. now apply in_map.
      * apply Hnone. now right.
    + intros i ch. rewrite nth_error_set_nth. destruct (Nat.eqb_spec (cc_level cc) i) as [<-|E].
      * destruct (_ <? _); [|discriminate]. intros [= <-]. exact Hc1.
      * apply Harr.
    + exists arr'. split; [exact E|]. rewrite Hl, set_nth_length. split; [reflexivity|]. split; [exact Ha|].
      rewrite Hp. destruct (nth_error_split_set _ _ (Some (cc_leak cc)) _ Hslot) as (a1 & a2 & -> & _ & ->).
      rewrite !flat_map_app. cbn [flat_map]. rewrite cc_leak_ents. cbn [slot_ents]. perm.
Qed.

Notation wf_root := (wf_root cfg ok rel lo strict nopanic).

Lemma insert_entries_spec es (t : rtree B K V) :
  wf_root t -> Forall (fun e => entry_ok cfg ok rel lo strict e /\ target_level e <= fst t) es ->
  post (insert_entries P cfg t es) (~ nopanic)
    (fun t' => Permutation (contents t') (contents t ++ flat_map entry_entries es) /\ wf_root t' /\ fst t <= fst t').
Proof.
  revert t; induction es as [|e es IH]; intros t Hw Hes; cbn [insert_entries].
  - cbn. rewrite app_nil_r. auto.
  - inversion Hes as [|? ? [He Hl] Hes']; subst. eapply post_bind; [apply (insert_entry_spec P cfg ok rel L lo strict nopanic Hns Hcap Hlo); assumption|].
    intros t1 _ (Hp1 & Hw1 & Hl1). eapply post_mono; [apply IH|tauto|].
    + exact Hw1.
    + eapply Forall_impl; [|exact Hes']. intros e0 [? ?]. split; [assumption|lia].
    + intros t2 (Hp2 & Hw2 & Hl2). split; [|split; [assumption|lia]]. rewrite Hp2, Hp1. cbn [flat_map]. perm.
Qed.

Lemma wrap_children_spec level ch : slot_ok level ch ->
  exists cc, wrap_children ch level = Ok cc /\ cc_ents cc = slot_ents (Some ch)
   /\ flat_map entry_entries (cc_entries cc) = cc_ents cc
   /\ Forall (fun e => entry_ok cfg ok rel lo strict e /\ target_level e = level) (cc_entries cc).
Proof.
  destruct level as [|l], ch as [cs|es]; cbn [slot_ok]; try tauto; intros H; eexists; (split; [reflexivity|]).
  - cbn [cc_ents slot_ents cc_entries]. split; [reflexivity|]. split.
    + clear H. induction es as [|kv es IH]; cbn; congruence.
    + apply Forall_forall. intros e He. apply in_map_iff in He as (kv & <- & Hin). split; [|reflexivity].
      cbn. rewrite Forall_forall in H. apply (H _ Hin).
  - cbn [cc_ents slot_ents cc_entries]. split; [reflexivity|]. split.
    + clear H. induction cs as [|c cs IH]; [reflexivity|]. cbn [map flat_map entry_entries snd]. now rewrite IH.
    + apply Forall_forall. intros e He. apply in_map_iff in He as (c & <- & Hin).
      rewrite Forall_forall in H. specialize (H _ Hin). cbn [target_level fst].
      replace (S l - 1) with l by lia. split; [exact H|lia].
Qed.

Lemma reinsert_spec arr (t : rtree B K V) level :
  wf_root t -> arr_ok level arr -> level + length arr <= S (fst t) ->
  post (reinsert P cfg t level arr) (~ nopanic)
    (fun t' => Permutation (contents t') (contents t ++ flat_map slot_ents arr) /\ wf_root t' /\ fst t <= fst t').
Proof.
  revert t level; induction arr as [|[ch|] arr IH]; intros t level Hw Ha Hl; cbn [reinsert].
  - cbn. rewrite app_nil_r. auto.
  - assert (Hs := Ha 0 ch eq_refl). rewrite Nat.add_0_r in Hs. cbn [length] in Hl.
    destruct (wrap_children_spec level ch Hs) as (cc & -> & Ecc & Eent & Hent). cbn [bind].
    eapply post_bind; [apply insert_entries_spec; [exact Hw|]|].
    { eapply Forall_impl; [|exact Hent]. intros e [? ?]. split; [assumption|lia]. }
    intros t1 _ (Hp1 & Hw1 & Hl1). eapply post_mono; [apply IH|tauto|].
    + exact Hw1.
    + intros i ch' Hi. replace (S level + i) with (level + S i) by lia. now apply Ha.
    + lia.
    + intros t2 (Hp2 & Hw2 & Hl2). split; [|split; [assumption|lia]]. rewrite Hp2, Hp1, Eent, Ecc.
      cbn [flat_map]. perm.
  - cbn [length] in Hl. eapply post_mono; [apply IH|tauto|].
    + exact Hw.
    + intros i ch' Hi. replace (S level + i) with (level + S i) by lia. now apply Ha.
    + lia.
    + intros t2 H. exact H.
Qed.

Lemma try_unbranch_spec level (n : node) :
  wf level n ->
  (nopanic -> level <> 0 -> 1 <= fanout n /\ (minc = 0 -> 2 <= fanout n)) ->
  post (try_unbranch (level, n)) False
    (fun t => contents t = entries n /\ wf_root t /\ level <= S (fst t)).
Proof.
  intros Hwf Hroot. unfold try_unbranch. cbn [fst snd].
  destruct level as [|l]; destruct (wf_inv _ _ _ _ _ _ _ Hwf) as (b & x & ->); cbn [node_children read_leaf read_inner bind].
  - cbn [post]. split; [reflexivity|]. split; [|cbn; lia]. split; [exact Hwf|]. cbn. congruence.
  - destruct (Nat.eqb_spec (length x) 1) as [E|E].
    + destruct x as [|c [|? ?]]; try discriminate. cbn [swap_remove nth_error bind post].
      cbn [removelast set_nth last]. unfold contents. cbn [snd fst].
      rewrite wf_inner in Hwf. destruct Hwf as (_ & _ & Hc). inversion Hc as [|? ? [Hw Hl] _]; subst.
      split; [cbn; now rewrite app_nil_r|]. split; [|lia]. split; [exact Hw|]. cbn [fst snd].
      intros HS Hl0. specialize (Hl (Hns HS)). specialize (Hroot HS ltac:(lia)). cbn in Hroot.
      assert (E1 := Hrem (Hns HS)). destruct (Hroot2 HS) as [E2|E2]; [lia|]. unfold lo_at in Hl. destruct l; lia.
    + cbn [post]. split; [reflexivity|]. split; [|cbn; lia]. split; [exact Hwf|].
      cbn [fst snd]. intros HS Hl0. specialize (Hroot HS Hl0). cbn [fanout node_children] in *. lia.
Qed.

Lemma nth_error_repeat_ {T} (x : T) i m : i < m -> nth_error (repeat x m) i = Some x.
Proof. revert i; induction m as [|m IH]; intros [|i] H; cbn; try lia; auto. apply IH; lia. Qed.

Lemma container_remove_spec (t : rtree B K V) q :
  wf_root t ->
  post (container_remove P cfg BR t q) (~ nopanic)
    (fun r => let '(value, t') := r in
       wf_root t' /\
       match value with
       | None => t' = t /\ (complete -> find (matches q) (contents t) = None)
       | Some v => exists k, taken (snd t) q k v /\ Permutation (contents t) ((k, v) :: contents t')
       end).
Proof.
  intros [Hwf Hroot]. destruct t as [level n]. unfold container_remove. cbn [fst snd] in *.
  eapply post_bind2; [apply node_remove_spec, Hwf| |tauto].
  intros [[value n'] unders] _ Hpost. cbn beta iota. destruct value as [v|]; cbn [rem_post] in Hpost.
  - destruct Hpost as (k & Hk & Hp & Hw & Hf & Hf0 & Hu & Hnd & Hlv).
    rewrite Forall_forall in Hlv.
    destruct (store_all_spec unders (repeat None level)) as (arr & -> & Hl & Ha & Hpa); auto.
    { intros cc Hin. apply nth_error_repeat_. now apply Hlv. }
    { intros i ch Hi. apply nth_error_In, repeat_spec in Hi. discriminate. }
    rewrite repeat_length in Hl. cbn [bind].
    eapply post_bind2; [apply try_unbranch_spec; [exact Hw|]| |tauto].
    { intros HS Hl0. specialize (Hroot HS Hl0). split; [lia|]. intros Hz. specialize (Hf0 Hz Hl0). lia. }
    intros t1 _ (Hc1 & Hw1 & Hl1).
    eapply post_bind; [apply reinsert_spec; [exact Hw1|exact Ha|lia]|].
    intros t2 _ (Hp2 & Hw2 & Hl2). cbn [post]. split; [exact Hw2|]. exists k. split; [exact Hk|].
    unfold contents at 1. cbn [snd]. rewrite Hp, Hp2, Hc1, Hpa.
    assert (E : flat_map slot_ents (repeat None level) = []).
    { clear. induction level; cbn; auto. }
    rewrite E. cbn. reflexivity.
  - destruct Hpost as (-> & -> & Hn). cbn [store_all bind post]. split; [split; assumption|]. split; [reflexivity|exact Hn].
Qed.
End Remove.
