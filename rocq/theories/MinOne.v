(** [min_children = 1]: every tree type can be driven into a panic. *)
From Verif Require Export Main.

Lemma wf_upper {B K V} cfg ok rel lo strict level (n : node B K V) :
  wf cfg ok rel lo strict level n -> length (entries n) <= max_children cfg ^ S level.
Proof.
  revert n; induction level as [|l IH]; intros n Hw; destruct (wf_inv _ _ _ _ _ _ _ Hw) as (b & x & ->).
  - rewrite wf_leaf in Hw. rewrite entries_leaf. cbn. lia.
  - rewrite wf_inner in Hw. destruct Hw as (_ & Hl & Hcs). rewrite entries_inner.
    assert (H : length (flat_map entries x) <= length x * max_children cfg ^ S l).
    { clear Hl. induction Hcs as [|c cs [Hc _] _ IHc]; [cbn; lia|].
      cbn [flat_map length]. rewrite app_length. specialize (IH c Hc). lia. }
    assert (length x * max_children cfg ^ S l <= max_children cfg * max_children cfg ^ S l) by (apply Nat.mul_le_mono_r; exact Hl).
    rewrite (Nat.pow_succ_r' _ (S l)). lia.
Qed.

Lemma run_app {B K V} (P : Params B K) cfg (t : rtree B K V) os1 os2 t1 xs1 :
  run P cfg t os1 = Ok (xs1, t1) -> run P cfg t1 os2 = Panic -> run P cfg t (os1 ++ os2) = Panic.
Proof.
  revert t xs1; induction os1 as [|o os1 IH]; intros t xs1 H1 H2; cbn [app run] in *.
  - now injection H1 as _ ->.
  - destruct (step P cfg t o) as [[x t2]| | |]; try discriminate. cbn [bind] in *.
    destruct (run P cfg t2 os1) as [[ys t3]| | |] eqn:E; try discriminate. cbn [bind] in H1. injection H1 as _ ->.
    now rewrite (IH t2 ys E H2).
Qed.

Lemma grown_reachable {B K V} (P : Params B K) cfg ok (t : rtree B K V) : grown P cfg ok t -> reachable P cfg ok t.
Proof.
  induction 1 as [|t k v t' _ IH Hk E|t k v o t' _ IH Hk E|t t' _ IH E|t t' _ IH E].
  - apply r_new.
  - eapply r_insert; eassumption.
  - eapply r_insert_unique; eassumption.
  - eapply r_clone; eassumption.
  - eapply r_values; eassumption.
Qed.

(** [max_children < 2]: two insertions are too many. *)
Lemma branch_tiny {B K V} (P : Params B K) cfg (r s : container B K V) : max_children cfg < 2 -> branch P cfg r s = Panic.
Proof.
  intros H. unfold branch, push. destruct (negb _); [reflexivity|]. destruct (max_children cfg) as [|[|m]]; [reflexivity|reflexivity|lia].
Qed.

Lemma tiny_panics {B K V} (P : Params B K) cfg k k' (v v' : V) : max_children cfg < 2 ->
  run P cfg (rtree_new P : rtree B K V) [OInsert k v; OInsert k' v'] = Panic.
Proof.
  intros H. assert (Hb := fun r s => @branch_tiny B K V P cfg r s H).
  destruct (max_children cfg) as [|[|m]] eqn:Ec; [| |lia].
  - cbn [run step]. unfold rtree_insert, insert_entry, rtree_new, new_leaf. cbn [fst snd node_insert target_level Nat.eqb negb].
    unfold self_insert at 1. cbn [children_at node_children read_leaf bind]. rewrite Ec. reflexivity.
  - set (b1 := b_union (bops P) (b_empty (bops P)) (key_bounds P k)).
    assert (E1 : rtree_insert P cfg (rtree_new P) k v = Ok (0, Node b1 (CLeaf [(k, v)]))).
    { unfold rtree_insert, insert_entry, rtree_new, new_leaf. cbn [fst snd node_insert target_level Nat.eqb negb].
      unfold self_insert at 1. cbn [children_at node_children read_leaf bind]. rewrite Ec. reflexivity. }
    assert (E2 : rtree_insert P cfg (0, Node b1 (CLeaf [(k, v)])) k' v' = Panic).
    { unfold rtree_insert, insert_entry. cbn [fst snd node_insert target_level Nat.eqb negb].
      unfold self_insert at 1. cbn [children_at node_children read_leaf bind]. rewrite Ec.
      unfold try_push. change (length [(k, v)] =? 1) with true. change (negb (0 =? 0)) with false. cbv iota.
      assert (Hs := split_spec P (fun kv : K * V => key_bounds P (fst kv)) any_key rel_any (any_laws P any_key)
                  (fun kv => [fst kv]) 1 (min_children cfg) [(k, v)] (k', v') eq_refl).
      destruct (split _ _ _ _ _ _) as [[[[c1 c2] g1] g2]| | |]; cbn [post bind] in *;
        (specialize (Hs (proj2 (Forall_forall _ _) (fun x _ => I))) || idtac); try reflexivity; try tauto. apply Hb. }
    cbn [run step]. rewrite E1. cbn [bind run step]. rewrite E2. reflexivity.
Qed.

Section MinOne.
Context {B K V : Type} (P : Params B K) (cfg : config) (incl : B -> B -> Prop).
Notation node := (node B K V).
Notation tree := (rtree B K V).
Notation cap := (max_children cfg).
Notation minc := (min_children cfg).
Context (Hcap : 2 <= cap) (Hmin : minc = 1).
Context (BL : bounds_laws (bops P) incl) (LL : lookup_laws P (self_borrow P) incl any_key) (KL : key_eq_laws (key_eq P)).
Notation rel := (rel_cover P incl).
Notation wf := (wf cfg any_key rel 1 True).
Notation child_ok := (child_ok cfg any_key rel 1 True).
Notation BR := (self_borrow P).

Lemma lo1 : True -> 1 <= 1 \/ 1 <= Nat.min minc (cap - minc). Proof. lia. Qed.
Lemma rem1 : True -> 1 <= minc. Proof. lia. Qed.
Lemma compl : True -> forall b l k q, rel b l -> In k l -> any_key k ->
  q_eq BR (borrow BR k) q = true -> b_intersects (bops P) b (q_bounds BR q) = true.
Proof. intros _ b l k q H1 H2 H3 H4. exact (cover_intersects P any_key incl BR LL b l k q H1 H2 H3 H4). Qed.

Definition remove_spec level (n : node) q Hw :=
  node_remove_spec P cfg any_key rel (cover_laws P any_key incl BL) 1 True BR False (False_ind _) lo1 rem1 (False_ind _)
    True compl level n q Hw.

Lemma fanout_0 level (n : node) : wf level n -> entries n = [] -> level <> 0 -> fanout n = 0.
Proof.
  intros Hw E _. assert (H := entries_count cfg any_key rel 1 True level n I Hw). rewrite E, Nat.pow_1_l in H. cbn in H. lia.
Qed.

Lemma entries_pos level (n : node) : wf level n -> 1 <= fanout n -> entries n <> [].
Proof.
  intros Hw Hf E. assert (H := entries_count cfg any_key rel 1 True level n I Hw). rewrite E, Nat.pow_1_l in H. cbn in H. lia.
Qed.

Definition cc_nothing (cc : children_container B K V) : Prop := cc_leak cc = CInner [] \/ cc_leak cc = CLeaf [].

Lemma cc_nothing_ents ccs : Forall cc_nothing ccs -> flat_map cc_ents ccs = [].
Proof.
  induction 1 as [|cc ccs H _ IH]; [reflexivity|]. cbn [flat_map]. rewrite IH, app_nil_r.
  destruct cc as [l cs|es], H as [H|H]; cbn in *; try discriminate; now injection H as ->.
Qed.

(** What a removal does to the root's children: one of them changes, or disappears when empty; nothing has
    to be inserted again. *)
Lemma node_remove_min1 level (n : node) q v n' unders :
  wf level n -> node_remove P cfg BR level n q = Ok (Some v, n', unders) ->
  Forall cc_nothing unders /\
  forall l b cs, level = S l -> n = Node b (CInner cs) ->
    exists b' cs' m1 m2 c c', n' = Node b' (CInner cs') /\ cs = m1 ++ c :: m2
      /\ (exists k, key_eq P k q = true /\ Permutation (entries c) ((k, v) :: entries c'))
      /\ (cs' = m1 ++ c' :: m2 \/ (entries c' = [] /\ Permutation cs' (m1 ++ m2))).
Proof.
  revert n v n' unders; induction level as [|l IH]; intros n v n' unders Hwf E.
  { destruct (wf_inv _ _ _ _ _ _ _ Hwf) as (b & es & ->). cbn [node_remove node_children read_leaf bind] in E.
    destruct (position _ es) as [i|]; [|discriminate].
    destruct (swap_remove i es) as [[kv es']| | |]; try discriminate. cbn [bind] in E. injection E as _ _ <-.
    split; [constructor|]. intros l b0 cs H; discriminate. }
  destruct (wf_inv _ _ _ _ _ _ _ Hwf) as (b & cs & ->). cbn [node_remove node_children read_inner bind] in E.
  assert (Hcs : Forall (child_ok l) cs) by (rewrite wf_inner in Hwf; tauto).
  set (loop := (fix loop (i : nat) (cs0 : list node) : res (option V * node * list (children_container B K V)) := _)) in E.
  match goal with |- ?G => assert (Hloop : forall j, j <= length cs -> loop j cs = Ok (Some v, n', unders) -> G) end.
  2:{ eapply Hloop; [|exact E]. lia. }
  clear E. induction j as [|j IHj]; intros Hj E; [discriminate|].
  cbn [loop] in E. destruct (nth_error_exists j cs) as [c Hc]; [lia|]. rewrite Hc in E. cbn [unwrap bind] in E.
  assert (Hcok : child_ok l c) by (eapply Forall_nth_error; eassumption). destruct Hcok as [Hcwf Hclo].
  destruct (b_intersects _ _ _); [|apply IHj; [lia|exact E]].
  assert (Hs := remove_spec l c q Hcwf).
  destruct (node_remove P cfg BR l c q) as [[[value c'] un]| | |] eqn:Ec; try discriminate. cbn [bind post] in *.
  destruct value as [v'|].
  2:{ cbn [rem_post] in Hs. destruct Hs as (-> & _ & _). rewrite (set_nth_same j c cs Hc) in E. apply IHj; [lia|exact E]. }
  cbn [rem_post] in Hs. destruct Hs as (k & [Hk _] & Hp & Hw' & Hf & _ & _ & _ & Hlv).
  rewrite (shallow_len_spec cfg any_key rel 1 True l c' Hw') in E. cbn [bind] in E.
  destruct (IH c v' c' un Hcwf Ec) as [Hun _]. rewrite (cc_nothing_ents un Hun), app_nil_r in Hp.
  destruct (nth_error_split_set j c c' cs Hc) as (m1 & m2 & Ecs & Hj' & Eset).
  destruct (Nat.ltb_spec (fanout c') minc) as [Hlt|Hge].
  - destruct (swap_remove_spec j (set_nth j c' cs)) as (x & cs' & Es & Hx & Hpx & _).
    { rewrite set_nth_length. lia. }
    assert (x = c').
    { rewrite nth_error_set_nth, Nat.eqb_refl in Hx. destruct (j <? length cs); congruence. }
    subst x. rewrite Es in E. cbn [bind] in E.
    assert (Hpm : Permutation cs' (m1 ++ m2)).
    { rewrite Eset in Hpx. apply (Permutation_cons_inv (a := c')). rewrite <- Hpx. perm. }
    assert (Hcc : exists cc, container_children (l, c') = Ok cc /\ cc_nothing cc /\ entries c' = []).
    { assert (fanout c' = 0) as H0 by lia.
      destruct l as [|l']; destruct (wf_inv _ _ _ _ _ _ _ Hw') as (bc & x & ->); cbn in H0;
        destruct x; try discriminate; eexists; (split; [reflexivity|]); cbn; unfold cc_nothing; cbn; auto. }
    destruct Hcc as (cc & Ecc & Hcc & He). rewrite Ecc in E. cbn [bind] in E. injection E as <- <- <-.
    split; [apply Forall_app; auto|]. intros l0 b0 cs0 [= <-] [= <- <-].
    do 6 eexists. split; [reflexivity|]. split; [exact Ecs|]. split; [exists k; split; [exact Hk|exact Hp]|]. right. auto.
  - cbn [bind] in E. injection E as <- <- <-. split; [exact Hun|]. intros l0 b0 cs0 [= <-] [= <- <-].
    do 6 eexists. split; [reflexivity|]. split; [exact Ecs|]. split; [exists k; split; [exact Hk|exact Hp]|]. left. exact Eset.
Qed.

Lemma reinsert_nothing arr (t : tree) level :
  arr_ok cfg any_key rel 1 True level arr ->
  (forall j ch, nth_error arr j = Some (Some ch) -> ch = CInner [] \/ ch = CLeaf []) ->
  reinsert P cfg t level arr = Ok t.
Proof.
  revert t level; induction arr as [|[ch|] arr IH]; intros t level Ha Hn; cbn [reinsert].
  - reflexivity.
  - assert (Hs := Ha 0 ch eq_refl). rewrite Nat.add_0_r in Hs.
    assert (Hrest : reinsert P cfg t (S level) arr = Ok t).
    { apply IH.
      - intros i ch' Hi. replace (S level + i) with (level + S i) by lia. now apply Ha.
      - intros j. apply (Hn (S j)). }
    destruct (Hn 0 ch eq_refl) as [-> | ->]; destruct level; try (destruct Hs; fail); cbn [wrap_children read_inner read_leaf bind cc_entries map insert_entries]; exact Hrest.
  - apply IH.
    + intros i ch' Hi. replace (S level + i) with (level + S i) by lia. now apply Ha.
    + intros j. apply (Hn (S j)).
Qed.

Lemma store_nothing ccs (arr arr' : list (option (children node (K * V)))) :
  Forall cc_nothing ccs -> store_all arr ccs = Ok arr' ->
  (forall j ch, nth_error arr j = Some (Some ch) -> ch = CInner [] \/ ch = CLeaf []) ->
  forall j ch, nth_error arr' j = Some (Some ch) -> ch = CInner [] \/ ch = CLeaf [].
Proof.
  intros H. revert arr; induction H as [|cc ccs Hcc _ IH]; intros arr E Ha; cbn [store_all] in E.
  - now injection E as <-.
  - unfold store_underfull in E. destruct (cc_level cc <? length arr) eqn:El; [|discriminate]. cbn [bind] in E.
    apply (IH _ E). intros j ch. rewrite nth_error_set_nth. destruct (Nat.eqb_spec (cc_level cc) j) as [<-|]; [|apply Ha].
    rewrite El. intros [= <-]. exact Hcc.
Qed.

(** Removal never panics here, and is: take out, then perhaps lower the root. *)
Lemma remove_min1 (t : tree) q : wf (fst t) (snd t) -> In q (map fst (contents t)) ->
  exists k v n' unders, node_remove P cfg BR (fst t) (snd t) q = Ok (Some v, n', unders)
    /\ wf (fst t) n' /\ key_eq P k q = true /\ Permutation (contents t) ((k, v) :: entries n')
    /\ exists t', try_unbranch (fst t, n') = Ok t' /\ rtree_remove P cfg BR t q = Ok (Some v, t')
        /\ contents t' = entries n' /\ wf (fst t') (snd t') /\ fst t <= S (fst t').
Proof.
  intros Hw Hin. destruct t as [level n]. unfold rtree_remove, container_remove, contents in *. cbn [fst snd] in *.
  assert (Hs := remove_spec level n q Hw).
  destruct (node_remove P cfg BR level n q) as [[[value n'] unders]| | |] eqn:E; cbn [post] in Hs; try tauto.
  destruct value as [v|]; cbn [rem_post] in Hs.
  2:{ destruct Hs as (_ & _ & Hn). specialize (Hn I). rewrite find_none_iff in Hn.
      apply in_map_iff in Hin as (kv & <- & Hin). specialize (Hn kv Hin). cbn in Hn. now rewrite (keq_refl _ KL) in Hn. }
  destruct Hs as (k & [Hk _] & Hp & Hw' & _ & _ & Hu & Hnd & Hlv). rewrite Forall_forall in Hlv.
  destruct (node_remove_min1 level n q v n' unders Hw E) as [Hun _]. rewrite (cc_nothing_ents _ Hun), app_nil_r in Hp.
  exists k, v, n', unders. split; [reflexivity|]. split; [exact Hw'|]. split; [exact Hk|]. split; [exact Hp|].
  destruct (store_all_spec cfg any_key rel 1 True False (False_ind _) lo1 rem1 (False_ind _) unders (repeat None level)) as (arr & Earr & _ & Harr & _); auto.
  { intros cc Hcc. specialize (Hlv cc Hcc). clear - Hlv. revert Hlv. generalize (cc_level cc) as j.
    induction level as [|m IHm]; intros [|j] Hj; cbn; try lia; auto. apply IHm. lia. }
  { intros i ch Hi. apply nth_error_In, repeat_spec in Hi. discriminate. }
  assert (Ht := try_unbranch_spec cfg any_key rel 1 True False (fun x => False_ind _ x) (fun x => False_ind _ x) lo1 rem1 (False_ind _) level n' Hw' (fun x => False_ind _ x)).
  destruct (try_unbranch (level, n')) as [t'| | |] eqn:Etu; cbn [post] in Ht; try tauto. destruct Ht as (Hc & [Hwt _] & Hl).
  exists t'. split; [reflexivity|]. cbn [bind]. rewrite Earr. cbn [bind]. 
  rewrite Etu. cbn [bind]. rewrite (reinsert_nothing arr t' 0).
  - cbn [bind]. auto.
  - exact Harr.
  - eapply store_nothing; [exact Hun|exact Earr|]. intros j ch Hj. apply nth_error_In, repeat_spec in Hj. discriminate.
Qed.

(** Two entries below different children of the root. *)
Definition apart (t : tree) (a b : K * V) : Prop :=
  exists bd cs ca cb rest, snd t = Node bd (CInner cs) /\ Permutation cs (ca :: cb :: rest)
    /\ In a (entries ca) /\ In b (entries cb).

Lemma in_remaining (a : K * V) k v (c c' : node) q : key_eq P (fst a) q = false -> key_eq P k q = true ->
  Permutation (entries c) ((k, v) :: entries c') -> In a (entries c) -> In a (entries c').
Proof. intros Ha Hk Hp Hin. rewrite Hp in Hin. destruct Hin as [<-|Hin]; [cbn in Ha; congruence|exact Hin]. Qed.

Lemma remove_apart (t : tree) q a b : wf (fst t) (snd t) -> 1 <= fst t -> In q (map fst (contents t)) ->
  key_eq P (fst a) q = false -> key_eq P (fst b) q = false -> apart t a b ->
  exists k v t', rtree_remove P cfg BR t q = Ok (Some v, t') /\ key_eq P k q = true
    /\ Permutation (contents t) ((k, v) :: contents t') /\ wf (fst t') (snd t') /\ fst t' = fst t /\ apart t' a b.
Proof.
  intros Hw Hl Hin Ha Hb (bd & cs & ca & cb & rest & Es & Hp & Hia & Hib).
  destruct (remove_min1 t q Hw Hin) as (k & v & n' & unders & E & Hw' & Hk & Hpk & t' & Et & Er & Hc & Hwt & _).
  exists k, v, t'. split; [exact Er|]. split; [exact Hk|]. rewrite Hc. split; [exact Hpk|]. split; [exact Hwt|].
  destruct t as [level n]. cbn [fst snd] in *. subst n. destruct level as [|l]; [lia|].
  destruct (node_remove_min1 _ _ _ _ _ _ Hw E) as [_ Hch]. specialize (Hch l bd cs eq_refl eq_refl).
  destruct Hch as (b' & cs' & m1 & m2 & c & c' & -> & -> & (k' & Hk' & Hpc) & Hcs').
  assert (Hap : exists ca' cb' rest', Permutation cs' (ca' :: cb' :: rest') /\ In a (entries ca') /\ In b (entries cb')).
  { assert (Hmid : Permutation (c :: m1 ++ m2) (ca :: cb :: rest)) by (rewrite <- Hp; perm).
    assert (Hin' : In c (ca :: cb :: rest)) by (rewrite <- Hmid; now left).
    assert (Hc' : forall ca' cb' rest', Permutation (c' :: m1 ++ m2) (ca' :: cb' :: rest') -> In c' [ca'; cb'] ->
       In a (entries ca') -> In b (entries cb') ->
       exists ca' cb' rest', Permutation cs' (ca' :: cb' :: rest') /\ In a (entries ca') /\ In b (entries cb')).
    { intros ca' cb' rest' Hp' Hi' Ha' Hb'. destruct Hcs' as [-> |[He _]].
      - exists ca', cb', rest'. split; [rewrite <- Hp'; perm|auto].
      - exfalso. destruct Hi' as [<-|[<-|[]]]; rewrite He in *; auto. }
    destruct Hin' as [->|[->|Hin']].
    - apply Permutation_cons_inv in Hmid. apply (Hc' c' cb rest); [now rewrite Hmid|now left| |exact Hib].
      exact (in_remaining a k' v c c' q Ha Hk' Hpc Hia).
    - assert (Hmid' : Permutation (m1 ++ m2) (ca :: rest)).
      { apply (Permutation_cons_inv (a := c)). rewrite Hmid. perm. }
      apply (Hc' ca c' rest); [rewrite Hmid'; perm|right; now left|exact Hia|].
      exact (in_remaining b k' v c c' q Hb Hk' Hpc Hib).
    - apply in_split in Hin' as (r1 & r2 & ->).
      assert (Hmid' : Permutation (m1 ++ m2) (ca :: cb :: r1 ++ r2)).
      { apply (Permutation_cons_inv (a := c)). rewrite Hmid. perm. }
      destruct Hcs' as [-> |[_ Hcs']].
      + exists ca, cb, (c' :: r1 ++ r2). split; [|auto]. transitivity (c' :: m1 ++ m2); [perm|]. rewrite Hmid'. perm.
      + exists ca, cb, (r1 ++ r2). split; [|auto]. now rewrite Hcs'. }
  destruct Hap as (ca' & cb' & rest' & Hp' & Ha' & Hb').
  unfold try_unbranch in Et. cbn [fst snd node_children read_inner bind] in Et.
  assert (Hlen : length cs' <> 1) by (apply Permutation_length in Hp'; cbn in Hp'; lia).
  destruct (Nat.eqb_spec (length cs') 1) as [|_]; [congruence|]. injection Et as <-. cbn [fst].
  split; [reflexivity|]. exists b', cs', ca', cb', rest'. auto.
Qed.

(** Keys that are pairwise different, also up to [==]. *)
Definition distinct (ks : list K) : Prop :=
  NoDup ks /\ forall k k', In k ks -> In k' ks -> key_eq P k k' = true -> k = k'.

Lemma distinct_perm ks ks' : Permutation ks ks' -> distinct ks -> distinct ks'.
Proof.
  intros Hp [H1 H2]. split; [now rewrite <- Hp|]. intros k k' Hk Hk'. apply H2; now rewrite Hp.
Qed.

Lemma distinct_cons k ks : distinct (k :: ks) -> distinct ks /\ forall k', In k' ks -> key_eq P k' k = false.
Proof.
  intros [H1 H2]. inversion H1 as [|? ? Hn Hnd]; subst. split.
  - split; [exact Hnd|]. intros a b Ha Hb. apply H2; now right.
  - intros k' Hk'. destruct (key_eq P k' k) eqn:E; [|reflexivity]. elim Hn.
    rewrite <- (H2 k' k); [exact Hk'|now right|now left|exact E].
Qed.

Lemma removals (ks : list K) (t : tree) a b :
  wf (fst t) (snd t) -> 1 <= fst t -> apart t a b ->
  distinct (fst a :: fst b :: ks) -> Permutation (map fst (contents t)) (fst a :: fst b :: ks) ->
  exists xs t', run P cfg t (map ORemove ks) = Ok (xs, t') /\ wf (fst t') (snd t') /\ fst t' = fst t
    /\ Permutation (map fst (contents t')) [fst a; fst b].
Proof.
  revert t; induction ks as [|k ks IH]; intros t Hw Hl Hap Hd Hp.
  - exists [], t. auto.
  - assert (Hd1 : distinct (k :: fst a :: fst b :: ks)) by (eapply distinct_perm; [|exact Hd]; perm).
    destruct (distinct_cons _ _ Hd1) as [Hd2 Hne].
    destruct (remove_apart t k a b Hw Hl) as (k' & v & t1 & E & Hk & Hpk & Hw1 & El & Hap1).
    { rewrite Hp. cbn. tauto. }
    { apply Hne. now left. }
    { apply Hne. right; now left. }
    { exact Hap. }
    assert (k' = k) as ->.
    { destruct Hd as [_ Hd]. apply Hd; [|cbn; tauto|exact Hk]. rewrite <- Hp, Hpk. now left. }
    destruct (IH t1 Hw1 ltac:(lia) Hap1 Hd2) as (xs & t' & E' & Hw' & El' & Hp').
    { rewrite Hpk in Hp. cbn [map fst] in Hp. apply (Permutation_cons_inv (a := k)). rewrite Hp. perm. }
    exists (OutVal (Some v) :: xs), t'. cbn [map run step]. rewrite E. cbn [bind]. rewrite E'. cbn [bind].
    split; [reflexivity|]. split; [exact Hw'|]. split; [congruence|exact Hp'].
Qed.

Lemma empty_inner_insert l b k (v : V) : step P cfg (S l, Node b (CInner []) : node) (OInsert k v) = Panic.
Proof. reflexivity. Qed.

(** Removing the last two entries of a tree of height at least two. *)
Lemma final_removals (t : tree) a b v : wf (fst t) (snd t) -> 2 <= fst t -> distinct [a; b] ->
  Permutation (map fst (contents t)) [a; b] ->
  run P cfg t [ORemove a; ORemove b; OInsert a v] = Panic.
Proof.
  intros Hw Hl Hd Hp.
  destruct (remove_min1 t a Hw) as (k & v1 & n1 & u1 & _ & _ & Hk & Hp1 & t1 & _ & E1 & Hc1 & Hw1 & Hl1).
  { rewrite Hp. now left. }
  assert (k = a) as ->.
  { destruct Hd as [_ Hd]. apply Hd; [|now left|exact Hk]. rewrite <- Hp, Hp1. now left. }
  assert (Hp2 : Permutation (map fst (contents t1)) [b]).
  { rewrite Hc1. rewrite Hp1 in Hp. cbn [map fst] in Hp. now apply Permutation_cons_inv in Hp. }
  destruct (remove_min1 t1 b Hw1) as (k2 & v2 & n2 & u2 & _ & Hw2 & _ & Hp3 & t2 & Et2 & E2 & Hc2 & Hw3 & Hl2).
  { rewrite Hp2. now left. }
  assert (He : entries n2 = []).
  { assert (Hlen := Permutation_length Hp2). apply Permutation_length in Hp3. rewrite map_length in Hlen. rewrite Hlen in Hp3.
    cbn in Hp3. destruct (entries n2); [reflexivity|discriminate]. }
  assert (Hf := fanout_0 (fst t1) n2 Hw2 He ltac:(lia)).
  destruct (fst t1) as [|l1] eqn:El1; [lia|]. destruct (wf_inv _ _ _ _ _ _ _ Hw2) as (b2 & cs2 & ->).
  cbn in Hf. destruct cs2; [|discriminate]. cbn in Et2. injection Et2 as <-.
  cbn [run step]. rewrite E1. cbn [bind]. rewrite E2. reflexivity.
Qed.

(** Growing a tree of height two. *)
Lemma inserts_grow ks v (t : tree) : grown P cfg any_key t ->
  exists xs t', run P cfg t (map (fun k => OInsert k v) ks) = Ok (xs, t') /\ grown P cfg any_key t'
    /\ Permutation (map fst (contents t')) (ks ++ map fst (contents t)).
Proof.
  revert t; induction ks as [|k ks IH]; intros t Hg.
  - exists [], t. auto.
  - destruct (grown_step_total P cfg any_key t (OInsert k v) Hcap Hg I ltac:(discriminate)) as [[x t1] E].
    cbn [step] in E. destruct (rtree_insert P cfg t k v) as [t1'| | |] eqn:Ei; try discriminate. cbn [bind] in E. injection E as <- <-.
    assert (Hg1 : grown P cfg any_key t1') by (eapply g_insert; [exact Hg|exact I|exact Ei]).
    destruct (IH t1' Hg1) as (xs & t' & Er & Hg' & Hp).
    exists (OutUnit :: xs), t'. cbn [map run step]. rewrite Ei. cbn [bind]. rewrite Er. cbn [bind].
    split; [reflexivity|]. split; [exact Hg'|]. rewrite Hp.
    assert (Hc := insert_contents P cfg any_key t t1' k v (grown_reachable P cfg any_key t Hg) I Ei).
    rewrite Hc. cbn [map fst]. perm.
Qed.

Theorem min1_panics (ks : list K) (v : V) : distinct ks -> cap * cap < length ks ->
  exists os, run P cfg (rtree_new P : tree) os = Panic.
Proof.
  intros Hd Hlen. destruct (inserts_grow ks v (rtree_new P) (g_new P cfg any_key)) as (xs & t & E & Hg & Hp).
  cbn in Hp. rewrite app_nil_r in Hp.
  assert (Hr := grown_reachable P cfg any_key t Hg).
  assert (Hw : wf (fst t) (snd t)).
  { apply (reachable_wf P cfg any_key rel (cover_laws P any_key incl BL) 1 True False); try tauto; lia. }
  assert (Hlev : 2 <= fst t).
  { assert (H := wf_upper _ _ _ _ _ _ _ Hw). assert (Hl := Permutation_length Hp). rewrite map_length in Hl. unfold contents in Hl.
    destruct (fst t) as [|[|l]]; [| |lia]; cbn [Nat.pow] in H; nia. }
  assert (Hroot : 2 <= fanout (snd t)) by (apply (inv_grown P cfg any_key t Hcap Hg); [exact I|lia]).
  destruct t as [[|l] n]; cbn [fst snd] in *; [lia|].
  destruct (wf_inv _ _ _ _ _ _ _ Hw) as (bd & cs & ->). cbn in Hroot.
  destruct cs as [|ca [|cb rest]]; cbn in Hroot; try lia.
  assert (Hne : forall c, In c (ca :: cb :: rest) -> exists kv, In kv (entries c)).
  { intros c Hc. rewrite wf_inner in Hw. destruct Hw as (_ & _ & Hcs). rewrite Forall_forall in Hcs.
    destruct (Hcs c Hc) as [Hwc Hlo]. specialize (Hlo I).
    destruct (entries c) as [|kv es] eqn:Ee; [|exists kv; now left].
    exfalso. apply (entries_pos l c Hwc); [|exact Ee]. unfold lo_at in Hlo. destruct l; lia. }
  destruct (Hne ca ltac:(now left)) as [a Ha]. destruct (Hne cb ltac:(right; now left)) as [b Hb].
  assert (Hcont : exists l1, Permutation (contents (S l, Node bd (CInner (ca :: cb :: rest)))) (a :: b :: l1)).
  { unfold contents. cbn [snd]. rewrite entries_inner. cbn [flat_map].
    apply in_split in Ha as (a1 & a2 & ->). apply in_split in Hb as (b1 & b2 & ->).
    exists ((a1 ++ a2) ++ (b1 ++ b2) ++ flat_map entries rest). perm. }
  destruct Hcont as [l1 Hl1].
  assert (Hks : Permutation ks (fst a :: fst b :: map fst l1)) by (rewrite <- Hp, Hl1; reflexivity).
  apply (distinct_perm _ _ Hks) in Hd.
  destruct (removals (map fst l1) (S l, Node bd (CInner (ca :: cb :: rest))) a b) as (ys & t2 & E2 & Hw2 & El2 & Hp2); auto.
  { cbn; lia. }
  { exists bd, (ca :: cb :: rest), ca, cb, rest. auto. }
  { rewrite Hl1. reflexivity. }
  assert (Hd2 : distinct [fst a; fst b]).
  { destruct Hd as [H1 H2]. inversion H1 as [|? ? Hn1 Hn2]; subst. split.
    - constructor; [cbn in *; tauto|constructor; [easy|constructor]].
    - intros k k' Hk Hk'. apply H2; cbn in *; tauto. }
  assert (E3 := final_removals t2 (fst a) (fst b) v Hw2 ltac:(cbn in El2; lia) Hd2 Hp2).
  exists (map (fun k => OInsert k v) ks ++ map ORemove (map fst l1) ++ [ORemove (fst a); ORemove (fst b); OInsert (fst a) v]).
  eapply run_app; [exact E|]. eapply run_app; [exact E2|exact E3].
Qed.
End MinOne.
