(** How many calls of [union], [volume] and subtractions of volumes an insertion or removal makes. *)
From Verif Require Export CheckProof.

Section Cost.
Context {B K V : Type} (P : Params B K) (CK : Checks (vops P)) (cfg : config).
Notation VO := (vops P).
Notation F := (N64 (vops P)).
Notation cap := (max_children cfg).
Notation minc := (min_children cfg).

Lemma cost_app (l m : list (ask B F)) : cost (l ++ m) = cost l + cost m.
Proof. unfold cost. now rewrite map_app, list_sum_app. Qed.

Notation costs m := (cost (fst m)).

Lemma cost_bind {A A'} (m : C A B F) (k : A -> C A' B F) a b :
  costs m <= a -> (forall x, snd m = Ok x -> costs (k x) <= b) -> costs (cbind m k) <= a + b.
Proof.
  intros Hm Hk. unfold cbind. destruct (snd m) as [x| | |]; cbn [fst]; try lia. rewrite cost_app. specialize (Hk x eq_refl). lia.
Qed.
Lemma cost_lift {A} (r : res A) : costs (@clift B F A r) = 0. Proof. reflexivity. Qed.
Lemma cost_ret {A} (a : A) : costs (@cret B F A a) = 0. Proof. reflexivity. Qed.
Lemma cost_lift_bind {A A'} (r : res A) (k : A -> C A' B F) b :
  (forall x, r = Ok x -> costs (k x) <= b) -> costs (cbind (clift r) k) <= b.
Proof. intros H. change b with (0 + b). apply cost_bind; [cbn; lia|]. exact H. Qed.
Lemma cost_mono {A} (m : C A B F) a b : costs m <= a -> a <= b -> costs m <= b. Proof. lia. Qed.

Lemma cost_vol b : costs (k_vol P CK b) <= 1. Proof. cbn. lia. Qed.
Lemma cost_sub x y : costs (k_sub P CK x y) <= 1. Proof. cbn. lia. Qed.
Lemma cost_union a b : costs (k_union P a b) <= 1. Proof. cbn. lia. Qed.
Lemma cost_union_all l : costs (k_union_all P l) <= length l. Proof. cbn. lia. Qed.

Lemma cost_increase a b : costs (k_increase P CK a b) <= 4.
Proof.
  unfold k_increase. apply (cost_bind _ _ 1 3); [apply cost_union|]. intros u _. apply (cost_bind _ _ 1 2); [apply cost_vol|]. intros x _.
  apply (cost_bind _ _ 1 1); [apply cost_vol|]. intros y _. apply cost_sub.
Qed.

Lemma cost_select_cmp b x y : costs (k_select_cmp P CK b x y) <= 10.
Proof.
  unfold k_select_cmp. apply (cost_bind _ _ 4 6); [apply cost_increase|]. intros u _. apply (cost_bind _ _ 4 2); [apply cost_increase|]. intros w _.
  destruct (n64_cmp _ _ _); try (rewrite cost_ret; lia).
  apply (cost_bind _ _ 1 1); [apply cost_vol|]. intros ? _. apply (cost_bind _ _ 1 0); [apply cost_vol|]. intros ? _. rewrite cost_ret. lia.
Qed.

Lemma cost_min_by {T} (cmp : T -> T -> C comparison B F) c : (forall x y, costs (cmp x y) <= c) ->
  forall l best, costs (k_min_by_from P cmp best l) <= c * length l.
Proof.
  intros Hc. induction l as [|y l IH]; intros best; cbn [k_min_by_from length]; [rewrite cost_ret; lia|].
  eapply cost_mono; [apply (cost_bind _ _ c (c * length l))|lia]; [apply Hc|]. intros o _. apply IH.
Qed.

Lemma cost_select cs b : costs (k_select P CK cs b) <= 10 * (length cs - 1).
Proof.
  unfold k_select. rewrite <- (enumerate_length cs). destruct (enumerate cs) as [|x l]; [rewrite cost_ret; lia|]. cbn [length].
  eapply cost_mono; [apply (cost_bind _ _ (10 * length l) 0)|lia]; [apply cost_min_by; intros; apply cost_select_cmp|]. intros ? _. rewrite cost_ret. lia.
Qed.

Lemma cost_fold {A S} (f : S -> A -> C S B F) c : (forall s x, costs (f s x) <= c) ->
  forall l s, costs (k_fold P f l s) <= c * length l.
Proof.
  intros Hc. induction l as [|y l IH]; intros s; cbn [k_fold length]; [rewrite cost_ret; lia|].
  eapply cost_mono; [apply (cost_bind _ _ c (c * length l))|lia]; [apply Hc|]. intros o _. apply IH.
Qed.

Section CostSplit.
Context {T : Type} (bnd : T -> B).

Lemma cost_outer ov ivs s : 2 * costs (k_outer P CK bnd ov ivs s) <= 3 * length ivs * (length ivs - 1).
Proof.
  revert s. induction ivs as [|[i vi] r IH]; intros s; cbn [k_outer length]; [rewrite cost_ret; lia|].
  unfold cbind. destruct (snd (k_fold _ _ _ _)) as [s'| | |]; cbn [fst]; try rewrite cost_app; try specialize (IH s');
    assert (Hf := cost_fold (k_loop2 P CK bnd ov i vi) 3 ltac:(intros [[g i1] i2] [j vj]; unfold k_loop2;
      apply (cost_bind _ _ 1 2); [apply cost_union|]; intros ? _; apply (cost_bind _ _ 1 1); [apply cost_union|]; intros ? _;
      apply (cost_bind _ _ 1 0); [apply cost_vol|]; intros ? _; rewrite cost_ret; lia) r s);
    assert (Hq : 3 * S (length r) * (S (length r) - 1) = 3 * length r * (length r - 1) + 6 * length r)
      by (clear; destruct (length r); [reflexivity|]; rewrite !Nat.sub_succ, !Nat.sub_0_r; ring);
    rewrite Hq; revert IH Hf; generalize (3 * length r * (length r - 1)); intros; lia.
Qed.

Lemma cost_worst values ov : 2 * costs (k_worst_combination P CK bnd values ov) <= 4 * length values + 3 * length values * (length values - 1).
Proof.
  unfold k_worst_combination. destruct values as [|v vs] eqn:E; [cbn; lia|]. rewrite <- E. clear E v vs.
  assert (H : costs (k_fold P (k_loop1 P CK bnd ov) (enumerate values) (n64_neg_inf VO, 0)) <= 2 * length values).
  { eapply cost_mono; [apply (cost_fold _ 2)|rewrite enumerate_length; lia]. intros [g i1] [i x]. unfold k_loop1.
    apply (cost_bind _ _ 1 1); [apply cost_union|]. intros ? _. apply (cost_bind _ _ 1 0); [apply cost_vol|]. intros ? _. rewrite cost_ret. lia. }
  unfold cbind at 1. destruct (snd (k_fold _ _ _ _)) as [[g i1]| | |]; cbn [fst]; try lia. rewrite cost_app.
  assert (H2 := cost_outer ov (enumerate values) (g, i1, length values)). rewrite enumerate_length in H2.
  unfold cbind. destruct (snd (k_outer _ _ _ _ _ _)) as [[[g' j1] j2]| | |]; cbn [fst]; try lia. rewrite cost_app, cost_ret. lia.
Qed.

Lemma cost_seed values ov : 2 * costs (k_seed_split_groups P CK bnd values ov) <= 4 * length values + 3 * length values * (length values - 1).
Proof.
  unfold k_seed_split_groups. assert (H := cost_worst values ov).
  assert (H2 : costs (k_seed_split_groups P CK bnd values ov) <= costs (k_worst_combination P CK bnd values ov) + 0); [|unfold k_seed_split_groups in H2; lia].
  apply cost_bind; [lia|]. intros [i1 i2] _. apply cost_lift_bind. intros vs _. destruct (i2 <? length vs); [destruct (nth_error vs i2)|]; cbn; lia.
Qed.

Lemma seed_snd_length values ov vs x : snd (k_seed_split_groups P CK bnd values ov) = Ok (vs, x) -> length vs = length values.
Proof.
  unfold k_seed_split_groups, cbind. destruct (snd (k_worst_combination _ _ _ _ _)) as [[i1 i2]| | |]; cbn [snd]; try discriminate.
  unfold clift at 1. cbn [fst snd]. unfold slice_swap. destruct (nth_error values 0) as [a|]; [|discriminate]. destruct (nth_error values i1) as [b|]; [|discriminate].
  cbn [snd]. set (w := set_nth i1 a (set_nth 0 b values)). assert (Hw : length w = length values) by (unfold w; now rewrite !set_nth_length).
  destruct (i2 <? length w); [destruct (nth_error w i2)|]; unfold cret, clift; cbn [snd]; try discriminate; intros E; injection E as <- _; [now rewrite set_nth_length|exact Hw].
Qed.

Lemma cost_candidate cs b : costs (k_best_candidate P CK bnd cs b) <= 1 + 3 * length cs.
Proof.
  unfold k_best_candidate. apply cost_bind; [apply cost_vol|]. intros v _.
  eapply cost_mono; [apply (cost_bind _ _ (3 * length cs) 0)|lia]; [|intros ? _; rewrite cost_ret; lia].
  induction cs as [|x cs IH]; cbn [k_increases length]; [rewrite cost_ret; lia|].
  eapply cost_mono; [apply (cost_bind _ _ 1 (2 + 3 * length cs))|lia]; [apply cost_union|]. intros u _.
  eapply cost_mono; [apply (cost_bind _ _ 1 (1 + 3 * length cs))|lia]; [apply cost_vol|]. intros w _.
  apply cost_bind; [apply cost_sub|]. intros y _.
  eapply cost_mono; [apply (cost_bind _ _ (3 * length cs) 0)|lia]; [exact IH|]. intros ? _. rewrite cost_ret. lia.
Qed.

Lemma slice_swap_length i j (l l' : list T) : slice_swap i j l = Ok l' -> length l' = length l.
Proof. unfold slice_swap. destruct (nth_error l i); [|discriminate]. destruct (nth_error l j); [|discriminate]. intros E. injection E as <-. now rewrite !set_nth_length. Qed.

Lemma cost_split_loop fuel c m values g1 group2 b1 b2 r : length values - g1 <= r ->
  costs (k_split_loop P CK bnd fuel c m values g1 group2 b1 b2) <= 3 * r * r + 6 * r.
Proof.
  revert values g1 group2 b1 b2 r. induction fuel as [|fuel IH]; intros values g1 group2 b1 b2 r Hr; cbn [k_split_loop].
  - destruct (g1 <? length values); cbn; lia.
  - destruct (Nat.ltb_spec g1 (length values)) as [Hlt|Hge]; [|cbn; lia].
    set (rem := skipn g1 values). assert (Hrem : length rem = length values - g1) by apply skipn_length.
    destruct r as [|r]; [lia|].
    assert (H1 := cost_candidate rem b1). assert (H2 := cost_candidate rem b2).
    apply cost_mono with ((1 + 3 * length rem) + ((1 + 3 * length rem) + (1 + (3 * r * r + 6 * r)))); [|nia].
    apply cost_bind; [exact H1|]. intros o1 _. apply cost_lift_bind. intros [c1 v1] _.
    apply cost_bind; [exact H2|]. intros o2 _. apply cost_lift_bind. intros [c2 v2] _.
    destruct (if n64_lt P v1 v2 then _ else _); apply cost_lift_bind; intros x _; (apply cost_bind; [apply cost_union|]); intros b _.
    + apply cost_lift_bind. intros vs Es. apply slice_swap_length in Es. apply IH. lia.
    + apply cost_lift_bind. intros [y vs] Es. apply swap_remove_length in Es. apply cost_lift_bind. intros g2 _. apply IH. lia.
Qed.

Lemma cost_split c m values ov : costs (k_split P CK bnd c m values ov) <= 5 * length values * length values.
Proof.
  unfold k_split. destruct (Nat.ltb_spec (length values) 1); [cbn; lia|].
  assert (H1 := cost_seed values ov). set (n := length values) in *.
  apply cost_mono with (costs (k_seed_split_groups P CK bnd values ov) + (3 * (n - 1) * (n - 1) + 6 * (n - 1))).
  2:{ destruct n as [|n]; [lia|]. replace (S n - 1) with n in * by lia. nia. }
  apply cost_bind; [lia|]. intros [vs seed] E. apply seed_snd_length in E.
  apply cost_lift_bind. intros g2 _. apply cost_lift_bind. intros v0 _. apply cost_lift_bind. intros w0 _. apply cost_split_loop. lia.
Qed.
End CostSplit.

(** *** The tree *)
Context (ok : K -> Prop).
Notation node := (node B K V).
Notation wf := (wf cfg ok (@rel_any B K) 0 False).

(** A split of a full node, and one more union. *)
Definition split_cost : nat := 5 * cap * cap + 1.
(** At every level: a selection, the union of all children, a split. *)
Definition level_cost : nat := split_cost + 11 * cap.

Lemma cost_self_insert level (n : node) e : fanout n <= cap -> costs (k_self_insert P CK cfg level n e) <= split_cost.
Proof.
  intros Hf. unfold k_self_insert, split_cost. apply cost_lift_bind. intros ch Ech.
  assert (Hch : match ch with CInner cs => length cs | CLeaf es => length es end <= cap).
  { destruct n as [b [cs|es]], level; cbn in Ech; try discriminate; injection Ech as <-; exact Hf. }
  destruct ch as [cs|es], e as [[el en]|kv]; try (rewrite cost_lift; lia).
  - destruct (negb _); [rewrite cost_lift; lia|]. unfold try_push. destruct (length cs =? cap).
    + eapply cost_mono; [apply (cost_bind _ _ (5 * length cs * length cs) 0)|nia]; [apply cost_split|]. intros [[[? ?] ?] ?] _. rewrite cost_ret. lia.
    + eapply cost_mono; [apply (cost_bind _ _ 1 0)|lia]; [apply cost_union|]. intros ? _. rewrite cost_ret. lia.
  - unfold try_push. destruct (length es =? cap).
    + eapply cost_mono; [apply (cost_bind _ _ (5 * length es * length es) 0)|nia]; [apply cost_split|]. intros [[[? ?] ?] ?] _. rewrite cost_ret. lia.
    + eapply cost_mono; [apply (cost_bind _ _ 1 0)|lia]; [apply cost_union|]. intros ? _. rewrite cost_ret. lia.
Qed.

Lemma wf_fanout level (n : node) : wf level n -> fanout n <= cap.
Proof. destruct level; cbn; tauto. Qed.

Lemma cost_node_insert level (n : node) e : wf level n -> costs (k_node_insert P CK cfg level n e) <= level * level_cost + split_cost.
Proof.
  revert n. induction level as [|l IH]; intros n Hw; cbn [k_node_insert].
  - destruct (negb _); [rewrite cost_lift; lia|]. apply cost_self_insert, (wf_fanout 0), Hw.
  - destruct (negb _).
    2:{ eapply cost_mono; [apply cost_self_insert, (wf_fanout (S l)), Hw|lia]. }
    destruct (wf_inv _ _ _ _ _ _ _ Hw) as (b & cs & ->). cbn [node_children read_inner].
    rewrite wf_inner in Hw. destruct Hw as (_ & Hlen & Hcs).
    apply cost_lift_bind. intros cs' E. injection E as <-.
    apply cost_mono with (10 * cap + ((l * level_cost + split_cost) + (cap + split_cost))); [|unfold level_cost; lia].
    apply cost_bind.
    { eapply cost_mono; [apply cost_select|]. rewrite map_length. lia. }
    intros o _. apply cost_lift_bind. intros i _. apply cost_lift_bind. intros child Ec.
    assert (Hc : nth_error cs i = Some child) by (destruct (nth_error cs i); [now injection Ec as ->|discriminate]).
    destruct (Forall_nth_error _ _ _ _ Hcs Hc) as [Hcw _].
    apply cost_bind; [apply IH, Hcw|]. intros [child' sib] _. destruct sib as [m|].
    + apply cost_bind; [eapply cost_mono; [apply cost_union_all|]; rewrite map_length, set_nth_length; lia|]. intros b' _.
      apply cost_self_insert. cbn. now rewrite set_nth_length.
    + eapply cost_mono; [apply (cost_bind _ _ 1 0)|unfold split_cost; lia]; [apply cost_union|]. intros ? _. rewrite cost_ret. lia.
Qed.

Lemma cost_branch (root sib : container B K V) : costs (k_branch P cfg root sib) <= 1.
Proof.
  unfold k_branch. destruct (negb _); [rewrite cost_lift; lia|]. apply (cost_bind _ _ 1 0); [apply cost_union|]. intros b _.
  apply cost_lift_bind. intros v _. apply cost_lift_bind. intros v' _. rewrite cost_ret. lia.
Qed.

Lemma cost_insert_entry (t : rtree B K V) e : wf (fst t) (snd t) -> costs (k_insert_entry P CK cfg t e) <= fst t * level_cost + split_cost + 1.
Proof.
  intros Hw. unfold k_insert_entry. apply cost_bind; [now apply cost_node_insert|]. intros [n sib] _. destruct sib; [apply cost_branch|rewrite cost_ret; lia].
Qed.

Lemma cost_node_insert_unique level (n : node) k v : wf level n ->
  costs (k_node_insert_unique P CK cfg level n k v) <= level * level_cost + split_cost.
Proof.
  assert (Hp : forall level n, wf level n ->
    costs (let^ (n, sibling) := k_node_insert P CK cfg level n (ELeaf (k, v)) in cret (@None V, n, sibling)) <= level * level_cost + split_cost).
  { intros lv m Hm. eapply cost_mono; [apply (cost_bind _ _ (lv * level_cost + split_cost) 0); [apply cost_node_insert, Hm|]|lia]. intros [? ?] _. rewrite cost_ret. lia. }
  revert n. induction level as [|l IH]; intros n Hw; cbn [k_node_insert_unique].
  - apply cost_lift_bind. intros es _. destruct (entries_get_mut _ _ _) as [[old put]|]; [rewrite cost_ret; lia|]. now apply (Hp 0).
  - destruct (wf_inv _ _ _ _ _ _ _ Hw) as (b & cs & ->). cbn [node_children read_inner].
    apply cost_lift_bind. intros cs' E. injection E as <-.
    destruct (filter _ _) as [|[i child] [|y fs]] eqn:Ef; [now apply (Hp (S l))| |].
    + assert (Hc : nth_error cs i = Some child).
      { assert (Hin : In (i, child) [(i, child)]) by now left. rewrite <- Ef in Hin. apply filter_In in Hin as [Hin _]. now apply in_enumerate in Hin. }
      rewrite wf_inner in Hw. destruct Hw as (_ & Hlen & Hcs). destruct (Forall_nth_error _ _ _ _ Hcs Hc) as [Hcw _].
      apply cost_mono with ((l * level_cost + split_cost) + (cap + (split_cost + 0))); [|unfold level_cost; lia].
      apply cost_bind; [apply IH, Hcw|]. intros [[old child'] sib] _. destruct sib as [m|].
      * apply cost_bind; [eapply cost_mono; [apply cost_union_all|]; rewrite map_length, set_nth_length; lia|]. intros b' _.
        apply cost_bind; [apply cost_self_insert; cbn; now rewrite set_nth_length|]. intros [? ?] _. rewrite cost_ret. lia.
      * eapply cost_mono; [apply (cost_bind _ _ 1 0)|unfold split_cost; lia]; [apply cost_union|]. intros ? _. rewrite cost_ret. lia.
    + apply cost_lift_bind. intros found _. destruct found as [[old put]|]; [rewrite cost_ret; lia|]. now apply (Hp (S l)).
Qed.

Lemma cost_insert_unique (t : rtree B K V) k v : wf (fst t) (snd t) ->
  costs (k_container_insert_unique P CK cfg t k v) <= fst t * level_cost + split_cost + 1.
Proof.
  intros Hw. unfold k_container_insert_unique. apply cost_bind; [now apply cost_node_insert_unique|]. intros [[old n] sib] _.
  destruct sib; [|rewrite cost_ret; lia]. apply (cost_bind _ _ 1 0); [apply cost_branch|]. intros ? _. rewrite cost_ret. lia.
Qed.

(** *** Removal *)
Definition cc_len (cc : children_container B K V) : nat := match cc with CCInner _ cs => length cs | CCLeaf es => length es end.
Definition slot_len (s : option (children node (K * V))) : nat :=
  match s with Some (CInner cs) => length cs | Some (CLeaf es) => length es | None => 0 end.

(** Cost and result together. *)
Definition cp {A} (m : C A B F) (a : nat) (R : A -> Prop) : Prop := costs m <= a /\ forall x, snd m = Ok x -> R x.
Lemma cp_bind {A A'} (m : C A B F) (k : A -> C A' B F) a b R R' :
  cp m a R -> (forall x, R x -> cp (k x) b R') -> cp (cbind m k) (a + b) R'.
Proof.
  intros [Hm HR] Hk. unfold cp, cbind. destruct (snd m) as [x| | |]; cbn [fst snd]; try (split; [lia|discriminate]).
  specialize (Hk x (HR x eq_refl)). destruct Hk as [H1 H2]. rewrite cost_app. split; [lia|exact H2].
Qed.
Lemma cp_lift_bind {A A'} (r : res A) (k : A -> C A' B F) b R' : (forall x, r = Ok x -> cp (k x) b R') -> cp (cbind (clift r) k) b R'.
Proof. intros H. change b with (0 + b). apply (cp_bind _ _ 0 b (fun x => r = Ok x)); [|exact H]. split; [cbn; lia|auto]. Qed.
Lemma cp_ret {A} (x : A) b (R : A -> Prop) : R x -> cp (cret x) b R.
Proof. intros H. split; [rewrite cost_ret; lia|]. intros y E. now injection E as <-. Qed.
Lemma cp_mono {A} (m : C A B F) a b (R R' : A -> Prop) : cp m a R -> a <= b -> (forall x, R x -> R' x) -> cp m b R'.
Proof. intros [H1 H2] Hab HR. split; [lia|auto]. Qed.
Lemma cp_union_all l : cp (k_union_all P l) (length l) (fun _ => True).
Proof. split; [apply cost_union_all|auto]. Qed.


(** A removal that finds nothing makes no call and changes nothing; one that finds something goes down one path. *)
Definition rp {A} (m : C (option A * node * list (children_container B K V)) B F) (n : node) (a l : nat) : Prop :=
  costs m <= a /\
  match snd m with
  | Ok (None, n', us) => costs m = 0 /\ n' = n /\ us = []
  | Ok (Some _, _, us) => length us <= l /\ Forall (fun cc => cc_len cc < minc) us
  | _ => True
  end.

Lemma set_nth_same {A} i (x : A) l : nth_error l i = Some x -> set_nth i x l = l.
Proof. revert i. induction l as [|y l IH]; intros [|i] E; cbn in *; try discriminate; [now injection E as ->|now rewrite IH]. Qed.

Lemma rp_lift {A A'} (r : res A) (k : A -> C (option A' * node * list (children_container B K V)) B F) n a l :
  (forall x, r = Ok x -> rp (k x) n a l) -> rp (cbind (clift r) k) n a l.
Proof.
  intros H. unfold cbind, clift. cbn [fst snd app]. destruct r as [x| | |]; cbn [fst snd]; try (split; [cbn; lia|exact I]).
  specialize (H x eq_refl). destruct (k x). exact H.
Qed.
Lemma rp_unwrap {A A'} (r : option A) (k : A -> C (option A' * node * list (children_container B K V)) B F) n a l :
  (forall x, r = Some x -> rp (k x) n a l) -> rp (cbind (clift (unwrap r)) k) n a l.
Proof. intros H. apply rp_lift. intros x E. apply H. destruct r; cbn in E; [now injection E as ->|discriminate]. Qed.

Lemma cost_node_remove {Q} (BR : Borrowed B K Q) level (n : node) q : wf level n ->
  rp (k_node_remove P cfg BR level n q) n ((level + 1) * cap) level.
Proof.
  revert n. induction level as [|l IH]; intros n Hw; cbn [k_node_remove].
  - destruct (wf_inv _ _ _ _ _ _ _ Hw) as (b & es & ->). rewrite wf_leaf in Hw. destruct Hw as (_ & Hlen & _). cbn [node_children read_leaf].
    apply rp_lift. intros es0 E. injection E as <-.
    destruct (position _ es) as [i|]; [|split; [cbn; lia|cbn; auto]].
    apply (rp_lift (swap_remove i es)). intros [kv es'] Es. apply swap_remove_length in Es. unfold rp. cbn. rewrite map_length. repeat split; try lia. constructor.
  - destruct (wf_inv _ _ _ _ _ _ _ Hw) as (b & cs & ->). rewrite wf_inner in Hw. destruct Hw as (_ & Hlen & Hcs). cbn [node_children read_inner node_bounds].
    apply rp_lift. intros cs0 E. injection E as <-. 
    set (loop := fix loop (i : nat) (cs : list node) := _).
    generalize (length cs) at 1. intros i.
    induction i as [|i IHi]; cbn [loop]; [split; cbn; [lia|cbn; auto]|].
    apply rp_unwrap. intros child Hc.
    destruct (Forall_nth_error _ _ _ _ Hcs Hc) as [Hcw _].
    destruct (b_intersects _ _ _); [|exact IHi].
    specialize (IH child Hcw). destruct IH as [H1 H2].
    unfold cbind at 1. destruct (snd (k_node_remove P cfg BR l child q)) as [[[value child'] us]| | |]; cbn [fst snd]; try (split; [cbn [fst snd]; nia|exact I]).
    destruct value as [value|].
    + destruct H2 as [H2 H3].
      assert (Hk : forall cont : nat -> C (option V * node * list (children_container B K V)) B F,
        (forall len, shallow_len l child' = Ok len -> rp (cont len) (Node b (CInner cs)) cap (S l) /\ (forall n' us', snd (cont len) <> Ok (None, n', us'))) ->
        let k := cbind (clift (shallow_len l child')) cont in
        rp (fst (k_node_remove P cfg BR l child q) ++ fst k, snd k) (Node b (CInner cs)) ((S l + 1) * cap) (S l)).
      { intros cont Hcont k. unfold k, cbind, clift. cbn [fst snd app].
        destruct (shallow_len l child') as [len| | |] eqn:El; cbn [fst snd app]; try (rewrite app_nil_r; split; [cbn [fst]; lia|exact I]).
        destruct (Hcont len eq_refl) as [[Hk1 Hk2] Hk3]. split; cbn [fst snd]; [rewrite cost_app; lia|].
        destruct (snd (cont len)) as [[[[?|] ?] ?]| | |]; auto. exfalso. eapply Hk3. reflexivity. }
      apply Hk. clear Hk. intros len El.
      destruct (Nat.ltb_spec len minc) as [Hlt|Hge].
      * unfold cbind at 2 4, clift. cbn [fst snd app].
        destruct (swap_remove i (set_nth i child' cs)) as [[c cs']| | |] eqn:Es; cbn [fst snd app]; unfold cbind;
          cbn [fst snd app]; try (split; [split; [cbn; lia|exact I]|discriminate]).
        assert (Hl := swap_remove_length _ _ _ _ Es). rewrite set_nth_length in Hl.
        assert (Hcc : c = child').
        { assert (Hi : i < length cs) by (now apply nth_error_lt in Hc).
          destruct (swap_remove_spec i (set_nth i child' cs)) as (x & l' & E & Hx & _); [now rewrite set_nth_length|].
          rewrite E in Es. injection Es as <- <-. rewrite nth_error_set_nth, Nat.eqb_refl in Hx. destruct (i <? length cs); congruence. }
        subst c. destruct (container_children (l, child')) as [cc| | |] eqn:Ecc; cbn [fst snd app];
          try (split; [split; [cbn; lia|exact I]|discriminate]).
        split; [|discriminate]. split; cbn; [rewrite map_length; lia|]. split; [rewrite app_length; cbn; lia|].
        apply Forall_app; split; [exact H3|]. constructor; [|constructor].
        destruct child' as [b' [cs0|es0]], l; cbn in El, Ecc; try discriminate; injection El as <-; injection Ecc as <-; exact Hlt.
      * unfold cbind, cret. cbn [fst snd app]. split; [|discriminate]. split; cbn; [rewrite map_length, set_nth_length; lia|]. split; [lia|exact H3].
    + destruct H2 as (H2 & -> & ->). rewrite (set_nth_same _ _ _ Hc). destruct IHi as [IH1 IH2]. split; cbn [fst snd]; rewrite cost_app, H2; assumption.
Qed.

(** *** Re-insertion *)
Notation WR := (wf_root cfg ok (@rel_any B K) 0 False False).
Notation EOK := (entry_ok cfg ok (@rel_any B K) 0 False).
Ltac nof := let H := fresh in intro H; destruct H.

Lemma kie_ok (t : rtree B K V) e t1 : WR t -> EOK e -> target_level e <= fst t ->
  snd (k_insert_entry P CK cfg t e) = Ok t1 -> WR t1 /\ fst t <= fst t1.
Proof.
  intros Hw He Hl E.
  assert (Ha := ag_insert_entry P CK cfg False (fun _ => True) ltac:(tauto) ltac:(tauto) ltac:(tauto) ok rel_any (any_laws P ok) 0 False
    ltac:(tauto) (fun _ _ => I) (fun _ _ _ => I) t e Hw He Hl).
  assert (H := insert_entry_spec P cfg ok rel_any (any_laws P ok) 0 False False ltac:(tauto) ltac:(tauto) ltac:(tauto) t e Hw He Hl).
  destruct Ha as [Ha|[Ha _]]; rewrite E in Ha; [|discriminate]. rewrite <- Ha in H. cbn in H. tauto.
Qed.

Definition entry_cost (h : nat) : nat := h * level_cost + split_cost + 1.
Lemma entry_cost_mono h h' : h <= h' -> entry_cost h <= entry_cost h'. Proof. unfold entry_cost. nia. Qed.

Lemma cost_insert_entries es : forall (t t' : rtree B K V), WR t -> Forall (fun e => EOK e /\ target_level e <= fst t) es ->
  snd (k_insert_entries P CK cfg t es) = Ok t' ->
  costs (k_insert_entries P CK cfg t es) <= length es * entry_cost (fst t') /\ WR t' /\ fst t <= fst t'.
Proof.
  induction es as [|e es IH]; intros t t' Hw Hes E; cbn [k_insert_entries length] in *.
  - cbn in E |- *. injection E as <-. repeat split; auto; try lia; apply Hw.
  - inversion Hes as [|? ? [He Hl] Hes']; subst. unfold cbind in *.
    destruct (snd (k_insert_entry P CK cfg t e)) as [t1| | |] eqn:E1; cbn [fst snd] in *; try discriminate.
    destruct (kie_ok t e t1 Hw He Hl E1) as [Hw1 Hl1].
    destruct (IH t1 t' Hw1) as (Hc & Hw' & Hl'); [|exact E|].
    { eapply Forall_impl; [|exact Hes']. intros e0 [? ?]. split; [assumption|lia]. }
    rewrite cost_app. assert (H1 := cost_insert_entry t e (proj1 Hw)). assert (H2 := entry_cost_mono (fst t) (fst t') ltac:(lia)).
    split; [|split; [exact Hw'|lia]]. unfold entry_cost in *. lia.
Qed.

Lemma cc_entries_length level ch (cc : children_container B K V) : wrap_children ch level = Ok cc -> length (cc_entries cc) = slot_len (Some ch).
Proof. destruct ch, level; cbn; try discriminate; intros E; injection E as <-; cbn; now rewrite map_length. Qed.

Lemma cost_reinsert arr : forall (t t' : rtree B K V) level, WR t -> arr_ok cfg ok rel_any 0 False level arr -> level + length arr <= S (fst t) ->
  snd (k_reinsert P CK cfg t level arr) = Ok t' ->
  costs (k_reinsert P CK cfg t level arr) <= list_sum (map slot_len arr) * entry_cost (fst t') /\ WR t' /\ fst t <= fst t'.
Proof.
  induction arr as [|[ch|] arr IH]; intros t t' level Hw Ha Hl E; cbn [k_reinsert] in *; cbn [map list_sum].
  - cbn in E |- *. injection E as <-. repeat split; auto; try lia; apply Hw.
  - assert (Hs := Ha 0 ch eq_refl). rewrite Nat.add_0_r in Hs. cbn [length] in Hl.
    destruct (wrap_children_spec cfg ok rel_any 0 False False ltac:(nof) ltac:(nof) ltac:(nof) ltac:(nof) level ch Hs) as (cc & Ec & _ & _ & Hent).
    unfold cbind in *. cbn [clift fst snd] in *. rewrite Ec in *. cbn [fst snd app] in *.
    destruct (snd (k_insert_entries P CK cfg t (cc_entries cc))) as [t1| | |] eqn:E1; cbn [fst snd] in *; try discriminate.
    assert (Hes : Forall (fun e => EOK e /\ target_level e <= fst t) (cc_entries cc)).
    { eapply Forall_impl; [|exact Hent]. intros e [? ?]. split; [assumption|lia]. }
    destruct (cost_insert_entries (cc_entries cc) t t1 Hw Hes E1) as (Hc1 & Hw1 & Hl1).
    destruct (IH t1 t' (S level) Hw1) as (Hc & Hw' & Hl'); [|lia|exact E|].
    { intros i ch' Hi. replace (S level + i) with (level + S i) by lia. now apply Ha. }
    rewrite cost_app. assert (H2 := entry_cost_mono (fst t1) (fst t') ltac:(lia)). rewrite (cc_entries_length _ _ _ Ec) in Hc1.
    split; [|split; [exact Hw'|lia]]. change (costs (k_insert_entries P CK cfg t (cc_entries cc)) + costs (k_reinsert P CK cfg t1 (S level) arr)
      <= (slot_len (Some ch) + list_sum (map slot_len arr)) * entry_cost (fst t')). nia.
  - cbn [length] in Hl. destruct (IH t t' (S level) Hw) as (Hc & Hw' & Hl'); [|lia|exact E|].
    { intros i ch' Hi. replace (S level + i) with (level + S i) by lia. now apply Ha. }
    split; [|split; [exact Hw'|lia]]. cbn. exact Hc.
Qed.

Lemma slot_sum_set arr i cc : list_sum (map slot_len (set_nth i (Some (cc_leak cc)) arr)) <= list_sum (map slot_len arr) + cc_len cc.
Proof.
  revert i. induction arr as [|a arr IH]; intros [|i]; cbn; try lia.
  - assert (slot_len (Some (cc_leak cc)) = cc_len cc) by now destruct cc. cbn in *. lia.
  - specialize (IH i). unfold list_sum in *. cbn in *. lia.
Qed.

Lemma store_all_sum ccs : forall arr arr', store_all arr ccs = Ok arr' ->
  list_sum (map slot_len arr') <= list_sum (map slot_len arr) + list_sum (map cc_len ccs).
Proof.
  induction ccs as [|cc ccs IH]; intros arr arr' E; cbn [store_all] in E.
  - injection E as <-. cbn. lia.
  - unfold store_underfull in E. destruct (cc_level cc <? length arr); [|discriminate]. cbn [bind] in E.
    apply IH in E. assert (H := slot_sum_set arr (cc_level cc) cc). change (list_sum (map cc_len (cc :: ccs))) with (cc_len cc + list_sum (map cc_len ccs)). lia.
Qed.

Lemma slots_none level : list_sum (map slot_len (repeat (@None (children node (K * V))) level)) = 0.
Proof. induction level; cbn; auto. Qed.

Lemma sum_lt (l : list (children_container B K V)) : Forall (fun cc => cc_len cc < minc) l -> list_sum (map cc_len l) <= length l * (minc - 1).
Proof.
  induction 1 as [|cc l Hc _ IH]; [cbn; lia|]. change (list_sum (map cc_len (cc :: l))) with (cc_len cc + list_sum (map cc_len l)). cbn [length]. lia.
Qed.

(** A removal: a search of one path, and what it re-inserts. *)
Lemma cost_remove {Q} (BR : Borrowed B K Q) (t : rtree B K V) q o t' : WR t ->
  snd (k_container_remove P CK cfg BR t q) = Ok (o, t') ->
  costs (k_container_remove P CK cfg BR t q) <=
    match o with None => 0 | Some _ => (fst t + 1) * cap + fst t * (minc - 1) * entry_cost (fst t') end.
Proof.
  intros [Hw _] E. destruct t as [level n]. unfold k_container_remove in *. cbn [fst snd] in *.
  assert (Hc := cost_node_remove BR level n q Hw). destruct Hc as [Hc1 Hc2].
  assert (Hag := ag_node_remove P cfg False BR level n q).
  unfold cbind at 1 in E. unfold cbind at 1.
  destruct (snd (k_node_remove P cfg BR level n q)) as [[[value n'] us]| | |] eqn:En; cbn [fst snd] in *; try discriminate.
  destruct Hag as [Hag|[Hag _]]; rewrite En in Hag; [|discriminate].
  assert (Hpost := node_remove_spec P cfg ok rel_any (any_laws P ok) 0 False BR False ltac:(nof) ltac:(nof) ltac:(nof) ltac:(nof) False (False_rect _) level n q Hw).
  rewrite <- Hag in Hpost. cbn [post] in Hpost. rewrite cost_app.
  destruct value as [v|].
  2:{ destruct Hc2 as (Hc0 & -> & ->). cbn in E |- *. injection E as <- <-. rewrite Hc0. cbn. lia. }
  cbn [rem_post] in Hpost.
  destruct Hpost as (k & Hk & Hp & Hw' & Hf & Hf0 & Hu & Hnd & Hlv). rewrite Forall_forall in Hlv.
  destruct (store_all_spec cfg ok rel_any 0 False False ltac:(nof) ltac:(nof) ltac:(nof) ltac:(nof) us (repeat None level)) as (arr & Ea & Hl & Ha & _); auto.
  { intros cc Hin. apply nth_error_rep. now apply Hlv. }
  { intros i ch Hi. apply nth_error_In, repeat_spec in Hi. discriminate. }
  rewrite repeat_length in Hl. rewrite Ea in *. unfold cbind, clift in *. cbn [fst snd app] in *.
  assert (H := try_unbranch_spec cfg ok (@rel_any B K) 0 False False ltac:(nof) ltac:(nof) ltac:(nof) ltac:(nof) ltac:(nof) level n' Hw' ltac:(nof)).
  destruct (try_unbranch (level, n')) as [t1| | |]; cbn [fst snd app] in *; try discriminate.
  cbn [post] in H. destruct H as (_ & Hw1 & Hl1).
  destruct (snd (k_reinsert P CK cfg t1 0 arr)) as [t2| | |] eqn:E2; cbn [fst snd app] in *; try discriminate.
  cbn in E. injection E as <- <-.
  destruct (cost_reinsert arr t1 t2 0 Hw1 Ha ltac:(lia) E2) as (Hr & _ & _).
  assert (Hs := store_all_sum us _ _ Ea). rewrite slots_none in Hs. destruct Hc2 as [Hc2 Hc3]. assert (Hm := sum_lt us Hc3).
  rewrite app_nil_r.
  assert (H3 : list_sum (map slot_len arr) <= level * (minc - 1)) by nia. nia.
Qed.
End Cost.
