(** C56, from below: what an insertion at least costs, and the exact cost of a split. *)
From Verif Require Import PropCheck CostProof Main.

Section Lower.
Context {B K V : Type} (P : Params B K) (CK : Checks (vops P)) (cfg : config).
Notation VO := (vops P).
Notation F := (N64 (vops P)).
Notation cap := (max_children cfg).
Notation minc := (min_children cfg).
Notation costs m := (cost (fst m)).

(** A call that returns: what it calls returns too, and the costs add up. *)
Lemma bind_ok {A A'} (m : C A B F) (k : A -> C A' B F) y : snd (cbind m k) = Ok y ->
  exists x, snd m = Ok x /\ snd (k x) = Ok y /\ costs (cbind m k) = costs m + costs (k x).
Proof.
  unfold cbind. destruct (snd m) as [x| | |]; cbn [fst snd]; intros E; try discriminate E. exists x. rewrite cost_app. auto.
Qed.
Lemma lift_ok {A A'} (r : res A) (k : A -> C A' B F) y : snd (cbind (clift r) k) = Ok y ->
  exists x, r = Ok x /\ snd (k x) = Ok y /\ costs (cbind (clift r) k) = costs (k x).
Proof. intros E. destruct (bind_ok _ _ _ E) as (x & E1 & E2 & E3). exists x. cbn in E1. auto. Qed.

Lemma vol_ok b x : snd (k_vol P CK b) = Ok x -> costs (k_vol P CK b) = 1. Proof. reflexivity. Qed.

Lemma increase_exact a b x : snd (k_increase P CK a b) = Ok x -> costs (k_increase P CK a b) = 4.
Proof.
  unfold k_increase. intros E. destruct (bind_ok _ _ _ E) as (u & _ & E2 & ->). destruct (bind_ok _ _ _ E2) as (v & _ & E3 & ->).
  destruct (bind_ok _ _ _ E3) as (w & _ & E4 & ->). reflexivity.
Qed.

Lemma select_cmp_low b x y c : snd (k_select_cmp P CK b x y) = Ok c -> 8 <= costs (k_select_cmp P CK b x y).
Proof.
  unfold k_select_cmp. intros E. destruct (bind_ok _ _ _ E) as (u & E1 & E2 & ->). destruct (bind_ok _ _ _ E2) as (v & E3 & E4 & ->).
  rewrite (increase_exact _ _ _ E1), (increase_exact _ _ _ E3). lia.
Qed.
Lemma min_by_low {T} (cmp : T -> T -> C comparison B F) c : (forall x y o, snd (cmp x y) = Ok o -> c <= costs (cmp x y)) ->
  forall l best z, snd (k_min_by_from P cmp best l) = Ok z -> c * length l <= costs (k_min_by_from P cmp best l).
Proof.
  intros Hc. induction l as [|y l IH]; intros best z E; cbn [k_min_by_from length] in *; [lia|].
  destruct (bind_ok _ _ _ E) as (o & E1 & E2 & ->). specialize (Hc _ _ _ E1). specialize (IH _ _ E2). lia.
Qed.
Lemma select_low cs b o : snd (k_select P CK cs b) = Ok o -> 8 * (length cs - 1) <= costs (k_select P CK cs b).
Proof.
  unfold k_select. rewrite <- (enumerate_length cs). destruct (enumerate cs) as [|x l]; [cbn; lia|]. cbn [length]. intros E.
  destruct (bind_ok _ _ _ E) as (y & E1 & E2 & ->). assert (H := min_by_low _ 8 (fun x y o H => select_cmp_low b x y o H) _ _ _ E1). lia.
Qed.

(** *** A split *)
Section Split.
Context {T : Type} (bnd : T -> B).

Lemma fold_exact {A S} (f : S -> A -> C S B F) c : (forall s x z, snd (f s x) = Ok z -> costs (f s x) = c) ->
  forall l s z, snd (k_fold P f l s) = Ok z -> costs (k_fold P f l s) = c * length l.
Proof.
  intros Hc. induction l as [|y l IH]; intros s z E; cbn [k_fold length] in *; [rewrite cost_ret; lia|].
  destruct (bind_ok _ _ _ E) as (o & E1 & E2 & ->). rewrite (Hc _ _ _ E1), (IH _ _ E2). lia.
Qed.
Lemma loop1_exact ov s x z : snd (k_loop1 P CK bnd ov s x) = Ok z -> costs (k_loop1 P CK bnd ov s x) = 2.
Proof.
  unfold k_loop1. destruct s as [g i1], x as [i v]. intros E. destruct (bind_ok _ _ _ E) as (u & _ & E2 & ->).
  destruct (bind_ok _ _ _ E2) as (w & _ & E3 & ->). reflexivity.
Qed.
Lemma loop2_exact ov i vi s x z : snd (k_loop2 P CK bnd ov i vi s x) = Ok z -> costs (k_loop2 P CK bnd ov i vi s x) = 3.
Proof.
  unfold k_loop2. destruct s as [[g i1] i2], x as [j v]. intros E. destruct (bind_ok _ _ _ E) as (u & _ & E2 & ->).
  destruct (bind_ok _ _ _ E2) as (u' & _ & E3 & ->). destruct (bind_ok _ _ _ E3) as (w & _ & E4 & ->). reflexivity.
Qed.
Lemma outer_exact ov ivs : forall s z, snd (k_outer P CK bnd ov ivs s) = Ok z ->
  2 * costs (k_outer P CK bnd ov ivs s) = 3 * length ivs * (length ivs - 1).
Proof.
  induction ivs as [|[i vi] r IH]; intros s z E; cbn [k_outer length] in *; [rewrite cost_ret; lia|].
  destruct (bind_ok _ _ _ E) as (s' & E1 & E2 & ->). rewrite (fold_exact _ 3 (loop2_exact ov i vi) _ _ _ E1). specialize (IH _ _ E2). nia.
Qed.
Lemma increases_exact cs b x : forall z, snd (k_increases P CK bnd cs b x) = Ok z -> costs (k_increases P CK bnd cs b x) = 3 * length cs.
Proof.
  induction cs as [|v r IH]; intros z E; cbn [k_increases length] in *; [reflexivity|].
  destruct (bind_ok _ _ _ E) as (u & _ & E1 & ->). destruct (bind_ok _ _ _ E1) as (w & _ & E2 & ->). destruct (bind_ok _ _ _ E2) as (y & _ & E3 & ->).
  destruct (bind_ok _ _ _ E3) as (ys & E4 & _ & ->). rewrite (IH _ E4). cbn. lia.
Qed.
Lemma best_exact cs b z : snd (k_best_candidate P CK bnd cs b) = Ok z -> costs (k_best_candidate P CK bnd cs b) = 1 + 3 * length cs.
Proof.
  unfold k_best_candidate. intros E. destruct (bind_ok _ _ _ E) as (v & _ & E1 & ->). destruct (bind_ok _ _ _ E1) as (ys & E2 & _ & ->).
  rewrite (increases_exact _ _ _ _ E2). cbn. lia.
Qed.

Lemma swap_remove_length {A} i (l : list A) y l' : swap_remove i l = Ok (y, l') -> S (length l') = length l.
Proof.
  intros E. assert (Hi : i < length l) by (unfold swap_remove in E; destruct (nth_error l i) eqn:Ei; [now apply nth_error_lt in Ei|discriminate]).
  destruct (swap_remove_spec i l Hi) as (x & l2 & E' & _ & H & _). rewrite E in E'. injection E' as -> ->. apply Permutation_length in H. cbn in H. congruence.
Qed.

Lemma split_loop_exact cap' min fuel : forall values g1 group2 b1 b2 z,
  snd (k_split_loop P CK bnd fuel cap' min values g1 group2 b1 b2) = Ok z ->
  costs (k_split_loop P CK bnd fuel cap' min values g1 group2 b1 b2) = 3 * (length values - g1) * (length values - g1 + 2).
Proof.
  induction fuel as [|fuel IH]; intros values g1 group2 b1 b2 z E; cbn [k_split_loop] in *; destruct (Nat.ltb_spec g1 (length values)); try discriminate E;
    try (rewrite cost_ret; replace (length values - g1) with 0 by lia; reflexivity).
  destruct (bind_ok _ _ _ E) as (o1 & E1 & E2 & ->). destruct (lift_ok _ _ _ E2) as ([c1 v1] & _ & E3 & ->).
  destruct (bind_ok _ _ _ E3) as (o2 & E4 & E5 & ->). destruct (lift_ok _ _ _ E5) as ([c2 v2] & _ & E6 & ->).
  rewrite (best_exact _ _ _ E1), (best_exact _ _ _ E4). assert (Hsk := skipn_length g1 values).
  match type of E6 with snd (if ?c then _ else _) = _ => destruct c end.
  - destruct (lift_ok _ _ _ E6) as (x & _ & E7 & ->). destruct (bind_ok _ _ _ E7) as (b1' & _ & E8 & ->). destruct (lift_ok _ _ _ E8) as (vs & Es & E9 & ->).
    apply slice_swap_length in Es. rewrite (IH _ _ _ _ _ _ E9), Es. cbn [k_union fst]. change (cost [AUnion 1]) with 1.
    rewrite Hsk. replace (length values - g1) with (S (length values - (g1 + 1))) by lia. lia.
  - destruct (lift_ok _ _ _ E6) as (x & _ & E7 & ->). destruct (bind_ok _ _ _ E7) as (b2' & _ & E8 & ->). destruct (lift_ok _ _ _ E8) as ([y vs] & Es & E9 & ->).
    destruct (lift_ok _ _ _ E9) as (g & _ & E10 & ->). apply swap_remove_length in Es. rewrite (IH _ _ _ _ _ _ E10). cbn [k_union fst]. change (cost [AUnion 1]) with 1.
    rewrite Hsk. replace (length values - g1) with (S (length vs - g1)) by lia. lia.
Qed.

Lemma split_exact cap' min values ov z : snd (k_split P CK bnd cap' min values ov) = Ok z ->
  let n := length values in
  2 * costs (k_split P CK bnd cap' min values ov) = 4 * n + 3 * n * (n - 1) + 6 * (n - 1) * (n + 1).
Proof.
  unfold k_split. destruct (Nat.ltb_spec (length values) 1); [discriminate|]. intros E. cbv zeta.
  destruct (bind_ok _ _ _ E) as ([vs seed2] & E1 & E2 & ->). destruct (lift_ok _ _ _ E2) as (g2 & _ & E3 & ->).
  destruct (lift_ok _ _ _ E3) as (v0 & _ & E4 & ->). destruct (lift_ok _ _ _ E4) as (w0 & _ & E5 & ->).
  rewrite (split_loop_exact _ _ _ _ _ _ _ _ _ E5).
  unfold k_seed_split_groups in *. destruct (bind_ok _ _ _ E1) as ([i1 i2] & E6 & E7 & ->). destruct (lift_ok _ _ _ E7) as (vs' & Es & E8 & ->).
  assert (Hw : 2 * costs (k_worst_combination P CK bnd values ov) = 4 * length values + 3 * length values * (length values - 1)).
  { unfold k_worst_combination in *. destruct values as [|v vl]; [discriminate E6|]. set (values := v :: vl) in *.
    destruct (bind_ok _ _ _ E6) as ([g j] & E9 & E10 & ->). destruct (bind_ok _ _ _ E10) as ([[g' j1] j2] & E11 & _ & ->).
    rewrite (fold_exact _ 2 (loop1_exact ov) _ _ _ E9). assert (Ho := outer_exact _ _ _ _ E11). rewrite enumerate_length in *.
    cbn [cret fst]. change (cost []) with 0. lia. }
  apply slice_swap_length in Es. clear E2 E3 E4 E5 E1 E7. set (c := costs (k_worst_combination P CK bnd values ov)) in *. clearbody c.
  destruct (i2 <? length vs'); [destruct (nth_error vs' i2); [|discriminate E8]|]; cbn [cret snd] in E8; injection E8 as <- <-;
    rewrite ?set_nth_length, Es; cbn [cret fst]; change (cost []) with 0; (destruct (length values) as [|n]; [lia|]); nia.
Qed.
End Split.

(** *** An insertion *)
Definition g := guaranteed_fill cfg.
Notation wfg := (wf (K := K) (V := V) (B := B) cfg any_key rel_any g True).

Lemma self_insert_low level (n : node B K V) e z : snd (k_self_insert P CK cfg level n e) = Ok z -> 1 <= costs (k_self_insert P CK cfg level n e).
Proof.
  unfold k_self_insert. cbv zeta. intros E. destruct (lift_ok _ _ _ E) as (ch & _ & E1 & Ec). eapply Nat.le_trans; [|exact (Nat.eq_le_incl _ _ (eq_sym Ec))]. clear E Ec.
  assert (HS : forall T (bnd : T -> B) vs ov y, snd (k_split P CK bnd cap minc vs ov) = Ok y -> 1 <= costs (k_split P CK bnd cap minc vs ov)).
  { intros T bnd vs ov y E. assert (H := split_exact bnd _ _ _ _ _ E). cbv zeta in H.
    assert (H0 : 1 <= length vs) by (unfold k_split in E; destruct (Nat.ltb_spec (length vs) 1); [discriminate E|assumption]). nia. }
  destruct ch as [cs|es], e as [[el en]|kv]; try discriminate E1; cbv beta iota zeta in E1 |- *.
  - match type of E1 with snd (if ?c then _ else _) = _ => destruct c end; [discriminate E1|]. destruct (try_push _ _ _) as [cs'|ov].
    + destruct (bind_ok _ _ _ E1) as (b & _ & E2 & Ec). eapply Nat.le_trans; [|exact (Nat.eq_le_incl _ _ (eq_sym Ec))]. cbn. lia.
    + destruct (bind_ok _ _ _ E1) as ([[[b1 b2] g1] g2] & E2 & _ & Ec). eapply Nat.le_trans; [|exact (Nat.eq_le_incl _ _ (eq_sym Ec))]. apply HS in E2. eapply Nat.le_trans; [exact E2|apply Nat.le_add_r].
  - destruct (try_push _ _ _) as [cs'|ov].
    + destruct (bind_ok _ _ _ E1) as (b & _ & E2 & Ec). eapply Nat.le_trans; [|exact (Nat.eq_le_incl _ _ (eq_sym Ec))]. cbn. lia.
    + destruct (bind_ok _ _ _ E1) as ([[[b1 b2] g1] g2] & E2 & _ & Ec). eapply Nat.le_trans; [|exact (Nat.eq_le_incl _ _ (eq_sym Ec))]. apply HS in E2. eapply Nat.le_trans; [exact E2|apply Nat.le_add_r].
Qed.

Lemma low_bind {A A'} (m : C A B F) (k : A -> C A' B F) a b n :
  (forall x, snd m = Ok x -> a <= costs m) -> (forall x, snd m = Ok x -> forall y, snd (k x) = Ok y -> b <= costs (k x)) -> n <= a + b ->
  forall y, snd (cbind m k) = Ok y -> n <= costs (cbind m k).
Proof.
  intros H1 H2 Hn y E. destruct (bind_ok _ _ _ E) as (x & E1 & E2 & Ec). eapply Nat.le_trans; [|exact (Nat.eq_le_incl _ _ (eq_sym Ec))].
  specialize (H1 x E1). specialize (H2 x E1 y E2). lia.
Qed.
Lemma low_lift {A A'} (r : res A) (k : A -> C A' B F) n :
  (forall x, r = Ok x -> forall y, snd (k x) = Ok y -> n <= costs (k x)) ->
  forall y, snd (cbind (clift r) k) = Ok y -> n <= costs (cbind (clift r) k).
Proof. intros H. apply (low_bind _ _ 0 n); [intros; lia|exact H|lia]. Qed.

Lemma node_insert_low k v level : forall n, wfg level n -> forall z,
  snd (k_node_insert P CK cfg level n (ELeaf (k, v))) = Ok z ->
  level + 1 + 8 * match level with 0 => 0 | S l => (fanout n - 1) + l * (g - 1) end <= costs (k_node_insert P CK cfg level n (ELeaf (k, v))).
Proof.
  induction level as [|l IH]; intros n Hw; cbn [k_node_insert target_level Nat.eqb negb] in *.
  - intros z E. exact (self_insert_low _ _ _ _ E).
  - destruct (wf_inv _ _ _ _ _ _ _ Hw) as (b & cs & ->). rewrite wf_inner in Hw. destruct Hw as (_ & _ & Hcs).
    apply low_lift. intros cs0 E1. cbn [node_children read_inner] in E1. injection E1 as <-. unfold fanout at 1. cbn [node_children].
    apply (low_bind _ _ (8 * (length cs - 1)) (1 + (l + 1 + 8 * (l * (g - 1))))); [|intros o _|lia].
    { intros o E. apply select_low in E. now rewrite map_length in E. }
    apply low_lift. intros i _. apply low_lift. intros child E6.
    assert (Hc : wfg l child /\ (l <> 0 -> g <= fanout child)).
    { destruct (nth_error cs i) as [c|] eqn:En; [|discriminate E6]. injection E6 as ->. apply nth_error_In in En. rewrite Forall_forall in Hcs.
      destruct (Hcs _ En) as [H1 H2]. split; [exact H1|]. intros Hl. specialize (H2 I). unfold lo_at in H2. destruct l; lia. }
    destruct Hc as [Hw Hf].
    apply (low_bind _ _ (l + 1 + 8 * (l * (g - 1))) 1); [|intros [child' nc] _|lia].
    { intros x E. specialize (IH _ Hw _ E). eapply Nat.le_trans; [|exact IH]. destruct l as [|l]; [lia|]. specialize (Hf ltac:(lia)). nia. }
    destruct nc as [nc|].
    + apply (low_bind _ _ 0 1); [intros; lia|intros b0 _|lia]. intros y E. exact (self_insert_low _ _ _ _ E).
    + apply (low_bind _ _ 1 0); [intros; cbn; lia|intros; lia|lia].
Qed.
End Lower.

(** Splitting [n] children and one more costs exactly [2 n] (pairs with the new one), [3 n (n - 1) / 2] (the other pairs) and
    [3 (n - 1) (n + 1)] (the distribution), whenever it returns. *)
Theorem C56_split_exact :
  forall (B K T : Type) (P : Params B K) (CK : Checks (vops P)) (bnd : T -> B) (cap min : nat) (values : list T) (ov : T) r,
  snd (k_split P CK bnd cap min values ov) = Ok r ->
  let n := length values in
  2 * cost (fst (k_split P CK bnd cap min values ov)) = 4 * n + 3 * n * (n - 1) + 6 * (n - 1) * (n + 1).
Proof. intros *. exact (split_exact P CK bnd cap min values ov r). Qed.
Print Assumptions C56_split_exact.

(** An insertion that returns compares all children of every inner node on its way, of which there are at least
    [guaranteed_fill] below the root. *)
Theorem C56_insert_at_least :
  forall (B K V : Type) (P : Params B K) (CK : Checks (vops P)) (cfg : config) (t : rtree B K V) (k : K) (v : V) t',
  reachable P cfg any_key t -> snd (k_insert P CK cfg t k v) = Ok t' ->
  fst t + 1 + 8 * (fst t - 1) * (guaranteed_fill cfg - 1) <= cost (fst (k_insert P CK cfg t k v)).
Proof.
  intros B K V P CK cfg t k v t' Hr. apply inv_guaranteed in Hr. destruct Hr as [Hw _]. revert t'. unfold k_insert, k_insert_entry.
  apply (low_bind P _ _ (fst t + 1 + 8 * (fst t - 1) * (guaranteed_fill cfg - 1)) 0); [|intros; lia|lia].
  intros x E. assert (H := node_insert_low P CK cfg k v _ _ Hw _ E). unfold g in H. eapply Nat.le_trans; [|exact H].
  destruct (fst t) as [|h]; [lia|]. nia.
Qed.
Print Assumptions C56_insert_at_least.

(** The sample tree of height 2, whose non-root nodes have at least two children: at least 11. *)
Example C56_lower_example :
  reachable PP (cfg_of 4 2) any_key sample /\ fst sample + 1 + 8 * (fst sample - 1) * (guaranteed_fill (cfg_of 4 2) - 1) = 11 /\
  cost (fst (k_insert PP (no_checks _) (cfg_of 4 2) sample (pt 4 4) 0)) = 37 /\
  cost (fst (k_split PP (no_checks _) point_bounds 4 2 [pt 1 2; pt 3 4; pt 9 9; pt 2 7] (pt 5 5))) = 71 /\
  is_ok (snd (k_split PP (no_checks _) point_bounds 4 2 [pt 1 2; pt 3 4; pt 9 9; pt 2 7] (pt 5 5))) = true.
Proof. split; [exact sample_reachable|]. repeat split; vm_compute; reflexivity. Qed.
