(** C19, C20: the crate's own checks ([_debug_assert_bvh], [_debug_assert_min_children], lib.rs 336-358) detect exactly the
    violations of the two properties. *)
From Verif Require Import Main Witness CrashForest.

Section Check.
Context {B K V : Type} (P : Params B K) (cfg : config).

Lemma at_top l (n : node B K V) : node_at (l, n) l n.
Proof. change (node_at (l, n) (fst (l, n)) (snd (l, n))). constructor. Qed.
(** The nodes below an inner node. *)
Lemma node_at_inner l b (cs : list (node B K V)) i m : node_at (S l, Node b (CInner cs)) i m ->
  (i = S l /\ m = Node b (CInner cs)) \/ exists c, In c cs /\ node_at (l, c) i m.
Proof.
  remember (S l, Node b (CInner cs)) as t. intros H. revert Heqt. induction H as [|i b' cs' c H IH Hin]; intros ->; [now left|]. right.
  destruct (IH eq_refl) as [[E1 E2]|(c0 & Hc0 & H0)].
  - injection E1 as ->. injection E2 as -> ->. exists c. split; [exact Hin|]. apply at_top.
  - exists c0. split; [exact Hc0|]. eapply at_child; eassumption.
Qed.
Lemma node_at_leaf (b : B) (es : list (K * V)) i m : node_at (0, Node b (CLeaf es)) i m -> i = 0 /\ m = Node b (CLeaf es).
Proof.
  remember (0, Node b (CLeaf es)) as t. intros H. revert Heqt. induction H as [|i b' cs' c H IH Hin]; intros ->; [now split|].
  destruct (IH eq_refl) as [E _]. discriminate E.
Qed.

Notation wfa := (wf (K := K) (V := V) (B := B) cfg any_key rel_any 0 False).

Lemma min_loop l (cs : list (node B K V)) :
  Forall (fun c => wfa l c) cs ->
  (forall c, In c cs -> debug_assert_min_children cfg false l c = Ok tt \/ debug_assert_min_children cfg false l c = Panic) ->
  let r := (fix loop (cs : list (node B K V)) : res unit :=
         match cs with [] => Ok tt | c :: r => let* _ := debug_assert_min_children cfg false l c in loop r end) cs in
  (r = Ok tt /\ forall c, In c cs -> debug_assert_min_children cfg false l c = Ok tt) \/
  (r = Panic /\ exists c, In c cs /\ debug_assert_min_children cfg false l c = Panic).
Proof.
  intros Hw Hc. induction cs as [|c cs IH]; cbn zeta; [left; split; [reflexivity|intros c []]|].
  destruct (Hc c (or_introl eq_refl)) as [E|E]; rewrite E; cbn [bind].
  - inversion Hw; subst. destruct (IH ltac:(assumption) (fun c H => Hc c (or_intror H))) as [[E1 E2]|(E1 & c' & Hin & E2)].
    + left. split; [exact E1|]. intros c' [<-|Hin]; auto.
    + right. split; [exact E1|]. exists c'. split; [now right|exact E2].
  - right. split; [reflexivity|]. exists c. split; [now left|exact E].
Qed.

Lemma min_check level : forall (n : node B K V) (root : bool), wfa level n ->
  (debug_assert_min_children cfg root level n = Ok tt /\ (root = false -> min_children cfg <= fanout n) /\
     forall i m, node_at (level, n) i m -> i < level -> min_children cfg <= fanout m) \/
  (debug_assert_min_children cfg root level n = Panic /\
     ((root = false /\ fanout n < min_children cfg) \/ exists i m, node_at (level, n) i m /\ i < level /\ fanout m < min_children cfg)).
Proof.
  induction level as [|l IH]; intros n root Hw; cbn [debug_assert_min_children]; rewrite (shallow_len_spec _ _ _ _ _ _ _ Hw); cbn [bind].
  - destruct root; cbn [negb andb].
    + left. split; [reflexivity|]. split; [discriminate|]. intros; lia.
    + destruct (Nat.ltb_spec (fanout n) (min_children cfg)).
      * right. split; [reflexivity|]. left. now split.
      * left. split; [reflexivity|]. split; [intros _; assumption|]. intros; lia.
  - destruct (negb root && (fanout n <? min_children cfg)) eqn:Eb.
    { apply andb_prop in Eb as [E1 E2]. apply negb_true_iff in E1. apply Nat.ltb_lt in E2. right. split; [reflexivity|]. left. now split. }
    assert (Hroot : root = false -> min_children cfg <= fanout n).
    { intros ->. cbn [negb andb] in Eb. now apply Nat.ltb_ge. }
    destruct (wf_inv _ _ _ _ _ _ _ Hw) as (b & cs & ->). cbn [node_children read_inner bind].
    rewrite wf_inner in Hw. destruct Hw as (_ & _ & Hcs).
    assert (Hcs' : Forall (fun c => wfa l c) cs) by (eapply Forall_impl; [|exact Hcs]; intros c [H _]; exact H).
    assert (Hex : forall c, In c cs -> debug_assert_min_children cfg false l c = Ok tt \/ debug_assert_min_children cfg false l c = Panic).
    { intros c Hin. rewrite Forall_forall in Hcs'. destruct (IH c false (Hcs' c Hin)) as [[E _]|[E _]]; auto. }
    destruct (min_loop l cs Hcs' Hex) as [[E H]|(E & c & Hin & H)]; rewrite E.
    + left. split; [reflexivity|]. split; [exact Hroot|]. intros i m Hm Hi. apply node_at_inner in Hm as [[-> _]|(c & Hin & Hm)]; [lia|].
      rewrite Forall_forall in Hcs'. destruct (IH c false (Hcs' c Hin)) as [(_ & H1 & H2)|[E' _]]; [|rewrite (H c Hin) in E'; discriminate].
      assert (Hle := node_at_le _ _ _ Hm). cbn [fst] in Hle. destruct (Nat.eq_dec i l) as [->|Hne]; [|apply (H2 i m Hm); lia].
      destruct l; [destruct (wf_inv _ _ _ _ _ _ _ (Hcs' c Hin)) as (b' & es & ->); apply node_at_leaf in Hm as [_ ->]; auto|].
      destruct (wf_inv _ _ _ _ _ _ _ (Hcs' c Hin)) as (b' & cs' & ->). apply node_at_inner in Hm as [[_ ->]|(c0 & _ & Hm)]; [auto|].
      apply node_at_le in Hm. cbn [fst] in Hm. lia.
    + right. split; [reflexivity|]. right. rewrite Forall_forall in Hcs'. destruct (IH c false (Hcs' c Hin)) as [[E' _]|[_ H']]; [rewrite H in E'; discriminate|].
      destruct H' as [[_ H']|(i & m & Hm & Hi & H')].
      * exists l, c. split; [|split; [lia|exact H']]. apply node_at_child with c; [exact Hin|]. apply at_top.
      * exists i, m. split; [|split; [lia|exact H']]. apply node_at_child with c; assumption.
Qed.

Context (beq : B -> B -> bool) (Hbeq : forall a b, beq a b = true <-> a = b).
(** The bounds of the node are the union of its children's. *)
Definition exact_at (n : node B K V) : Prop := node_bounds n = b_union_all (bops P) (child_bounds (key_bounds P) n).

Lemma bvh_check level : forall n : node B K V, wfa level n ->
  (debug_assert_bvh P beq level n = Ok (node_bounds n) /\ forall i m, node_at (level, n) i m -> exact_at m) \/
  (debug_assert_bvh P beq level n = Panic /\ exists i m, node_at (level, n) i m /\ ~ exact_at m).
Proof.
  induction level as [|l IH]; intros n Hw; destruct (wf_inv _ _ _ _ _ _ _ Hw) as (b & x & ->); cbn [debug_assert_bvh node_children read_leaf read_inner bind node_bounds].
  - destruct (beq b _) eqn:E.
    + apply Hbeq in E. left. split; [now rewrite <- E|]. intros i m Hm. apply node_at_leaf in Hm as [_ ->]. exact E.
    + right. split; [reflexivity|]. exists 0, (Node b (CLeaf x)). split; [apply at_top|]. intros H. apply Hbeq in H. cbn in H. congruence.
  - rewrite wf_inner in Hw. destruct Hw as (_ & _ & Hcs). rename x into cs.
    set (loop := (fix loop (cs : list (node B K V)) : res (list B) := _)).
    assert (Hl : (loop cs = Ok (map node_bounds cs) /\ forall c i m, In c cs -> node_at (l, c) i m -> exact_at m) \/
      (loop cs = Panic /\ exists c i m, In c cs /\ node_at (l, c) i m /\ ~ exact_at m)).
    { induction Hcs as [|c cs [Hc _] Hcs IHcs]; [left; split; [reflexivity|intros c i m []]|]. cbn [loop].
      destruct (IH c Hc) as [[E H]|(E & i & m & Hm & H)]; rewrite E; cbn [bind].
      - fold loop. destruct IHcs as [[E' H']|(E' & c' & i & m & Hin & Hm & H')]; rewrite E'; cbn [bind].
        + left. split; [reflexivity|]. intros c' i m [<-|Hin] Hm; eauto.
        + right. split; [reflexivity|]. exists c', i, m. split; [now right|auto].
      - right. split; [reflexivity|]. exists c, i, m. split; [now left|auto]. }
    destruct Hl as [[E H]|(E & c & i & m & Hin & Hm & H)]; rewrite E; cbn [bind].
    + destruct (beq b _) eqn:E'.
      * apply Hbeq in E'. left. split; [now rewrite <- E'|]. intros i m Hm. apply node_at_inner in Hm as [[_ ->]|(c & Hin & Hm)]; [exact E'|eauto].
      * right. split; [reflexivity|]. exists (S l), (Node b (CInner cs)). split; [apply at_top|]. intros H'. apply Hbeq in H'. cbn in H'. congruence.
    + right. split; [reflexivity|]. exists i, m. split; [|exact H]. apply node_at_child with c; assumption.
Qed.
End Check.

(** In every configuration: the check of the minimum passes iff every node but the root has that many children; otherwise it panics. *)
Theorem C20_check_exact :
  forall (B K V : Type) (P : Params B K) (cfg : config) (t : rtree B K V),
  reachable P cfg any_key t ->
  (rtree_debug_assert_min_children cfg t = Ok tt /\ forall i n, node_at t i n -> i < fst t -> min_children cfg <= fanout n) \/
  (rtree_debug_assert_min_children cfg t = Panic /\ exists i n, node_at t i n /\ i < fst t /\ fanout n < min_children cfg).
Proof.
  intros B K V P cfg t Hr. apply inv_any in Hr. destruct Hr as [Hw _]. unfold rtree_debug_assert_min_children.
  destruct t as [h n]. cbn [fst snd] in *. destruct (min_check cfg h n true Hw) as [(E & _ & H)|(E & [[H _]|H])]; [left; auto|discriminate|right; auto].
Qed.
Print Assumptions C20_check_exact.

(** For every bounds type with a decidable equality: the check of the bounds passes iff all are exact; otherwise it panics. *)
Theorem C19_check_exact :
  forall (B K V : Type) (P : Params B K) (cfg : config) (beq : B -> B -> bool) (t : rtree B K V),
  (forall a b, beq a b = true <-> a = b) -> reachable P cfg any_key t ->
  (rtree_debug_assert_bvh P beq t = Ok (node_bounds (snd t)) /\
     forall i n, node_at t i n -> node_bounds n = b_union_all (bops P) (child_bounds (key_bounds P) n)) \/
  (rtree_debug_assert_bvh P beq t = Panic /\
     exists i n, node_at t i n /\ node_bounds n <> b_union_all (bops P) (child_bounds (key_bounds P) n)).
Proof.
  intros B K V P cfg beq t Hb Hr. apply inv_any in Hr. destruct Hr as [Hw _]. unfold rtree_debug_assert_bvh.
  destruct t as [h n]. cbn [fst snd] in *. exact (bvh_check P cfg beq Hb h n Hw).
Qed.
Print Assumptions C19_check_exact.

(** Both outcomes occur: at most 3 children and at least 3 cannot hold after a split; at least 2 of at most 4 can. *)
Definition check_code {B K V} (P : Params B K) cfg (t : rtree B K V) : nat :=
  match rtree_debug_assert_min_children cfg t with Ok tt => 1 | Panic => 2 | _ => 3 end.
Example C20_check_example :
  check_code P1 (cfg_of 4 2) (final P1 (cfg_of 4 2) (map (fun x => OInsert (p1 x) 0) [0; 5; 9; 30; 2; 7; 8]%Z)) = 1 /\
  check_code P1 (cfg_of 3 3) (final P1 (cfg_of 3 3) (map (fun x => OInsert (p1 x) 0) [0; 5; 9; 30; 2; 7; 8]%Z)) = 2.
Proof. split; vm_compute; reflexivity. Qed.
