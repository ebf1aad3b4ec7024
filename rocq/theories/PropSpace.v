(** Space: how many nodes a tree has (C68). *)
From Verif Require Export Main Witness.

(** ** Specification *)
Section Count.
Context {B K V : Type}.

(** Nodes below and including a node; each owns one vector of [max_children] slots. *)
Fixpoint node_count (n : node B K V) : nat :=
  match n with
  | Node _ (CLeaf _) => 1
  | Node _ (CInner cs) => S (list_sum (map node_count cs))
  end.
End Count.

(** ** Proofs *)
Section Fill.
Context {B K V : Type}.
Notation node := (node B K V).

Lemma node_at_child (t : rtree B K V) i b cs c : node_at t (S i) (Node b (CInner cs)) -> In c cs -> node_at t i c.
Proof. apply at_child. Qed.

Lemma count_fill (t : rtree B K V) f level (n : node) : 2 <= f ->
  (forall i m, node_at t i m -> match node_children m with CLeaf _ => i = 0 | CInner _ => i <> 0 end) ->
  (forall i m, node_at t i m -> i < level -> f <= fanout m) ->
  node_at t level n -> level <> 0 -> 2 <= fanout n ->
  f * (node_count n + 1) <= 2 * length (entries n).
Proof.
  intros Hf Hd Hfill. assert (Hlt : level <= level) by lia.
  assert (H : forall i m, i <= level -> node_at t i m -> (if i =? 0 then f else 2) <= fanout m ->
    f * (node_count m + 1) <= 2 * length (entries m)).
  { induction i as [|i IH]; intros m Hi Hat Hm.
    - specialize (Hd _ _ Hat). destruct m as [b [cs|es]]; cbn in Hd; [tauto|]. change (f <= length es) in Hm. change (f * (1 + 1) <= 2 * length es). lia.
    - assert (Hd' := Hd _ _ Hat). destruct m as [b [cs|es]]; cbn in Hd'; [|discriminate].
      assert (Hcs : forall c, In c cs -> f * (node_count c + 1) <= 2 * length (entries c)).
      { intros c Hc. assert (Hcat := at_child t i b cs c Hat Hc). apply IH; [lia|exact Hcat|].
        specialize (Hfill i c Hcat ltac:(lia)). destruct (i =? 0); lia. }
      cbn [node_count entries].
      assert (Hs : f * (list_sum (map node_count cs) + length cs) <= 2 * length (flat_map entries cs)).
      { clear - Hcs. induction cs as [|c cs IH]; [cbn; lia|]. cbn [map list_sum fold_right length flat_map].
        rewrite app_length. assert (H1 := Hcs c (or_introl eq_refl)).
        assert (H2 : f * (list_sum (map node_count cs) + length cs) <= 2 * length (flat_map entries cs)) by (apply IH; intros; apply Hcs; now right).
        fold (list_sum (map node_count cs)). nia. }
      change (2 <= length cs) in Hm. eapply Nat.le_trans; [|exact Hs]. apply Nat.mul_le_mono_l. lia. }
  intros Hat H0 H2. apply (H level n Hlt Hat). destruct level; [tauto|exact H2].
Qed.

Lemma leaf_count (t : rtree B K V) cap level (n : node) : node_at t level n ->
  (forall i m, node_at t i m -> match node_children m with CLeaf _ => i = 0 | CInner _ => i <> 0 end) ->
  (forall i m, node_at t i m -> fanout m <= cap) ->
  length (entries n) <= cap * node_count n.
Proof.
  intros Hat Hd Hc. revert n Hat. induction level as [|l IH]; intros n Hat.
  - assert (H0 := Hd _ _ Hat). assert (H1 := Hc _ _ Hat). destruct n as [b [cs|es]]; cbn in H0; [tauto|]. cbn in *. lia.
  - assert (H0 := Hd _ _ Hat). destruct n as [b [cs|es]]; cbn in H0; [|discriminate]. cbn [entries node_count].
    assert (Hall : forall c, In c cs -> length (entries c) <= cap * node_count c).
    { intros c Hcs. apply IH. exact (at_child t l b cs c Hat Hcs). }
    clear - Hall. assert (H : length (flat_map entries cs) <= cap * list_sum (map node_count cs)); [|nia].
    induction cs as [|c cs IH]; [cbn; lia|]. cbn [map flat_map]. rewrite app_length.
    assert (H1 := Hall c (or_introl eq_refl)). change (list_sum (node_count c :: map node_count cs)) with (node_count c + list_sum (map node_count cs)).
    assert (H2 : length (flat_map entries cs) <= cap * list_sum (map node_count cs)) by (apply IH; intros; apply Hall; now right). nia.
Qed.

Lemma sum_set_nth i (c c' : node) cs : nth_error cs i = Some c -> node_count c' = node_count c ->
  list_sum (map node_count (set_nth i c' cs)) = list_sum (map node_count cs).
Proof.
  intros Hc E. destruct (nth_error_split_set i c c' cs Hc) as (m1 & m2 & -> & _ & ->).
  rewrite !map_app, !list_sum_app. cbn [map list_sum fold_right]. lia.
Qed.
End Fill.

Section Min0.
Context {B K V Q : Type} (P : Params B K) (cfg : config) (BR : Borrowed B K Q) (H0 : min_children cfg = 0).
Notation node := (node B K V).

Lemma remove_count level (n : node) q v n' u : node_remove P cfg BR level n q = Ok (v, n', u) ->
  node_count n' = node_count n /\ u = [].
Proof.
  revert n v n' u; induction level as [|l IH]; intros n v n' u E; cbn [node_remove] in E.
  - destruct n as [b [cs|es]]; cbn [node_children read_leaf bind] in E; [discriminate|].
    destruct (position _ es) as [i|]; [|now injection E as <- <- <-].
    destruct (swap_remove i es) as [[kv es']| | |]; cbn [bind] in E; try discriminate. now injection E as <- <- <-.
  - destruct n as [b [cs|es]]; cbn [node_children read_inner bind] in E; [|discriminate]. cbn [node_bounds] in E.
    match type of E with ?loop _ _ = _ => set (lp := loop) in E end.
    assert (Hl : forall i ds v n' u, lp i ds = Ok (v, n', u) -> list_sum (map node_count ds) = list_sum (map node_count cs) ->
      node_count n' = node_count (Node b (CInner cs)) /\ u = []).
    { clear E v n' u. induction i as [|i IHi]; intros ds v n' u E Hs; cbn [lp] in E.
      - injection E as <- <- <-. cbn [node_count]. auto.
      - destruct (nth_error ds i) as [c|] eqn:Ec; cbn [unwrap bind] in E; [|discriminate].
        destruct (b_intersects _ _ _); [|now apply (IHi ds v n' u)].
        destruct (node_remove P cfg BR l c q) as [[[w c'] un]| | |] eqn:En; cbn [bind] in E; try discriminate.
        destruct (IH _ _ _ _ En) as [Hn ->].
        assert (Hs' : list_sum (map node_count (set_nth i c' ds)) = list_sum (map node_count cs)).
        { rewrite (sum_set_nth i c c' ds Ec Hn). exact Hs. }
        destruct w as [w|]; [|now apply (IHi (set_nth i c' ds) v n' u)].
        destruct (shallow_len l c') as [len| | |]; cbn [bind] in E; try discriminate.
        rewrite H0 in E. cbn [Nat.ltb Nat.leb bind] in E. injection E as <- <- <-. cbn [node_count]. auto. }
    apply (Hl _ _ _ _ _ E eq_refl).
Qed.

Lemma reinsert_none n (t : rtree B K V) l : reinsert P cfg t l (repeat None n) = Ok t.
Proof. revert l; induction n as [|n IH]; intros l; [reflexivity|]. cbn. apply IH. Qed.

Lemma rtree_remove_count ok (t t' : rtree B K V) q o : 2 <= max_children cfg -> reachable P cfg ok t ->
  rtree_remove P cfg BR t q = Ok (o, t') -> node_count (snd t') = node_count (snd t).
Proof.
  intros H2 Hr E. assert (Hs : supported cfg) by (unfold supported; lia).
  assert (Hroot := fill_root P cfg ok t Hs Hr).
  assert (Hd := fun i m => uniform_depth P cfg ok t i m Hr).
  unfold rtree_remove, container_remove in E. destruct t as [level n]. cbn [fst snd] in *.
  destruct (node_remove P cfg BR level n q) as [[[w n'] un]| | |] eqn:En; cbn [bind] in E; try discriminate.
  destruct (remove_count _ _ _ _ _ _ En) as [Hn ->]. cbn [store_all bind] in E. destruct w as [w|]; [|now injection E as <- <-].
  assert (Hw : fanout n' = fanout n \/ level = 0).
  { destruct level as [|l]; [now right|left].
    assert (Hp := node_remove_spec P cfg ok rel_any (any_laws P ok) 0 False BR False ltac:(tauto) ltac:(tauto) ltac:(tauto) ltac:(tauto) False (False_rect _) (S l) n q
      (proj1 (inv_any P cfg ok _ Hr))). rewrite En in Hp. cbn [post rem_post] in Hp.
    destruct Hp as (k & _ & _ & _ & _ & Hf & _). apply Hf; [exact H0|discriminate]. }
  destruct (try_unbranch (level, n')) as [t1| | |] eqn:Et; cbn [bind] in E; try discriminate.
  rewrite (reinsert_none level t1 0) in E. cbn [bind] in E. injection E as <- <-. rewrite <- Hn.
  unfold try_unbranch in Et. cbn [fst snd] in Et. destruct level as [|l].
  - destruct (read_leaf (node_children n')) as [es| | |]; cbn [bind] in Et; try discriminate. now injection Et as <-.
  - destruct n' as [b [cs|es]]; cbn [node_children read_inner bind] in Et; [|discriminate].
    destruct (Nat.eqb_spec (length cs) 1) as [E1|E1]; [|now injection Et as <-].
    exfalso. specialize (Hroot ltac:(discriminate)). destruct Hw as [Hw|Hw]; [|discriminate]. cbn in Hw. lia.
Qed.
End Min0.

(** *** Any minimum from two up *)
Section Wide.
Context {B K V : Type} (cfg : config) (ok : K -> Prop).
Notation node := (node B K V).
Notation wf := (wf cfg ok rel_any 1 True).
Notation child_ok := (child_ok cfg ok rel_any 1 True).

(** Nodes at level [j] below a node at [level]. *)
Fixpoint at_level (level j : nat) (n : node) : nat :=
  if level =? j then 1 else
  match level, node_children n with S l, CInner cs => list_sum (map (at_level l j) cs) | _, _ => 0 end.

Lemma sum_le {A} (f g : A -> nat) l : (forall x, In x l -> f x <= g x) -> list_sum (map f l) <= list_sum (map g l).
Proof.
  induction l as [|x l IH]; intros H; cbn; [lia|]. assert (H1 := H x (or_introl eq_refl)).
  assert (H2 := IH (fun y Hy => H y (or_intror Hy))). unfold list_sum in H2. lia.
Qed.
Lemma sum_lt {A} (f g : A -> nat) l : (forall x, In x l -> f x <= g x) -> (exists x, In x l /\ f x < g x) -> list_sum (map f l) < list_sum (map g l).
Proof.
  induction l as [|x l IH]; intros H (y & Hy & Hlt); cbn; [destruct Hy|]. assert (H1 := H x (or_introl eq_refl)).
  assert (H3 := sum_le f g l (fun y Hy => H y (or_intror Hy))). unfold list_sum in H3. destruct Hy as [<-|Hy]; [lia|].
  assert (H2 := IH (fun y Hy => H y (or_intror Hy)) (ex_intro _ y (conj Hy Hlt))). unfold list_sum in H2. lia.
Qed.
Lemma sum_ones {A} (f : A -> nat) l : (forall x, In x l -> f x = 1) -> list_sum (map f l) = length l.
Proof.
  induction l as [|x l IH]; intros H; [reflexivity|]. cbn. rewrite (H x (or_introl eq_refl)). cbn. f_equal.
  apply IH. intros y Hy. apply H. now right.
Qed.

Lemma child_facts l b (cs : list node) : wf (S l) (Node b (CInner cs)) -> forall c, In c cs -> wf l c /\ 1 <= fanout c.
Proof.
  intros Hw c Hc. rewrite wf_inner in Hw. destruct Hw as (_ & _ & Hw). rewrite Forall_forall in Hw. destruct (Hw c Hc) as [H1 H2].
  split; [exact H1|]. specialize (H2 Logic.I). unfold lo_at in H2. destruct l; lia.
Qed.

Lemma at_level_same l (n : node) : at_level l l n = 1.
Proof. destruct l; cbn [at_level]; rewrite Nat.eqb_refl; reflexivity. Qed.

Lemma at_level_inner l j b (cs : list node) : j <> S l -> at_level (S l) j (Node b (CInner cs)) = list_sum (map (at_level l j) cs).
Proof. intros H. cbn [at_level node_children]. destruct (Nat.eqb_spec (S l) j); [lia|reflexivity]. Qed.

(** Going down one level the number of nodes does not shrink, and grows where some node is wide. *)
Lemma down level j (n : node) : wf level n -> 1 <= fanout n -> S j <= level -> at_level level (S j) n <= at_level level j n.
Proof.
  revert n; induction level as [|l IH]; intros n Hw Hf Hj; [lia|].
  destruct (wf_inv _ _ _ _ _ _ _ Hw) as (b & cs & ->). rewrite (at_level_inner l j) by lia. destruct (Nat.eq_dec (S j) (S l)) as [E|E].
  - injection E as ->. rewrite at_level_same. rewrite (sum_ones (at_level l l)); [exact Hf|]. intros c _. apply at_level_same.
  - rewrite (at_level_inner l (S j)) by lia. apply sum_le. intros c Hc. destruct (child_facts _ _ _ Hw c Hc). apply IH; [assumption|assumption|lia].
Qed.
Lemma down_wide level j (n : node) : wf level n -> 1 <= fanout n -> S j <= level -> wide_at level (S j) n ->
  at_level level (S j) n < at_level level j n.
Proof.
  revert n; induction level as [|l IH]; intros n Hw Hf Hj Hwide; [lia|].
  destruct (wf_inv _ _ _ _ _ _ _ Hw) as (b & cs & ->). rewrite wide_inner in Hwide. rewrite (at_level_inner l j) by lia. destruct (Nat.eq_dec (S j) (S l)) as [E|E].
  - injection E as ->. rewrite at_level_same. rewrite (sum_ones (at_level l l)); [|intros c _; apply at_level_same].
    destruct Hwide as [[_ H]|H]; [exact H|]. apply Exists_exists in H as (c & _ & H). apply wide_le in H. lia.
  - rewrite (at_level_inner l (S j)) by lia. destruct Hwide as [[H _]|H]; [lia|]. apply Exists_exists in H as (c & Hc & H).
    apply sum_lt.
    + intros d Hd. destruct (child_facts _ _ _ Hw d Hd). apply down; [assumption|assumption|lia].
    + exists c. split; [exact Hc|]. destruct (child_facts _ _ _ Hw c Hc). apply IH; [assumption|assumption|lia|exact H].
Qed.

Lemma leaves_entries level (n : node) : wf level n -> 1 <= fanout n -> at_level level 0 n <= length (entries n).
Proof.
  revert n; induction level as [|l IH]; intros n Hw Hf; destruct (wf_inv _ _ _ _ _ _ _ Hw) as (b & cs & ->).
  - exact Hf.
  - rewrite (at_level_inner l 0) by lia. cbn [entries].
    assert (H : forall c, In c cs -> at_level l 0 c <= length (entries c)).
    { intros c Hc. destruct (child_facts _ _ _ Hw c Hc). now apply IH. }
    clear - H. induction cs as [|c cs IH]; [cbn; lia|]. cbn [map flat_map]. rewrite app_length.
    change (at_level l 0 c + list_sum (map (at_level l 0) cs) <= length (entries c) + length (flat_map entries cs)).
    apply Nat.add_le_mono; [apply H; now left|]. apply IH. intros; apply H; now right.
Qed.

Lemma leaves_pos level (n : node) : wf level n -> 1 <= fanout n -> 1 <= at_level level 0 n.
Proof.
  revert n; induction level as [|l IH]; intros n Hw Hf; destruct (wf_inv _ _ _ _ _ _ _ Hw) as (b & cs & ->); [exact (le_n 1)|].
  rewrite (at_level_inner l 0) by lia. destruct cs as [|c cs]; [cbn in Hf; lia|]. destruct (child_facts _ _ _ Hw c (or_introl eq_refl)).
  assert (H1 := IH c ltac:(assumption) ltac:(assumption)). cbn [map]. change (1 <= at_level l 0 c + list_sum (map (at_level l 0) cs)). lia.
Qed.

Lemma count_levels level (n : node) : wf level n -> 1 <= fanout n -> node_count n <= S level * at_level level 0 n.
Proof.
  revert n; induction level as [|l IH]; intros n Hw Hf; destruct (wf_inv _ _ _ _ _ _ _ Hw) as (b & cs & ->); [exact (le_n 1)|].
  assert (Hpos := leaves_pos _ _ Hw Hf). rewrite (at_level_inner l 0) in * by lia. cbn [node_count].
  assert (H : list_sum (map node_count cs) <= S l * list_sum (map (at_level l 0) cs)); [|nia].
  assert (Hc : forall c, In c cs -> node_count c <= S l * at_level l 0 c).
  { intros c Hc. destruct (child_facts _ _ _ Hw c Hc). now apply IH. }
  clear - Hc. induction cs as [|c cs IH]; [cbn; lia|]. cbn [map].
  change (node_count c + list_sum (map node_count cs) <= S l * (at_level l 0 c + list_sum (map (at_level l 0) cs))).
  assert (H1 := Hc c (or_introl eq_refl)). assert (H2 := IH (fun d Hd => Hc d (or_intror Hd))). lia.
Qed.

Lemma wide_leaves (t : rtree B K V) : all_wide cfg ok t -> fst t <> 0 -> fst t < at_level (fst t) 0 (snd t).
Proof.
  intros [[Hw H1] Hall] H0. specialize (H1 H0).
  assert (H : forall d, d <= fst t -> d < at_level (fst t) (fst t - d) (snd t)).
  { induction d as [|d IH]; intros Hd.
    - rewrite Nat.sub_0_r, at_level_same. lia.
    - specialize (IH ltac:(lia)).
      assert (Hd' := down_wide (fst t) (fst t - S d) (snd t) Hw H1 ltac:(lia)).
      replace (S (fst t - S d)) with (fst t - d) in Hd' by lia. specialize (Hd' (Hall (fst t - d) ltac:(lia))). lia. }
  specialize (H (fst t) (Nat.le_refl _)). now rewrite Nat.sub_diag in H.
Qed.
End Wide.

(** ** C68 *)

(** The full property: for every supported configuration the number of nodes is bounded by the number of entries (here: by
    any function of it).  Refuted for [min_children = 0]: nodes that lose all their entries stay, so trees without entries
    have arbitrarily many nodes. *)
Theorem C68_space_refuted :
  forall max_children, 2 <= max_children -> forall bound : nat -> nat,
  exists t : rtree (saabb i32 1) (svec i32 1) nat,
  let cfg := cfg_of max_children 0 in
  supported cfg /\ reachable P1 cfg any_key t /\ contents t = [] /\ bound (length (contents t)) < node_count (snd t).
Proof.
  intros mx H2 bound. set (cfg := cfg_of mx 0). assert (Hs : supported cfg) by (unfold supported; cbn; lia).
  assert (Hgrow : forall n, exists t : rtree (saabb i32 1) (svec i32 1) nat, reachable P1 cfg any_key t /\ length (contents t) = n).
  { induction n as [|n (t & Hr & Hl)]; [exists (rtree_new P1); split; [constructor|reflexivity]|].
    destruct (insert_total P1 cfg any_key t (p1 0) 0 Hs Hr Logic.I) as [t' E]. exists t'.
    split; [exact (r_insert _ _ _ t (p1 0) 0 t' Hr Logic.I E)|].
    assert (Hp := insert_contents P1 cfg any_key t t' (p1 0) 0 Hr Logic.I E). apply Permutation_length in Hp. exact (eq_trans Hp (f_equal S Hl)). }
  assert (Hshrink : forall n (t : rtree (saabb i32 1) (svec i32 1) nat), reachable P1 cfg any_key t -> length (contents t) = n ->
    exists t' : rtree (saabb i32 1) (svec i32 1) nat, reachable P1 cfg any_key t' /\ contents t' = [] /\ node_count (snd t') = node_count (snd t)).
  { induction n as [|n IH]; intros t Hr Hl.
    - exists t. split; [exact Hr|]. split; [now apply length_zero_iff_nil|reflexivity].
    - destruct (contents t) as [|[k v] l] eqn:Ec; [discriminate|].
      destruct (remove_total P1 cfg any_key t _ (self_borrow P1) k Hs Hr) as [[o t'] E].
      assert (Hr' : reachable P1 cfg any_key t') by (eapply r_remove; eassumption).
      destruct (remove_full P1 cfg any_key (box_incl i32_ops) P1_bounds (self_borrow P1) P1_lookup t t' k o Hr E) as [Ho Hp].
      destruct o as [w|].
      + destruct Hp as (k' & _ & Hp). apply Permutation_length in Hp. rewrite Ec in Hp. cbn [length] in Hp, Hl. injection Hp as Hp. injection Hl as Hl. rewrite Hl in Hp. symmetry in Hp.
        destruct (IH t' Hr' Hp) as (t2 & Hr2 & Hc2 & Hn2). exists t2. split; [exact Hr2|]. split; [exact Hc2|].
        rewrite Hn2. apply (rtree_remove_count P1 cfg (self_borrow P1) eq_refl any_key t t' k (Some w)); [exact H2|exact Hr|exact E].
      + exfalso. apply (proj2 Ho); [|reflexivity]. exists k, v. rewrite Ec. split; [now left|]. apply (keq_refl _ P1_keys). }
  destruct (Hgrow (mx * bound 0 + 1)) as (t & Hr & Hl). destruct (Hshrink _ t Hr Hl) as (t' & Hr' & Hc' & Hn').
  exists t'. cbn zeta. split; [exact Hs|]. split; [exact Hr'|]. split; [exact Hc'|]. rewrite Hc', Hn'. cbn [length].
  assert (Hle := leaf_count t mx (fst t) (snd t) (at_root t) (fun i m => uniform_depth P1 cfg any_key t i m Hr)
    (fun i m => fill_max P1 cfg any_key t i m Hr)). change (length (contents t) <= mx * node_count (snd t)) in Hle. rewrite Hl in Hle.
  apply Nat.lt_nge. intros Hge. apply (Nat.mul_le_mono_l _ _ mx) in Hge. lia.
Qed.
Print Assumptions C68_space_refuted.

(** What holds: if every node but the root is sure to have two children, the number of nodes is at most
    [2 * len / guaranteed_fill - 1], or one. *)
Theorem C68_space_partial :
  forall (B K V : Type) (P : Params B K) (cfg : config) (t : rtree B K V),
  2 <= guaranteed_fill cfg -> reachable P cfg any_key t ->
  node_count (snd t) = 1 \/ guaranteed_fill cfg * (node_count (snd t) + 1) <= 2 * length (contents t).
Proof.
  intros * Hg Hr. assert (Hd := fun i m => uniform_depth P cfg any_key t i m Hr).
  destruct (Nat.eq_dec (fst t) 0) as [E|E].
  - left. assert (H := Hd _ _ (at_root t)). destruct t as [l [b [cs|es]]]; cbn in *; [tauto|reflexivity].
  - right. assert (Hs : supported cfg) by (unfold supported, guaranteed_fill in *; lia).
    apply (count_fill t (guaranteed_fill cfg) (fst t) (snd t) Hg Hd).
    + intros i m Hat Hi. exact (fill_guaranteed P cfg any_key t i m Hr Hat Hi).
    + apply at_root.
    + exact E.
    + exact (fill_root P cfg any_key t Hs Hr E).
Qed.
Print Assumptions C68_space_partial.

(** In particular a tree with such a configuration never has more nodes than entries, unless it has just its root. *)
Theorem C68_at_most_len_partial :
  forall (B K V : Type) (P : Params B K) (cfg : config) (t : rtree B K V),
  2 <= min_children cfg -> min_children cfg + 2 <= max_children cfg -> reachable P cfg any_key t ->
  node_count (snd t) <= Nat.max 1 (length (contents t) - 1).
Proof.
  intros * H1 H2 Hr. assert (Hg : 2 <= guaranteed_fill cfg) by (unfold guaranteed_fill; lia).
  destruct (C68_space_partial B K V P cfg t Hg Hr) as [->|H]; [lia|]. nia.
Qed.
Print Assumptions C68_at_most_len_partial.

(** For every other minimum from two up, however large compared to [max_children]: there are fewer levels than entries and
    at most [len * len] nodes. *)
Theorem C68_quadratic_partial :
  forall (B K V : Type) (P : Params B K) (cfg : config) (t : rtree B K V),
  2 <= max_children cfg -> 2 <= min_children cfg -> reachable P cfg any_key t ->
  (fst t = 0 /\ node_count (snd t) = 1) \/
  (S (fst t) <= length (contents t) /\ node_count (snd t) <= S (fst t) * length (contents t)).
Proof.
  intros * H1 H2 Hr. assert (Hd := fun i m => uniform_depth P cfg any_key t i m Hr).
  destruct (Nat.eq_dec (fst t) 0) as [E|E].
  - left. split; [exact E|]. assert (H := Hd _ _ (at_root t)). destruct t as [l [b [cs|es]]]; cbn in *; [tauto|reflexivity].
  - right. assert (Hw := reachable_wide P cfg any_key H1 H2 t Hr). assert (Hl := wide_leaves cfg any_key t Hw E).
    destruct Hw as [[Hw Hf] _]. specialize (Hf E).
    assert (He := leaves_entries cfg any_key (fst t) (snd t) Hw Hf). assert (Hn := count_levels cfg any_key (fst t) (snd t) Hw Hf).
    change (entries (snd t)) with (contents t) in He. split; [lia|].
    eapply Nat.le_trans; [exact Hn|]. apply Nat.mul_le_mono_l. exact He.
Qed.
Print Assumptions C68_quadratic_partial.

(** And for every configuration the slots of the leaves hold the entries: there are at least [len / max_children] nodes. *)
Theorem C68_lower_partial :
  forall (B K V : Type) (P : Params B K) (cfg : config) (t : rtree B K V),
  reachable P cfg any_key t -> length (contents t) <= max_children cfg * node_count (snd t).
Proof.
  intros * Hr. exact (leaf_count t (max_children cfg) (fst t) (snd t) (at_root t) (fun i m => uniform_depth P cfg any_key t i m Hr)
    (fun i m => fill_max P cfg any_key t i m Hr)).
Qed.
Print Assumptions C68_lower_partial.

Example C68_example :
  2 <= guaranteed_fill (cfg_of 4 2) /\ reachable PP (cfg_of 4 2) any_key sample /\ node_count (snd sample) = 12
  /\ length (contents sample) = 22.
Proof.
  split; [cbn; lia|]. split; [exact sample_reachable|]. split; [vm_compute; reflexivity|exact (proj2 sample_height)].
Qed.
