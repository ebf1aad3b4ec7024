(** The splitter: who is seeded, who joins which group (C44, C81). *)
From Verif Require Export SplitSpec Heuristics.

Section Split.
Context {B K T : Type} (P : Params B K) (bnd : T -> B) (VL : volume_laws (vops P)).
Notation VO := (vops P).

Lemma min_by_key_least cs b i v : best_candidate_for_group P bnd cs b = Some (i, v) ->
  exists x, nth_error cs i = Some x /\ v = enlargement P bnd b x /\ least_of P bnd b cs x.
Proof.
  unfold best_candidate_for_group.
  set (f := fun x => n64_sub VO (volume VO (b_union (bops P) (bnd x) b)) (volume VO b)).
  set (cmp := fun x y : nat * N64 VO => n64_cmp VO (snd x) (snd y)).
  (* [min_by] of the images is the image of a [min_by] over boxes, where the comparison is lawful *)
  assert (G : forall l : list (nat * T), min_by cmp (map (fun p => (fst p, f (snd p))) l)
    = option_map (fun p => (fst p, f (snd p))) (min_by (fun p q => n64_cmp VO (f (snd p)) (f (snd q))) l)).
  { intros [|a l]; [reflexivity|]. cbn [map min_by option_map]. f_equal. revert a. induction l as [|y l IH]; intros a; [reflexivity|].
    cbn [map min_by_from fst snd]. change (cmp (fst a, f (snd a)) (fst y, f (snd y))) with (n64_cmp VO (f (snd a)) (f (snd y))).
    destruct (n64_cmp VO (f (snd a)) (f (snd y))); apply IH. }
  assert (En : enumerate (map f cs) = map (fun p => (fst p, f (snd p))) (enumerate cs)).
  { unfold enumerate. rewrite map_length. generalize 0. induction cs as [|c l IH]; intros s; [reflexivity|]. cbn. f_equal. apply IH. }
  rewrite En, G. clear En G.
  assert (L : cmp_laws (fun p q : nat * T => n64_cmp VO (f (snd p)) (f (snd q)))).
  { assert (D := vl_difference _ VL). constructor.
    - intros p q. exact (cmp_flip _ D (b_union (bops P) (bnd (snd p)) b, b) (b_union (bops P) (bnd (snd q)) b, b)).
    - intros p q r. exact (cmp_le_trans _ D (b_union (bops P) (bnd (snd p)) b, b) (b_union (bops P) (bnd (snd q)) b, b) (b_union (bops P) (bnd (snd r)) b, b)). }
  destruct (min_by _ _) as [[i' x]|] eqn:E; [|discriminate]. intros [= <- <-]. cbn [snd fst].
  assert (Hx := min_by_in _ _ _ E). apply in_enumerate in Hx. exists x. split; [exact Hx|]. split; [reflexivity|]. split; [eapply nth_error_In; exact Hx|].
  intros y Hy. apply In_nth_error in Hy. destruct Hy as [j Hy].
  assert (Hj : In (j, y) (enumerate cs)) by now apply in_enumerate.
  apply (min_by_first _ L) in E. destruct E as (pre & post' & E & H1 & H2). rewrite E in Hj.
  change (n64_cmp VO (f x) (f y) <> Gt).
  apply in_app_or in Hj. destruct Hj as [Hj|[Hj|Hj]].
  - specialize (H1 _ Hj). cbn [snd] in H1. rewrite H1. discriminate.
  - injection Hj as _ <-. assert (R := cmp_refl _ L (i', x)). cbn [snd] in R. rewrite R. discriminate.
  - exact (H2 _ Hj).
Qed.

(** The values after a round. *)
Lemma swap_front (values : list T) g1 c x vs : nth_error values (g1 + c) = Some x -> slice_swap (g1 + c) g1 values = Ok vs ->
  firstn (g1 + 1) vs = firstn g1 values ++ [x] /\ Permutation (skipn g1 values) (x :: skipn (g1 + 1) vs).
Proof.
  intros Hx Es. assert (Hlt := nth_error_lt _ _ _ Hx).
  destruct (slice_swap_spec (g1 + c) g1 values) as (vs' & Es' & Hpv & Hlv & Hnth & Hpre); [lia|lia|].
  rewrite Es in Es'. injection Es' as <-. rewrite Hx in Hnth.
  assert (Hfn : firstn (g1 + 1) vs = firstn g1 values ++ [x]).
  { rewrite Nat.add_comm. cbn [plus].
    destruct (nth_error_split_set g1 x x vs Hnth) as (l1 & l2 & -> & Hl1 & _).
    assert (Hl : l1 = firstn g1 values).
    { apply nth_error_ext_. - rewrite firstn_length; lia.
      - intros m Hm. rewrite <- (nth_error_firstn_ _ g1 m) by lia.
        rewrite <- Hpre by lia. now rewrite nth_error_app1. }
    rewrite <- Hl, <- Hl1. change (x :: l2) with ([x] ++ l2). rewrite app_assoc.
    replace (S (length l1)) with (length (l1 ++ [x]) + 0) by (rewrite app_length; cbn; lia).
    rewrite firstn_app_2. cbn. now rewrite app_nil_r. }
  split; [exact Hfn|].
  rewrite <- (firstn_skipn g1 values), <- (firstn_skipn (g1 + 1) vs), Hfn, <- app_assoc in Hpv.
  apply Permutation_app_inv_l in Hpv. exact Hpv.
Qed.

Lemma remove_back (values : list T) g1 c y vs : swap_remove (g1 + c) values = Ok (y, vs) -> g1 + c < length values ->
  nth_error values (g1 + c) = Some y /\ firstn g1 vs = firstn g1 values /\ Permutation (skipn g1 values) (y :: skipn g1 vs).
Proof.
  intros Es Hlt. destruct (swap_remove_spec (g1 + c) values Hlt) as (y' & vs' & Es' & Hy & Hpv & Hfst).
  rewrite Es in Es'. injection Es' as <- <-. split; [exact Hy|].
  assert (E : firstn g1 vs = firstn g1 values).
  { assert (E : firstn g1 (firstn (g1 + c) values) = firstn g1 (firstn (g1 + c) vs)) by now rewrite Hfst.
    rewrite !firstn_firstn in E. now replace (Nat.min g1 (g1 + c)) with g1 in E by lia. }
  split; [exact E|]. rewrite <- (firstn_skipn g1 values), <- (firstn_skipn g1 vs), E in Hpv at 1.
  apply (Permutation_app_inv_l (firstn g1 values)). rewrite Hpv. perm.
Qed.

Context (cap min : nat) (needs1 : nat -> Prop).
(** The condition of the code, and what it amounts to for a sensible minimum. *)
Hypothesis Hneeds : (forall n, needs1 n <-> n - 1 = min) \/
  (2 * min <= cap /\ forall n, needs1 n <-> n <= min + 1).

Lemma split_loop_distributes fuel values g1 group2 b1 b2 r :
  g1 <= length values -> length values + length group2 = S cap -> 1 <= g1 ->
  (2 * min <= cap -> min + 1 <= length values) ->
  split_loop P bnd fuel cap min values g1 group2 b1 b2 = Ok r ->
  distributes P bnd needs1 (fun n => n <= min) (firstn g1 values) b1 group2 b2 (skipn g1 values) r.
Proof.
  revert values g1 group2 b1 b2. induction fuel as [|fuel IH]; intros values g1 group2 b1 b2 Hg Hsum Hg1 Hinv E; cbn [split_loop] in E.
  { destruct (Nat.ltb_spec g1 (length values)); [discriminate|]. injection E as <-.
    rewrite firstn_all2, skipn_all2 by lia. constructor. }
  destruct (Nat.ltb_spec g1 (length values)).
  2:{ injection E as <-. rewrite firstn_all2, skipn_all2 by lia. constructor. }
  assert (Hrem : length (skipn g1 values) = length values - g1) by apply skipn_length.
  assert (Hfl : length (firstn g1 values) = g1) by (rewrite firstn_length; lia).
  destruct (best_candidate_for_group P bnd (skipn g1 values) b1) as [[c1 v1]|] eqn:E1; [|discriminate].
  destruct (best_candidate_for_group P bnd (skipn g1 values) b2) as [[c2 v2]|] eqn:E2; [|discriminate].
  cbn [unwrap bind] in E.
  destruct (min_by_key_least _ _ _ _ E1) as (x1 & Hx1 & -> & L1).
  destruct (min_by_key_least _ _ _ _ E2) as (x2 & Hx2 & -> & L2).
  rewrite Hx1, Hx2 in E. cbn [unwrap bind] in E.
  assert (Hn1 : (g1 + length (skipn g1 values) - 1 =? min) = true <-> needs1 (g1 + length (skipn g1 values))).
  { rewrite Nat.eqb_eq. destruct Hneeds as [Hn|[Hc Hn]]; rewrite Hn; [tauto|]. specialize (Hinv Hc). lia. }
  destruct (if n64_lt P (enlargement P bnd b1 x1) (enlargement P bnd b2 x2) then _ else _) eqn:Ec.
  - destruct (slice_swap (g1 + c1) g1 values) as [vs| | |] eqn:Es; try discriminate. cbn [bind] in E.
    rewrite nth_error_skipn_ in Hx1. destruct (swap_front _ _ _ _ _ Hx1 Es) as (Hf & Hp).
    assert (Hlv : length vs = length values).
    { assert (Hlt := nth_error_lt _ _ _ Hx1). destruct (slice_swap_spec (g1 + c1) g1 values) as (vs' & Es' & _ & Hlv & _); [lia|lia|]. congruence. }
    apply (dist_1 P bnd _ _ _ _ _ _ _ x1 x2 (skipn (g1 + 1) vs) r L1 L2); [|exact Hp|rewrite <- Hf; apply IH; try assumption; lia].
    rewrite Hfl. unfold n64_lt in Ec. destruct (n64_cmp VO (enlargement P bnd b1 x1) (enlargement P bnd b2 x2)); try (now apply Hn1).
    apply Nat.ltb_lt in Ec. lia.
  - destruct (swap_remove (g1 + c2) values) as [[y vs]| | |] eqn:Es; try discriminate. cbn [bind] in E.
    unfold push in E. destruct (length group2 =? cap); [discriminate|]. cbn [bind] in E.
    rewrite nth_error_skipn_ in Hx2. assert (Hlt := nth_error_lt _ _ _ Hx2).
    destruct (remove_back _ _ _ _ _ Es Hlt) as (Hy & Hf & Hp). rewrite Hx2 in Hy. injection Hy as <-.
    assert (Hlv := swap_remove_length _ _ _ _ Es).
    assert (Hn : match n64_cmp VO (enlargement P bnd b1 x1) (enlargement P bnd b2 x2) with
      Lt => length group2 + length (skipn g1 values) <= min | _ => ~ needs1 (length (firstn g1 values) + length (skipn g1 values)) end).
    { rewrite Hfl. unfold n64_lt in Ec. destruct (n64_cmp VO (enlargement P bnd b1 x1) (enlargement P bnd b2 x2)); try (rewrite <- Hn1; congruence).
      apply Nat.ltb_ge in Ec. lia. }
    apply (dist_2 P bnd _ _ _ _ _ _ _ x1 x2 (skipn g1 vs) r L1 L2); [exact Hn|exact Hp|].
    rewrite <- Hf. apply IH; rewrite ?app_length; cbn [length]; try lia; [|exact E].
    intros Hc. specialize (Hinv Hc). rewrite Hfl in Hn.
    unfold n64_lt in Ec. destruct (n64_cmp VO (enlargement P bnd b1 x1) (enlargement P bnd b2 x2)).
    + apply Nat.eqb_neq in Ec. lia.
    + lia.
    + apply Nat.eqb_neq in Ec. lia.
Qed.

Lemma set_nth_app2 (l : list T) x y : set_nth (length l) x (l ++ [y]) = l ++ [x].
Proof. induction l as [|z l IH]; [reflexivity|]. cbn. now rewrite IH. Qed.

(** The seeds, by their indices. *)
Lemma seeds_at values ov values' seed i1 i2 : worst_combination P bnd values ov = Ok (i1, i2) -> values <> [] ->
  seed_split_groups P bnd values ov = Ok (values', seed) ->
  i1 < i2 /\ nth_error values' 0 = nth_error values i1 /\ i1 < length values /\ nth_error (values ++ [ov]) i2 = Some seed.
Proof.
  intros Ew Hne E. destruct (worst_combination_idx P bnd values ov Hne) as (j1 & j2 & Ew' & H1 & H2).
  rewrite Ew in Ew'. injection Ew' as <- <-. unfold seed_split_groups in E. rewrite Ew in E. cbn [bind] in E.
  destruct (slice_swap_spec 0 i1 values) as (vs & Es & Hp & Hl & _); [lia|lia|]. rewrite Es in E. cbn [bind] in E. rewrite Hl in E.
  destruct (nth_error values 0) as [a|] eqn:Ha; [|apply nth_error_None in Ha; lia].
  destruct (nth_error values i1) as [b|] eqn:Hb; [|apply nth_error_None in Hb; lia].
  assert (Evs : vs = set_nth i1 a (set_nth 0 b values)) by (unfold slice_swap in Es; rewrite Ha, Hb in Es; congruence).
  assert (Hother : forall m, m <> 0 -> m <> i1 -> nth_error vs m = nth_error values m).
  { intros m Hm0 Hm1. rewrite Evs, !nth_error_set_nth. destruct (Nat.eqb_spec i1 m); [congruence|]. destruct (Nat.eqb_spec 0 m); [congruence|reflexivity]. }
  assert (H0 : nth_error vs 0 = Some b).
  { rewrite Evs, !nth_error_set_nth, set_nth_length. destruct (Nat.eqb_spec i1 0) as [->|].
    - destruct (Nat.ltb_spec 0 (length values)); [congruence|lia].
    - rewrite Nat.eqb_refl. destruct (Nat.ltb_spec 0 (length values)); [reflexivity|lia]. }
  split; [lia|]. destruct (Nat.ltb_spec i2 (length values)).
  - destruct (nth_error vs i2) as [x|] eqn:Hx; [|discriminate]. injection E as <- <-. split.
    + rewrite nth_error_set_nth. destruct (Nat.eqb_spec i2 0); [lia|]. congruence.
    + split; [exact H1|]. rewrite nth_error_app1 by assumption. rewrite <- Hother by lia. exact Hx.
  - injection E as <- <-. split; [congruence|]. split; [exact H1|]. rewrite nth_error_app2 by lia. replace (i2 - length values) with 0 by lia. reflexivity.
Qed.

Lemma split_distributes values ov r : length values = cap -> split P bnd cap min values ov = Ok r ->
  split_result P bnd needs1 (fun n => n <= min) values ov r.
Proof.
  intros Hlen E. unfold split in E. destruct (Nat.ltb_spec (length values) 1); [discriminate|].
  destruct (seed_split_groups_spec P bnd values ov) as (vs & seed & Es & Hp & Hl); [intros ->; cbn in *; lia|].
  rewrite Es in E. cbn [bind] in E. unfold push in E. cbn [length] in E. destruct (Nat.eqb_spec 0 cap); [discriminate|]. cbn [bind app] in E.
  destruct vs as [|v0 vs]; [discriminate|]. cbn [nth_error unwrap bind] in E.
  exists v0, seed, vs. split; [rewrite Hp; perm|].
  apply split_loop_distributes in E; cbn [length] in *; try lia. exact E.
Qed.

(** A group keeps its seed in front. *)
Lemma distributes_heads needs1' needs2' g1 b1 g2 b2 rest r : distributes P bnd needs1' needs2' g1 b1 g2 b2 rest r ->
  g1 <> [] -> g2 <> [] -> hd_error (snd (fst r)) = hd_error g1 /\ hd_error (snd r) = hd_error g2.
Proof.
  induction 1; intros N1 N2; [now split| |].
  - destruct IHdistributes as [-> ->]; [now destruct g1|assumption|]. split; [now destruct g1|reflexivity].
  - destruct IHdistributes as [-> ->]; [assumption|now destruct g2|]. split; [reflexivity|now destruct g2].
Qed.

Lemma seed_volume_measure values ov i j : i < length values -> seed_volume P bnd values ov i j = pair_measure P bnd values ov i j.
Proof.
  intros Hi. unfold seed_volume, pair_measure. destruct (nth_error values i) as [x|] eqn:Ei; [|reflexivity].
  destruct (Nat.eqb_spec j (length values)) as [->|Hj].
  - rewrite nth_error_app2, Nat.sub_diag by lia. reflexivity.
  - destruct (Nat.lt_ge_cases j (length values)).
    + rewrite nth_error_app1 by assumption. destruct (nth_error values j); reflexivity.
    + rewrite nth_error_app2 by assumption. destruct (j - length values) eqn:Ej; [lia|]. cbn.
      rewrite (proj2 (nth_error_None values j)) by assumption. now destruct n.
Qed.

Lemma split_seeds values ov b1 b2 g1 g2 : length values = cap ->
  (forall b, n64_cmp VO (n64_neg_inf VO) (volume VO b) = Lt) -> split P bnd cap min values ov = Ok (b1, b2, g1, g2) ->
  exists i j s1 s2 m, i < j /\ nth_error (values ++ [ov]) i = Some s1 /\ nth_error (values ++ [ov]) j = Some s2 /\
    hd_error g1 = Some s1 /\ hd_error g2 = Some s2 /\ seed_volume P bnd values ov i j = Some m /\
    forall i' j' m', i' < j' -> seed_volume P bnd values ov i' j' = Some m' -> n64_cmp VO m' m <> Gt.
Proof.
  intros Hlen Hinf E. assert (E0 := E). unfold split in E. destruct (Nat.ltb_spec (length values) 1); [discriminate|].
  assert (Hne : values <> []) by (intros ->; cbn in *; lia).
  destruct (worst_combination_idx P bnd values ov Hne) as (i & j & Ew & Hi & Hj).
  destruct (seed_split_groups_spec P bnd values ov Hne) as (vs & seed & Es & _ & Hl).
  destruct (seeds_at _ _ _ _ _ _ Ew Hne Es) as (Hij & H0 & _ & Hs).
  rewrite Es in E. cbn [bind] in E. unfold push in E. cbn [length] in E. destruct (Nat.eqb_spec 0 cap); [discriminate|]. cbn [bind app] in E.
  destruct vs as [|v0 vs]; [discriminate|]. cbn [nth_error unwrap bind] in E, H0.
  apply split_loop_distributes in E; cbn [length] in *; try lia. apply distributes_heads in E; [|discriminate|discriminate].
  destruct E as [G1 G2]. cbn [fst snd firstn] in G1, G2.
  destruct (worst_combination_max P bnd VL values ov i j Hinf Ew) as (m & Hm & Hmax).
  exists i, j, v0, seed, m. split; [exact Hij|]. split; [rewrite nth_error_app1 by assumption; congruence|]. split; [exact Hs|].
  split; [exact G1|]. split; [exact G2|]. split; [rewrite seed_volume_measure by assumption; exact Hm|].
  intros i' j' m' Hlt Hm'. apply (Hmax i' j' m' Hlt). destruct (Nat.lt_ge_cases i' (length values)) as [Hi'|Hi'].
  - rewrite <- seed_volume_measure by assumption. exact Hm'.
  - unfold seed_volume in Hm'. rewrite (proj2 (nth_error_None values i')) in Hm' by assumption. discriminate.
Qed.
End Split.
