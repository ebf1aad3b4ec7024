(** The splitter: a partition, with right bounds and right sizes, for every volume function. *)
From Verif Require Export Util.

(** A relation between bounds and the keys they are the bounds of, closed under what the tree does.
    Instances: "the bounds include every key" and "the bounds are the union of the keys". *)
Record rel_laws {B K : Type} (P : Params B K) (ok : K -> Prop) (rel : B -> list K -> Prop) : Prop := {
  rel_perm : forall b l l', Permutation l l' -> rel b l -> rel b l';
  rel_empty : rel (b_empty (bops P)) [];
  rel_key : forall k, ok k -> rel (key_bounds P k) [k];
  rel_union : forall a b l m, rel a l -> rel b m -> rel (b_union (bops P) a b) (l ++ m);
  rel_union_all : forall bs ls, Forall2 rel bs ls -> rel (b_union_all (bops P) bs) (concat ls);
  rel_absorb : forall b l k k', rel b l -> In k' l -> ok k -> key_eq P k' k = true ->
    rel (b_union (bops P) b (key_bounds P k)) l
}.

Section Split.
Context {B K : Type} (P : Params B K).
Context {T : Type} (bnd : T -> B).

Lemma wc_loop1_idx ov ivs g i1 N :
  (forall i v, In (i, v) ivs -> i < N) -> i1 < N ->
  snd (fold_left (wc_loop1 P bnd ov) ivs (g, i1)) < N.
Proof.
  revert g i1; induction ivs as [|[i v] ivs IH]; intros g i1 Hin Hi; cbn [fold_left]; [exact Hi|].
  unfold wc_loop1 at 2. destruct (n64_gt _ _ _).
  - apply IH; [firstorder|]. apply (Hin i v). now left.
  - apply IH; [firstorder|assumption].
Qed.

Lemma wc_loop2_idx ov i vi jvs g i1 i2 N :
  i < N -> (forall j v, In (j, v) jvs -> i < j < N) -> i1 < N -> i1 < i2 <= N ->
  forall g' j1 j2, fold_left (wc_loop2 P bnd ov i vi) jvs (g, i1, i2) = (g', j1, j2) ->
  j1 < N /\ j1 < j2 <= N.
Proof.
  revert g i1 i2; induction jvs as [|[j v] jvs IH]; intros g i1 i2 Hi Hin H1 H2 g' j1 j2; cbn [fold_left].
  - intros [= <- <- <-]. auto.
  - unfold wc_loop2 at 2. destruct (n64_gt _ _ _).
    + apply IH; auto; [firstorder|]. specialize (Hin j v (or_introl eq_refl)). lia.
    + apply IH; auto. firstorder.
Qed.

Lemma wc_outer_idx ov (l : list T) s N g i1 i2 :
  s + length l = N -> i1 < N -> i1 < i2 <= N ->
  forall g' j1 j2, wc_outer P bnd ov (combine (seq s (length l)) l) (g, i1, i2) = (g', j1, j2) ->
  j1 < N /\ j1 < j2 <= N.
Proof.
  revert s g i1 i2; induction l as [|x l IH]; intros s g i1 i2 HN H1 H2 g' j1 j2; cbn -[wc_loop2].
  - intros [= <- <- <-]. auto.
  - cbn [length] in HN.
    destruct (fold_left _ _ _) as [[g2 k1] k2] eqn:E.
    assert (Hk : k1 < N /\ k1 < k2 <= N).
    { eapply wc_loop2_idx; [| | | |exact E]; try lia.
      intros j v Hj. apply in_combine_seq in Hj as [Hj1 Hj2]. apply nth_error_lt in Hj2. lia. }
    intros H. eapply IH; [| | |exact H]; lia.
Qed.

Lemma worst_combination_idx values ov :
  values <> [] ->
  exists i1 i2, worst_combination P bnd values ov = Ok (i1, i2) /\ i1 < length values /\ i1 < i2 <= length values.
Proof.
  intros Hne. unfold worst_combination. destruct values as [|v0 vs]; [congruence|].
  set (values := v0 :: vs) in *.
  destruct (fold_left (wc_loop1 P bnd ov) _ _) as [g i1] eqn:E.
  assert (H1 : i1 < length values).
  { change i1 with (snd (g, i1)). rewrite <- E. apply wc_loop1_idx.
    - intros i v Hin. apply in_enumerate in Hin. now apply nth_error_lt in Hin.
    - cbn; lia. }
  destruct (wc_outer _ _ _ _ _) as [[g' j1] j2] eqn:E2.
  exists j1, j2. split; [reflexivity|].
  eapply (wc_outer_idx ov values 0); [| | |exact E2]; lia.
Qed.

Lemma seed_split_groups_spec values ov :
  values <> [] ->
  exists values' seed, seed_split_groups P bnd values ov = Ok (values', seed)
    /\ Permutation (ov :: values) (seed :: values') /\ length values' = length values.
Proof.
  intros Hne. unfold seed_split_groups.
  destruct (worst_combination_idx values ov Hne) as (i1 & i2 & E & H1 & H2). rewrite E. cbn.
  destruct (slice_swap_spec 0 i1 values) as (vs & Es & Hp & Hl & _); [lia|lia|].
  rewrite Es. cbn. rewrite Hl. destruct (Nat.ltb_spec i2 (length values)).
  - destruct (nth_error_exists i2 vs) as [x Hx]; [lia|]. rewrite Hx.
    do 2 eexists. split; [reflexivity|]. rewrite set_nth_length. split; [|assumption].
    rewrite Hp. destruct (nth_error_split_set i2 x ov vs Hx) as (l1 & l2 & -> & _ & ->). perm.
  - do 2 eexists. split; [reflexivity|]. split; [now rewrite Hp|assumption].
Qed.

Lemma best_candidate_spec cs b :
  cs <> [] -> exists i v, best_candidate_for_group P bnd cs b = Some (i, v) /\ i < length cs.
Proof.
  intros H. unfold best_candidate_for_group. set (vs := map _ cs).
  destruct (min_by_some (fun x y => n64_cmp (vops P) (snd x) (snd y)) (enumerate vs)) as [[i v] E].
  { destruct cs; [congruence|]. discriminate. }
  exists i, v. split; [exact E|]. apply min_by_in, in_enumerate, nth_error_lt in E.
  unfold vs in E. now rewrite map_length in E.
Qed.

Context (ok : K -> Prop) (rel : B -> list K -> Prop) (L : rel_laws P ok rel).
Context (keysof : T -> list K).

Definition elts_ok (l : list T) : Prop := Forall (fun x => rel (bnd x) (keysof x)) l.

(** What a split has to deliver. *)
Definition split_post (cap min : nat) (all : list T) (r : B * B * list T * list T) : Prop :=
  let '(b1, b2, g1, g2) := r in
  Permutation all (g1 ++ g2) /\ 1 <= length g1 /\ 1 <= length g2
  /\ length g1 + length g2 = S cap
  /\ (Nat.min min (cap - min) <= length g1 /\ Nat.min min (cap - min) <= length g2)
  /\ rel b1 (flat_map keysof g1) /\ rel b2 (flat_map keysof g2).

Lemma elts_ok_perm l l' : Permutation l l' -> elts_ok l -> elts_ok l'.
Proof. apply Forall_perm. Qed.

Lemma nth_error_skipn_ (l : list T) a i : nth_error (skipn a l) i = nth_error l (a + i).
Proof. revert l; induction a as [|a IH]; intros l; cbn; [reflexivity|]. destruct l; cbn; [now destruct i|]. apply IH. Qed.

Lemma split_loop_spec fuel cap min all values g1 group2 b1 b2 :
  length values <= fuel + g1 -> 1 <= g1 <= length values -> 1 <= length group2 ->
  length values + length group2 = S cap ->
  (min + 1 <= length values \/ Nat.min min (cap - min) <= g1) ->
  Nat.min min (cap - min) <= length group2 + (length values - g1) ->
  Permutation all (values ++ group2) -> elts_ok all ->
  rel b1 (flat_map keysof (firstn g1 values)) -> rel b2 (flat_map keysof group2) ->
  post (split_loop P bnd fuel cap min values g1 group2 b1 b2) False (split_post cap min all).
Proof.
  revert values g1 group2 b1 b2.
  induction fuel as [|fuel IH]; intros values g1 group2 b1 b2 Hf Hg Hg2 Hsum Hmin Hmin2 Hp Hok Hr1 Hr2.
  - cbn. destruct (Nat.ltb_spec g1 (length values)); [lia|]. cbn.
    assert (g1 = length values) by lia. subst g1. rewrite firstn_all in Hr1.
    repeat split; try assumption; try lia; intuition lia.
  - cbn [split_loop]. destruct (Nat.ltb_spec g1 (length values)).
    2:{ cbn. assert (g1 = length values) by lia. subst g1. rewrite firstn_all in Hr1.
        repeat split; try assumption; try lia; intuition lia. }
    assert (Hrem : length (skipn g1 values) = length values - g1) by apply skipn_length.
    assert (Hne : skipn g1 values <> []).
    { intros E. rewrite E in Hrem. cbn in Hrem. lia. }
    assert (Hokv : elts_ok values).
    { apply elts_ok_perm with (1 := Hp) in Hok. now apply Forall_app in Hok. }
    destruct (best_candidate_spec (skipn g1 values) b1 Hne) as (c1 & v1 & E1 & Hc1).
    destruct (best_candidate_spec (skipn g1 values) b2 Hne) as (c2 & v2 & E2 & Hc2).
    rewrite E1, E2. cbn [unwrap bind].
    set (cond := if n64_lt P v1 v2 then _ else _).
    assert (Hcond1 : cond = true -> Nat.min min (cap - min) <= length group2 + (length values - g1) - 1).
    { unfold cond. rewrite Hrem. destruct (n64_lt P v1 v2); intros HH.
      - apply Nat.ltb_lt in HH. lia.
      - apply Nat.eqb_eq in HH. lia. }
    assert (Hcond2 : cond = false -> min + 2 <= length values \/ Nat.min min (cap - min) <= g1).
    { unfold cond. rewrite Hrem. destruct (n64_lt P v1 v2); intros HH.
      - apply Nat.ltb_ge in HH. lia.
      - apply Nat.eqb_neq in HH. lia. }
    destruct cond.
    + destruct (nth_error_exists c1 (skipn g1 values) Hc1) as [x Hx]. rewrite Hx. cbn [unwrap bind].
      rewrite nth_error_skipn_ in Hx.
      destruct (slice_swap_spec (g1 + c1) g1 values) as (vs & Es & Hpv & Hlv & Hnth & Hpre); [lia|lia|].
      rewrite Es. cbn [bind]. apply IH; try lia; try assumption.
      * now rewrite <- Hpv.
      * rewrite Hx in Hnth.
        assert (Hfn : firstn (g1 + 1) vs = firstn g1 values ++ [x]).
        { clear - Hnth Hpre Hlv H. rewrite Nat.add_comm. cbn [plus].
          destruct (nth_error_split_set g1 x x vs Hnth) as (l1 & l2 & -> & Hl1 & _).
          assert (Hl : l1 = firstn g1 values).
          { apply nth_error_ext_. - rewrite firstn_length; lia.
            - intros m Hm. rewrite <- (nth_error_firstn_ _ g1 m) by lia.
              rewrite <- Hpre by lia. now rewrite nth_error_app1. }
          rewrite <- Hl, <- Hl1. change (x :: l2) with ([x] ++ l2). rewrite app_assoc.
          replace (S (length l1)) with (length (l1 ++ [x]) + 0) by (rewrite app_length; cbn; lia).
          rewrite firstn_app_2. cbn. now rewrite app_nil_r. }
        rewrite Hfn, flat_map_app. cbn [flat_map]. rewrite app_nil_r.
        apply (rel_union _ _ _ L); [assumption|].
        eapply (Forall_nth_error _ _ _ _ Hokv); eassumption.
    + destruct (nth_error_exists c2 (skipn g1 values) Hc2) as [x Hx]. rewrite Hx. cbn [unwrap bind].
      rewrite nth_error_skipn_ in Hx.
      destruct (swap_remove_spec (g1 + c2) values) as (y & vs & Es & Hy & Hpv & Hfst); [lia|].
      rewrite Es. cbn [bind]. rewrite Hx in Hy. injection Hy as <-.
      assert (Hlen : length values = S (length vs)) by (apply Permutation_length in Hpv; exact Hpv).
      unfold push. destruct (Nat.eqb_spec (length group2) cap); [lia|]. cbn [bind].
      apply IH; rewrite ?app_length; cbn [length]; try lia; try assumption.
      * rewrite Hp, Hpv. perm.
      * replace (firstn g1 vs) with (firstn g1 values); [assumption|].
        assert (E : firstn g1 (firstn (g1 + c2) values) = firstn g1 (firstn (g1 + c2) vs)) by now rewrite Hfst.
        rewrite !firstn_firstn in E. now replace (Nat.min g1 (g1 + c2)) with g1 in E by lia.
      * rewrite flat_map_app. cbn. rewrite app_nil_r.
        apply (rel_union _ _ _ L); [assumption|].
        eapply (Forall_nth_error _ _ _ _ Hokv); eassumption.
Qed.

Lemma split_spec cap min values ov :
  length values = cap -> elts_ok (ov :: values) ->
  post (split P bnd cap min values ov) (cap = 0) (split_post cap min (ov :: values)).
Proof.
  intros Hlen Hok. unfold split. destruct (Nat.ltb_spec (length values) 1); [cbn; lia|].
  destruct (seed_split_groups_spec values ov) as (vs & seed & E & Hp & Hl).
  { intros ->. cbn in *. lia. }
  rewrite E. cbn [bind]. unfold push. destruct (Nat.eqb_spec (length (@nil T)) cap); [cbn in *; lia|].
  cbn [bind]. destruct vs as [|v0 vs]; [cbn in *; lia|]. cbn [nth_error unwrap bind app].
  assert (Hok' : elts_ok (seed :: v0 :: vs)) by (eapply elts_ok_perm; eassumption).
  eapply post_mono; [apply (split_loop_spec (length (v0 :: vs)) cap min (ov :: values))|..]; cbn [length] in *;
    try lia; try tauto.
  - rewrite Hp. perm.
  - cbn. rewrite app_nil_r. inversion Hok' as [|? ? _ Hok'']. now inversion Hok''.
  - cbn. rewrite app_nil_r. now inversion Hok'.
Qed.
End Split.
