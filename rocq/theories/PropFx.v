(** Properties C62, C63: callbacks with effects.  Vocabulary: Spec.v, IterSpec.v, FxSpec.v. *)
From Verif Require Import Witness FxProof.

(** ** C62 a query asks about each node and entry at most once, and never below a node it was told to skip *)

(** Any filter at all: with state of its own, answering differently each time, panicking; the program may do anything in
    between ([gs]) and catches the panics.  [log] is what the filter was asked and answered; [rest] is a way to finish an
    unfinished search. *)
Theorem C62_filter_asks :
  forall (W B K V Q : Type) (P : Params B K) (cfg : config) (brw : K -> Q) (f : FxFilter W B Q) (t : rtree B K V)
    (w : W) (gs : list (W -> W)),
  reachable P cfg any_key t ->
  let b := node_bounds (snd t) in
  let w1 := snd (fx_bounds f w b) in
  match fst (fx_bounds f w b) with
  | None => fx_filter_iter f t w = Ok (None, w1)
  | Some yes =>
    exists st os st' w' log rest out missed,
      fx_filter_iter f t w = Ok (Some st, w1) /\
      session (fx_iter_next brw (logged f)) gs st w1 [] = Ok (os, st', w', log) /\
      length os = length gs /\ fused os /\ unwound os = panics log /\ Forall (f_answered f) log /\
      explore [tree_search brw (snd t)] ((QBounds b, Some yes) :: log ++ rest) (yields os ++ out) missed /\
      (In Done os -> rest = [] /\ out = [])
  end.
Proof.
  intros * Hr b w1. apply inv_any in Hr. destruct Hr as [Hw _]. apply wf_kinded in Hw.
  unfold fx_filter_iter. fold b. unfold w1. destruct (fx_bounds f w b) as [[[|]|] w0]; cbn [fst snd].
  - destruct (fx_iter_new brw t Hw) as (st & E1 & H1 & H2). rewrite E1. cbn [bind].
    destruct (fx_iter_sessions brw f st gs w0 [] H1) as (os & st' & w' & used & rest & out & missed & E2 & G1 & G2 & G3 & G4 & G5 & G6).
    exists st, os, st', w', used, rest, out, missed. splits; auto.
    rewrite tree_search_eq. apply ex_below. rewrite app_nil_r. now rewrite <- H2.
  - assert (H1 : stack_ok (@iter_new_empty B K V)) by (intros [|i] x; discriminate).
    destruct (fx_iter_sessions brw f _ gs w0 [] H1) as (os & st' & w' & used & rest & out & missed & E2 & G1 & G2 & G3 & G4 & G5 & G6).
    exists iter_new_empty, os, st', w', used, rest, out, missed. splits; auto.
    rewrite tree_search_eq. apply ex_skip. exact G5.
  - reflexivity.
Qed.
Print Assumptions C62_filter_asks.

(** The same for a join: each pair is asked about at most once, and only below accepted pairs. *)
Theorem C62_join_asks :
  forall (W B0 B1 K0 K1 V0 V1 Q0 Q1 : Type) (P0 : Params B0 K0) (P1 : Params B1 K1) (cfg0 cfg1 : config)
    (brw0 : K0 -> Q0) (brw1 : K1 -> Q1) (f : FxJoinFilter W B0 B1 Q0 Q1) (t0 : rtree B0 K0 V0) (t1 : rtree B1 K1 V1)
    (w : W) (gs : list (W -> W)),
  reachable P0 cfg0 any_key t0 -> reachable P1 cfg1 any_key t1 ->
  let b0 := node_bounds (snd t0) in
  let b1 := node_bounds (snd t1) in
  let w1 := snd (fxj_bounds f w b0 b1) in
  match fst (fxj_bounds f w b0 b1) with
  | None => fx_join f t0 t1 w = Ok (None, w1)
  | Some yes =>
    exists it os it' w' log rest out missed,
      fx_join f t0 t1 w = Ok (Some it, w1) /\
      session (fx_join_next brw0 brw1 (jlogged f)) gs it w1 [] = Ok (os, it', w', log) /\
      length os = length gs /\ fused os /\ unwound os = panics log /\ Forall (j_answered f) log /\
      explore [pair_search brw0 brw1 (Nat.max (fst t0) (fst t1)) (snd t0) (snd t1)]
        ((QBounds2 b0 b1, Some yes) :: log ++ rest) (yields os ++ out) missed /\
      (In Done os -> rest = [] /\ out = [])
  end.
Proof.
  intros * Hr0 Hr1 b0 b1 w1. apply inv_any in Hr0. destruct Hr0 as [Hw0 _]. apply wf_kinded in Hw0.
  apply inv_any in Hr1. destruct Hr1 as [Hw1 _]. apply wf_kinded in Hw1.
  unfold fx_join. fold b0 b1. unfold w1. destruct (fxj_bounds f w b0 b1) as [[[|]|] w0]; cbn [fst snd].
  - destruct (fx_join_start brw0 brw1 t0 t1 Hw0 Hw1) as (st & E1 & H1 & H2). cbv zeta in E1, H1, H2. rewrite E1. cbn [bind].
    set (h := Nat.max (fst t0) (fst t1)) in *.
    assert (Hpad : h - fst t0 = 0 \/ h - fst t1 = 0) by (unfold h; lia).
    destruct (fx_join_sessions brw0 brw1 f _ _ Hpad st gs w0 [] H1) as (os & st' & w' & used & rest & out & missed & E2 & G1 & G2 & G3 & G4 & G5 & G6).
    exists (st, (h - fst t0, h - fst t1)), os, st', w', used, rest, out, missed. splits; auto.
    change (pair_search brw0 brw1 h (snd t0) (snd t1)) with (pair_group brw0 brw1 h (snd t0, snd t1)).
    rewrite pair_group_eq. apply ex_below. rewrite app_nil_r. now rewrite <- H2.
  - assert (H1 : jstack_ok 0 0 0 (@stack_empty (product (K0 * V0) (K1 * V1)) (product (node B0 K0 V0) (node B1 K1 V1)))) by exact I.
    destruct (fx_join_sessions brw0 brw1 f 0 0 (or_introl eq_refl) _ gs w0 [] H1) as (os & st' & w' & used & rest & out & missed & E2 & G1 & G2 & G3 & G4 & G5 & G6).
    exists (stack_empty, (0, 0)), os, st', w', used, rest, out, missed. splits; auto.
    set (h := Nat.max (fst t0) (fst t1)).
    change (pair_search brw0 brw1 h (snd t0) (snd t1)) with (pair_group brw0 brw1 h (snd t0, snd t1)).
    rewrite pair_group_eq. apply ex_skip. exact G5.
  - reflexivity.
Qed.
Print Assumptions C62_join_asks.

(** What exploring means: entries come out in the order of iteration, no entry is both yielded and missed or yielded twice,
    and there are at most as many questions as nodes and entries. *)
Theorem C62_asked_once :
  forall (B K V Q : Type) (brw : K -> Q) (t : rtree B K V) log out missed,
  explore [tree_search brw (snd t)] log out missed ->
  sublist out (contents t) /\ multi_part (out ++ missed) (contents t) /\
  length log <= node_count (snd t) + length (contents t).
Proof.
  intros * He. assert (Hh := hits_tree brw (snd t)). splits.
  - apply explore_sub in He. cbn [flat_map] in He. rewrite app_nil_r, Hh in He. exact He.
  - apply explore_parts in He. cbn [flat_map] in He. rewrite app_nil_r, Hh in He. exact He.
  - apply explore_count in He. cbn [map list_sum fold_right] in He. rewrite Nat.add_0_r in He.
    rewrite (questions_tree brw (snd t)) in He. exact He.
Qed.
Print Assumptions C62_asked_once.

(** ** C63 a caught panic in a filter costs only what that question was about *)

(** A lawful filter that panics now and then: once the iterator is exhausted, every matching entry has been yielded, or is
    [missed], that is at or below a question that panicked. *)
Theorem C63_filter_panics :
  forall (W B K V Q : Type) (P : Params B K) (cfg : config) (ok : K -> Prop) (incl : B -> B -> Prop)
    (brw : K -> Q) (f : FxFilter W B Q) (tb : B -> bool) (tk : Q -> bool) (t : rtree B K V)
    (w : W) (gs : list (W -> W)) st w1 os st' w' log,
  bounds_laws (bops P) incl -> filter_lawful P brw incl ok tb tk -> answers_as f tb tk ->
  reachable P cfg ok t ->
  fx_filter_iter f t w = Ok (Some st, w1) ->
  session (fx_iter_next brw (logged f)) gs st w1 [] = Ok (os, st', w', log) -> In Done os ->
  exists missed,
    explore [tree_search brw (snd t)] ((QBounds (node_bounds (snd t)), Some (tb (node_bounds (snd t)))) :: log) (yields os) missed /\
    Permutation (filter (fun kv => tk (brw (fst kv))) (contents t))
                (yields os ++ filter (fun kv => tk (brw (fst kv))) missed) /\
    (unwound os = 0 -> yields os = filter (fun kv => tk (brw (fst kv))) (contents t)).
Proof.
  intros * BL HF [HA1 HA2] Hr E1 E2 Hd.
  assert (H62 := C62_filter_asks W B K V Q P cfg brw f t w gs (reachable_any _ _ _ _ Hr)). cbv zeta in H62.
  destruct (fx_bounds f w (node_bounds (snd t))) as [a w0] eqn:Ef. cbn [fst snd] in H62.
  destruct (HA1 w (node_bounds (snd t))) as [Ha|Ha]; rewrite Ef in Ha; cbn [fst] in Ha; subst a; [|rewrite H62 in E1; discriminate].
  destruct H62 as (st2 & os2 & st3 & w2 & log2 & rest & out & missed & E3 & E4 & _ & _ & Hp & HA & He & Hdone).
  rewrite E1 in E3. injection E3 as -> ->. rewrite E2 in E4. injection E4 as <- <- <- <-.
  destruct (Hdone Hd) as [-> ->]. rewrite !app_nil_r in He.
  pose (f0 := {| test_bounds := tb; test_key := tk |}).
  assert (HL : log_ok (f_ans f0) ((QBounds (node_bounds (snd t)), Some (tb (node_bounds (snd t)))) :: log)).
  { constructor; [left; reflexivity|]. eapply Forall_impl; [|exact HA]. intros [q a] (w3 & Hq). cbn [fst snd] in *. subst a.
    destruct q as [b|k]; cbn [f_ans f0 test_bounds test_key]; [apply HA1|apply HA2]. }
  apply (inv_cover _ _ _ incl _ BL) in Hr. destruct Hr as [Hw _].
  assert (HFa : Forall (faithful (f_ans f0) (fun kv => tk (brw (fst kv)))) [tree_search brw (snd t)]).
  { constructor; [|constructor]. exact (faithful_tree brw P cfg ok incl f0 _ _ _ _ HF Hw). }
  assert (Hh := hits_tree brw (snd t)).
  exists missed. split; [exact He|]. split.
  - destruct (explore_faithful _ _ _ _ _ _ He HFa HL) as [H1 _]. cbn [flat_map] in H1. rewrite app_nil_r, Hh in H1. exact H1.
  - intros H0. destruct (explore_no_panic _ _ _ _ _ _ He HFa HL) as [_ H1].
    { unfold panics. cbn [filter snd]. fold (panics log). now rewrite <- Hp. }
    cbn [flat_map] in H1. rewrite app_nil_r, Hh in H1. exact H1.
Qed.
Print Assumptions C63_filter_panics.

Theorem C63_join_panics :
  forall (W B0 B1 K0 K1 V0 V1 Q0 Q1 : Type) (P0 : Params B0 K0) (P1 : Params B1 K1) (cfg0 cfg1 : config)
    (ok0 : K0 -> Prop) (ok1 : K1 -> Prop) (incl0 : B0 -> B0 -> Prop) (incl1 : B1 -> B1 -> Prop)
    (brw0 : K0 -> Q0) (brw1 : K1 -> Q1) (f : FxJoinFilter W B0 B1 Q0 Q1) (tb : B0 -> B1 -> bool) (tk : Q0 -> Q1 -> bool)
    (t0 : rtree B0 K0 V0) (t1 : rtree B1 K1 V1) (w : W) (gs : list (W -> W)) it w1 os it' w' log,
  bounds_laws (bops P0) incl0 -> bounds_laws (bops P1) incl1 ->
  join_filter_lawful P0 P1 brw0 brw1 incl0 incl1 ok0 ok1 tb tk -> janswers_as f tb tk ->
  reachable P0 cfg0 ok0 t0 -> reachable P1 cfg1 ok1 t1 ->
  fx_join f t0 t1 w = Ok (Some it, w1) ->
  session (fx_join_next brw0 brw1 (jlogged f)) gs it w1 [] = Ok (os, it', w', log) -> In Done os ->
  let matching := filter (fun p => tk (brw0 (fst (fst p))) (brw1 (fst (snd p)))) in
  let b0 := node_bounds (snd t0) in
  let b1 := node_bounds (snd t1) in
  exists missed,
    explore [pair_search brw0 brw1 (Nat.max (fst t0) (fst t1)) (snd t0) (snd t1)]
      ((QBounds2 b0 b1, Some (tb b0 b1)) :: log) (yields os) missed /\
    Permutation (matching (list_prod (contents t0) (contents t1))) (yields os ++ matching missed) /\
    (unwound os = 0 -> missed = []).
Proof.
  intros * L0 L1 HF [HA1 HA2] Hr0 Hr1 E1 E2 Hd matching b0 b1.
  assert (H62 := C62_join_asks W B0 B1 K0 K1 V0 V1 Q0 Q1 P0 P1 cfg0 cfg1 brw0 brw1 f t0 t1 w gs
    (reachable_any _ _ _ _ Hr0) (reachable_any _ _ _ _ Hr1)). cbv zeta in H62.
  fold b0 b1 in H62. destruct (fxj_bounds f w b0 b1) as [a w0] eqn:Ef. cbn [fst snd] in H62.
  destruct (HA1 w b0 b1) as [Ha|Ha]; rewrite Ef in Ha; cbn [fst] in Ha; subst a; [|rewrite H62 in E1; discriminate].
  destruct H62 as (st2 & os2 & st3 & w2 & log2 & rest & out & missed & E3 & E4 & _ & _ & Hp & HA & He & Hdone).
  rewrite E1 in E3. injection E3 as -> ->. rewrite E2 in E4. injection E4 as <- <- <- <-.
  destruct (Hdone Hd) as [-> ->]. rewrite !app_nil_r in He.
  pose (f0 := {| jtest_bounds := tb; jtest_key := tk |}).
  assert (HL : log_ok (j_ans f0) ((QBounds2 b0 b1, Some (tb b0 b1)) :: log)).
  { constructor; [left; reflexivity|]. eapply Forall_impl; [|exact HA]. intros [q a] (w3 & Hq). cbn [fst snd] in *. subst a.
    destruct q as [x0 x1|k0 k1]; cbn [j_ans f0 jtest_bounds jtest_key]; [apply HA1|apply HA2]. }
  apply (inv_cover _ _ _ incl0 _ L0) in Hr0. destruct Hr0 as [Hw0 _]. apply (inv_cover _ _ _ incl1 _ L1) in Hr1. destruct Hr1 as [Hw1 _].
  set (h := Nat.max (fst t0) (fst t1)) in *.
  assert (Hpad : h - fst t0 = 0 \/ h - fst t1 = 0) by (unfold h; lia).
  assert (Hg0 : good P0 incl0 ok0 cfg0 (h - (h - fst t0)) (snd t0)).
  { replace (h - (h - fst t0)) with (fst t0) by (unfold h; lia). eexists _, _. exact Hw0. }
  assert (Hg1 : good P1 incl1 ok1 cfg1 (h - (h - fst t1)) (snd t1)).
  { replace (h - (h - fst t1)) with (fst t1) by (unfold h; lia). eexists _, _. exact Hw1. }
  assert (HFa : Forall (faithful (j_ans f0) (fun p => tk (brw0 (fst (fst p))) (brw1 (fst (snd p))))) [pair_search brw0 brw1 h (snd t0) (snd t1)]).
  { constructor; [|constructor]. exact (faithful_pair brw0 brw1 f0 P0 P1 cfg0 cfg1 ok0 ok1 incl0 incl1 HF h _ _ _ _ Hpad Hg0 Hg1). }
  assert (Hh := hits_pair brw0 brw1 h _ _ (snd t0) (snd t1) Hpad (good_kinded _ _ _ _ _ _ Hg0) (good_kinded _ _ _ _ _ _ Hg1)).
  exists missed. split; [exact He|]. split.
  - destruct (explore_faithful _ _ _ _ _ _ He HFa HL) as [H1 _]. cbn [flat_map] in H1. rewrite app_nil_r in H1.
    unfold matching, contents. rewrite <- H1. symmetry. apply filter_perm. exact Hh.
  - intros H0. destruct (explore_no_panic _ _ _ _ _ _ He HFa HL) as [H1 _]; [|exact H1].
    unfold panics. cbn [filter snd]. fold (panics log). now rewrite <- Hp.
Qed.
Print Assumptions C63_join_panics.

(** ** Cases that meet the hypotheses *)

(** A filter that accepts everything, counts its calls, and panics on the 3rd and the 12th: of the 22 entries of [sample],
    some node and some entry are missed, and all other entries come out. *)
Definition flaky (w : nat) : option bool * nat := (if (w =? 3) || (w =? 12) then None else Some true, S w).
Definition flaky_filter {B Q} : FxFilter nat B Q := {| fx_bounds := fun w _ => flaky w; fx_key := fun w _ => flaky w |}.
Definition code {A} (o : outcome A) : nat := match o with Yield _ => 1 | Done => 0 | Panicked => 2 end.
Definition flaky_run : res (list (outcome (svec i32 2 * nat)) * nat) :=
  let* (ost, w) := fx_filter_iter (@flaky_filter _ (svec i32 2)) sample 0 in
  match ost with
  | None => Panic
  | Some st =>
    let* r := session (fx_iter_next (fun k => k) (logged flaky_filter)) (repeat (fun w => w) 24) st w [] in
    Ok (fst (fst (fst r)), length (snd r))
  end.
Definition flaky_codes : list nat := match flaky_run with Ok (os, _) => map code os | _ => [] end.
Definition flaky_values : list nat := match flaky_run with Ok (os, _) => map snd (yields os) | _ => [] end.

Lemma flaky_answers {B Q} : answers_as (@flaky_filter B Q) (fun _ => true) (fun _ => true).
Proof. split; intros w x; cbn; destruct (_ || _); auto. Qed.

Definition flaky_join_filter {B0 B1 Q0 Q1} : FxJoinFilter nat B0 B1 Q0 Q1 :=
  {| fxj_bounds := fun w _ _ => flaky w; fxj_key := fun w _ _ => flaky w |}.
Definition flaky_join_run : res (list (outcome ((svec i32 2 * nat) * (saabb i32 2 * nat))) * nat) :=
  let* (oit, w) := fx_join (@flaky_join_filter _ _ (svec i32 2) (saabb i32 2)) sample box_sample 0 in
  match oit with
  | None => Panic
  | Some it =>
    let* r := session (fx_join_next (fun k => k) (fun k => k) (jlogged flaky_join_filter)) (repeat (fun w => w) 140) it w [] in
    Ok (fst (fst (fst r)), length (snd r))
  end.
Definition flaky_join_codes : list nat := match flaky_join_run with Ok (os, _) => map code os | _ => [] end.

Example C62_case : reachable PP (cfg_of 4 2) any_key sample /\
  flaky_codes = [2; 1; 1; 1; 1; 1; 1; 2; 1; 1; 1; 1; 1; 1; 1; 1] ++ repeat 0 8.
Proof. split; [exact sample_reachable|]. vm_compute. reflexivity. Qed.
(** The entry 1 and a leaf of seven entries are missed. *)
Example C63_case :
  map snd (contents sample) = [1; 14; 9; 5; 24; 11; 6; 23; 22; 27; 29; 17; 10; 21; 2; 33; 15; 25; 26; 28; 12; 8] /\
  flaky_values = [14; 9; 5; 24; 11; 6; 2; 33; 15; 25; 26; 28; 12; 8].
Proof. split; vm_compute; reflexivity. Qed.
Example C63_join_case : length (contents sample) = 22 /\ length (contents box_sample) = 6 /\
  map (fun c => length (filter (Nat.eqb c) flaky_join_codes)) [1; 2; 0] = [130; 2; 8].
Proof. splits; vm_compute; reflexivity. Qed.
Lemma accept_all_lawful {B K Q} (P : Params B K) (brw : K -> Q) incl ok :
  filter_lawful P brw incl ok (fun _ => true) (fun _ => true).
Proof. firstorder. Qed.
