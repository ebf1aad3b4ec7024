(** Properties C64, C65: ordered search is best-first, whatever the ranking does.  Vocabulary: Spec.v, IterSpec.v, FxSpec.v,
    FxSortedSpec.v. *)
From Verif Require Import FxSortedLaw PropSorted.

(** ** C64 ordered iteration is a lazy best-first search *)

(** Any ranking at all: with state of its own, answering differently each time, panicking; the program may do anything in
    between ([gs]) and catches the panics.  [tr] is all that happened, [rest] a way to finish an unfinished search
    (by panicking on all further questions). *)
Theorem C64_best_first :
  forall (W B K V M : Type) (P : Params B K) (cfg : config) (m_cmp : M -> M -> comparison) (PQ : PQueue (ranked B K V M))
    (f : FxRanking W B K M) (t : rtree B K V) (w : W) (gs : list (W -> W)),
  cmp_laws m_cmp -> pqueue_laws (ranked_cmp m_cmp) PQ -> reachable P cfg any_key t ->
  let w1 := snd (fxr_bounds f w (node_bounds (snd t))) in
  match fst (fxr_bounds f w (node_bounds (snd t))) with
  | None => fx_sorted_new PQ f t w = (None, w1)
  | Some a =>
    exists h os h' w' tr rest lost,
      fx_sorted_new PQ f t w = (Some h, w1) /\
      session (traced (fx_sorted_next PQ (rlogged f))) gs h w1 [] = Ok (os, h', w', tr) /\
      length os = length gs /\ fused os /\ unwound os = length (panicked_on tr) /\ yields os = founds tr /\
      Forall (r_answered f) tr /\
      best_first m_cmp (start a t) (tr ++ rest) lost /\ cut_short rest /\ (In Done os -> rest = [])
  end.
Proof.
  intros * CL QL Hr w1. apply inv_any in Hr. destruct Hr as [Hw _]. apply wf_kinded in Hw.
  unfold fx_sorted_new. unfold w1. destruct (fxr_bounds f w (node_bounds (snd t))) as [[a|] w0]; cbn [fst snd]; [|reflexivity].
  set (h := match a with Some m => h_push PQ ((m, fst t + 1), INode (snd t)) (h_new PQ) | None => h_new PQ end).
  assert (Hp : Permutation (h_items PQ h) (start a t)).
  { unfold h, start. destruct a as [m|]; [|now rewrite (pq_new _ _ QL)]. rewrite (pq_push _ _ QL), (pq_new _ _ QL). reflexivity. }
  assert (Hk : heap_kinded PQ h).
  { unfold heap_kinded. apply (Forall_perm _ _ _ (Permutation_sym Hp)). unfold start. destruct a as [m|]; repeat constructor.
    rewrite Nat.add_1_r. exact Hw. }
  destruct (fx_sorted_sessions m_cmp CL PQ QL f h gs w0 [] Hk) as (os & h' & w' & tr & rest & lost & E & G1 & G2 & G3 & G4 & G5 & G6 & G7 & G8).
  exists h, os, h', w', tr, rest, lost. splits; auto.
  - unfold h. destruct a; reflexivity.
  - eapply bf_perm; [exact Hp|exact G6].
Qed.
Print Assumptions C64_best_first.

(** What that implies for any ranking: each node and entry is ranked at most once, no entry is yielded twice, and nothing is
    lost unless the ranking panics. *)
Theorem C64_each_once :
  forall (B K V M : Type) (m_cmp : M -> M -> comparison) (a : option M) (t : rtree B K V) tr lost,
  best_first m_cmp (start a t) tr lost ->
  multi_part (founds tr ++ lost) (contents t) /\ multi_part (asked tr) (questions_below (snd t)) /\
  (panicked_on tr = [] -> lost = []).
Proof.
  intros * HB. splits.
  - apply bf_entries in HB. destruct a as [m|]; cbn [start map snd flat_map item_entries] in HB.
    + now rewrite app_nil_r in HB.
    + eapply multi_part_trans; [exact HB|]. eexists. cbn [app]. reflexivity.
  - apply bf_questions in HB. destruct a as [m|]; cbn [start map snd flat_map item_questions] in HB.
    + now rewrite app_nil_r in HB.
    + eapply multi_part_trans; [exact HB|]. eexists. cbn [app]. reflexivity.
  - now apply (bf_no_panic _ _ _ _ HB).
Qed.
Print Assumptions C64_each_once.

Lemma start_lawful_wf {W B K V M : Type} (P : Params B K) (cfg : config) (ok : K -> Prop) (incl : B -> B -> Prop)
    (m_cmp : M -> M -> comparison) (r : Ranking B K (option M)) (PQ : PQueue (ranked B K V M))
    (f : FxRanking W B K M) (t : rtree B K V) (w : W) (gs : list (W -> W)) h w1 os h' w' tr :
  cmp_laws m_cmp -> pqueue_laws (ranked_cmp m_cmp) PQ ->
  opt_ranking_lawful P incl ok m_cmp r -> ranks_as f r -> reachable P cfg any_key t ->
  wf cfg ok (rel_cover P incl) 0 False (fst t) (snd t) ->
  fx_sorted_new PQ f t w = (Some h, w1) ->
  session (traced (fx_sorted_next PQ (rlogged f))) gs h w1 [] = Ok (os, h', w', tr) ->
  let fr := start (bounds_min r (node_bounds (snd t))) t in
  exists rest lost,
    best_first m_cmp fr (tr ++ rest) lost /\ (In Done os -> rest = []) /\ Forall (truthful (bounds_min r) (rank_key r)) (tr ++ rest) /\
    unwound os = length (panicked_on tr) /\ yields os = founds tr /\
    Permutation (filter (has_score (rank_key r)) (flat_map item_entries (map snd fr))) (filter (has_score (rank_key r)) (contents t)) /\
    multi_part (flat_map item_nodes (map snd fr)) (nodes_of (snd t)) /\
    Forall (fun x : ranked B K V M => item_ok m_cmp (bounds_min r) (rank_key r) x /\
      match x with ((m, _), INode n) => bounds_min r (node_bounds n) = Some m | _ => True end) fr.
Proof.
  intros CL QL RL [HA1 HA2] Hr Hw E1 E2 fr.
  assert (H64 := C64_best_first W B K V M P cfg m_cmp PQ f t w gs CL QL Hr). cbv zeta in H64.
  assert (HA := HA1 w (node_bounds (snd t))). unfold fx_sorted_new in E1.
  destruct (fxr_bounds f w (node_bounds (snd t))) as [a w0] eqn:Ef. cbn [fst snd] in *.
  destruct HA as [-> | ->]; [|discriminate].
  destruct H64 as (h2 & os2 & h3 & w2 & tr2 & rest & lost & E4 & E5 & _ & _ & Hp & Hy & HA & HB & Hcut & Hd).
  unfold fx_sorted_new in E4. rewrite Ef, E1 in E4. injection E4 as -> ->. rewrite E2 in E5. injection E5 as <- <- <- <-.
  assert (Hs := node_scored_wf m_cmp (bounds_min r) (rank_key r) P cfg ok incl RL _ _ _ _ Hw). unfold node_scored in Hs.
  assert (Hsc := scored_wf m_cmp (bounds_min r) (rank_key r) P cfg ok incl RL _ _ _ _ Hw).
  assert (Hk := wf_kinded _ _ _ _ _ _ _ Hw).
  exists rest, lost. splits; auto.
  - apply Forall_app. split.
    + eapply Forall_impl; [|exact HA]. intros [[b|k] x|e]; cbn; [| |auto]; intros (w3 & ->); [destruct (HA1 w3 b)|destruct (HA2 w3 k)]; auto.
    + eapply Forall_impl; [|exact Hcut]. intros [[b|k] x|e]; cbn; auto.
  - unfold fr. destruct (bounds_min r (node_bounds (snd t))) as [m|]; cbn [start map snd flat_map item_entries].
    + now rewrite app_nil_r.
    + unfold contents. rewrite (ranked_of_none (rank_key r) (entries (snd t)) Hs). reflexivity.
  - unfold fr. destruct (bounds_min r (node_bounds (snd t))) as [m|]; cbn [start map snd flat_map item_nodes].
    + rewrite app_nil_r. apply multi_part_refl.
    + eexists. cbn [app]. reflexivity.
  - unfold fr. destruct (bounds_min r (node_bounds (snd t))) as [m|] eqn:Em; cbn [start]; repeat constructor; [|exact Em].
    rewrite Nat.add_1_r. cbn. auto.
Qed.

Lemma start_lawful {W B K V M : Type} (P : Params B K) (cfg : config) (ok : K -> Prop) (incl : B -> B -> Prop)
    (m_cmp : M -> M -> comparison) (r : Ranking B K (option M)) (PQ : PQueue (ranked B K V M))
    (f : FxRanking W B K M) (t : rtree B K V) (w : W) (gs : list (W -> W)) h w1 os h' w' tr :
  bounds_laws (bops P) incl -> cmp_laws m_cmp -> pqueue_laws (ranked_cmp m_cmp) PQ ->
  opt_ranking_lawful P incl ok m_cmp r -> ranks_as f r -> reachable P cfg ok t ->
  fx_sorted_new PQ f t w = (Some h, w1) ->
  session (traced (fx_sorted_next PQ (rlogged f))) gs h w1 [] = Ok (os, h', w', tr) ->
  let fr := start (bounds_min r (node_bounds (snd t))) t in
  exists rest lost,
    best_first m_cmp fr (tr ++ rest) lost /\ (In Done os -> rest = []) /\ Forall (truthful (bounds_min r) (rank_key r)) (tr ++ rest) /\
    unwound os = length (panicked_on tr) /\ yields os = founds tr /\
    Permutation (filter (has_score (rank_key r)) (flat_map item_entries (map snd fr))) (filter (has_score (rank_key r)) (contents t)) /\
    multi_part (flat_map item_nodes (map snd fr)) (nodes_of (snd t)) /\
    Forall (fun x : ranked B K V M => item_ok m_cmp (bounds_min r) (rank_key r) x /\
      match x with ((m, _), INode n) => bounds_min r (node_bounds n) = Some m | _ => True end) fr.
Proof.
  intros BL CL QL RL HA Hr E1 E2 fr.
  exact (start_lawful_wf P cfg ok incl m_cmp r PQ f t w gs h w1 os h' w' tr CL QL RL HA (reachable_any _ _ _ _ Hr)
    (proj1 (inv_cover _ _ _ incl _ BL Hr)) E1 E2).
Qed.

(** A lawful ranking (that may panic now and then): before an entry [e] is yielded, only the children of nodes whose lower
    bound is at most the rank of [e] have been ranked, each node's once. *)
Theorem C64_lazy :
  forall (W B K V M : Type) (P : Params B K) (cfg : config) (ok : K -> Prop) (incl : B -> B -> Prop)
    (m_cmp : M -> M -> comparison) (r : Ranking B K (option M)) (PQ : PQueue (ranked B K V M))
    (f : FxRanking W B K M) (t : rtree B K V) (w : W) (gs : list (W -> W)) h w1 os h' w' tr before e after,
  bounds_laws (bops P) incl -> cmp_laws m_cmp -> pqueue_laws (ranked_cmp m_cmp) PQ ->
  opt_ranking_lawful P incl ok m_cmp r -> ranks_as f r -> reachable P cfg ok t ->
  fx_sorted_new PQ f t w = (Some h, w1) ->
  session (traced (fx_sorted_next PQ (rlogged f))) gs h w1 [] = Ok (os, h', w', tr) ->
  tr = before ++ Found e :: after ->
  exists opened me,
    rank_key r (fst e) = Some me /\ multi_part opened (nodes_of (snd t)) /\
    Forall (fun n => exists mn, bounds_min r (node_bounds n) = Some mn /\ m_cmp mn me <> Gt) opened /\
    sublist (asked before) (flat_map (fun n => map item_question (item_children n)) opened).
Proof.
  intros * BL CL QL RL HA Hr E1 E2 E3.
  destruct (start_lawful P cfg ok incl m_cmp r PQ f t w gs _ _ _ _ _ _ BL CL QL RL HA Hr E1 E2) as (rest & lost & HB & _ & HT & _ & _ & _ & Hn & Hok).
  subst tr. rewrite <- app_assoc in HB, HT. cbn [app] in HB, HT.
  destruct (bf_lazy m_cmp CL _ _ _ _ _ HB Hok HT before e (after ++ rest) eq_refl) as (opened & me & H1 & H2 & H3 & H4 & H5).
  exists opened, me. splits; auto. eapply multi_part_trans; eassumption.
Qed.
Print Assumptions C64_lazy.

(** ** C65 a caught panic in a ranking *)

(** What holds: the entries yielded ascend in rank; once the iterator is exhausted every entry with a rank was yielded once,
    or is [lost], that is at or below a child that a panic prevented from being ranked; without panics nothing is lost. *)
Theorem C65_ranking_panics_partial :
  forall (W B K V M : Type) (P : Params B K) (cfg : config) (ok : K -> Prop) (incl : B -> B -> Prop)
    (m_cmp : M -> M -> comparison) (r : Ranking B K (option M)) (PQ : PQueue (ranked B K V M))
    (f : FxRanking W B K M) (t : rtree B K V) (w : W) (gs : list (W -> W)) h w1 os h' w' tr,
  bounds_laws (bops P) incl -> cmp_laws m_cmp -> pqueue_laws (ranked_cmp m_cmp) PQ ->
  opt_ranking_lawful P incl ok m_cmp r -> ranks_as f r -> reachable P cfg ok t ->
  fx_sorted_new PQ f t w = (Some h, w1) ->
  session (traced (fx_sorted_next PQ (rlogged f))) gs h w1 [] = Ok (os, h', w', tr) ->
  ascending_ranks m_cmp r (yields os) /\
  (In Done os -> exists lost,
     best_first m_cmp (start (bounds_min r (node_bounds (snd t))) t) tr lost /\
     Permutation (filter (has_rank r) (contents t)) (yields os ++ filter (has_rank r) lost) /\
     (unwound os = 0 -> lost = [])).
Proof.
  intros * BL CL QL RL HA Hr E1 E2.
  destruct (start_lawful P cfg ok incl m_cmp r PQ f t w gs _ _ _ _ _ _ BL CL QL RL HA Hr E1 E2) as (rest & lost & HB & Hd & HT & Hu & Hy & Hp & Hn & Hok).
  destruct (bf_lawful m_cmp CL _ _ _ _ _ HB Hok HT) as [H1 H2]. rewrite founds_app in H1, H2. rewrite Hy. split.
  - assert (H3 : ForallOrdPairs (rank_le m_cmp (rank_key r)) (founds tr)).
    { clear -H2. induction (founds tr) as [|x l IH]; [constructor|]. cbn in H2. inversion H2 as [|? ? Hx Hl]; subst. apply Forall_app in Hx as [Hx _].
      constructor; [exact Hx|auto]. }
    clear -H3. induction H3 as [|x l Hx _ IH]; constructor; [|exact IH].
    eapply Forall_impl; [|exact Hx]. intros y Hy. unfold rank_le in Hy.
    destruct (rank_key r (fst x)) as [a|], (rank_key r (fst y)) as [b|]; try contradiction. eauto.
  - intros HD. rewrite (Hd HD) in *. rewrite app_nil_r in *. exists lost. splits; auto.
    + change (has_rank (V := V) r) with (has_score (V := V) (rank_key r)). rewrite <- Hp, H1. reflexivity.
    + rewrite Hu. intros H0. apply length_zero_iff_nil in H0. exact (bf_no_panic _ _ _ _ HB H0).
Qed.
Print Assumptions C65_ranking_panics_partial.

(** A ranking by the first coordinate that counts its calls and panics on call number [c] (and [d]). *)
Definition shaky (c d : nat) : FxRanking nat (saabb i32 2) (svec i32 2) i32 := {|
  fxr_bounds := fun w b => ((if (w =? c) || (w =? d) then None else Some (Some (bounds_min by_x b))), S w);
  fxr_key := fun w k => ((if (w =? c) || (w =? d) then None else Some (Some (rank_key by_x k))), S w) |}.
Definition by_x_opt : Ranking (saabb i32 2) (svec i32 2) (option i32) :=
  {| bounds_min := fun b => Some (bounds_min by_x b); rank_key := fun k => Some (rank_key by_x k) |}.
Lemma by_x_opt_lawful : opt_ranking_lawful PP (box_incl i32_ops) any_key i32_cmp by_x_opt.
Proof. exact (opt_of_ranking PP _ _ _ _ by_x_lawful). Qed.
Lemma shaky_ranks c d : ranks_as (shaky c d) by_x_opt.
Proof. split; intros w x; cbn [shaky fxr_bounds fxr_key fst]; destruct (_ || _); auto. Qed.

Definition outcome_code {A} (o : outcome A) : nat := match o with Yield _ => 1 | Done => 0 | Panicked => 2 end.
Notation SLQ := (LQ (B := saabb i32 2) (K := svec i32 2) (V := nat)).
Definition shaky_run (c d n : nat) :=
  match fx_sorted_new SLQ (shaky c d) sample 0 with
  | (None, _) => Panic
  | (Some h, w) => session (traced (fx_sorted_next SLQ (rlogged (shaky c d)))) (repeat (fun w => w) n) h w []
  end.
Definition run_codes (c d n : nat) : list nat := match shaky_run c d n with Ok (os, _, _, _) => map outcome_code os | _ => [] end.
Definition run_values (c d n : nat) : list nat := match shaky_run c d n with Ok (os, _, _, _) => map snd (yields os) | _ => [] end.
(** The trace: entries that were yielded, nodes (0) and keys (1) that were asked about. *)
Definition run_trace (c d n : nat) : list (nat * nat) :=
  match shaky_run c d n with
  | Ok (_, _, _, tr) => map (fun ev => match ev with Found e => (2, snd e) | Asked (QBounds _) _ => (0, 0) | Asked (QKey _) _ => (1, 0) end) tr
  | _ => []
  end.
Definition key_code (q : fquestion (saabb i32 2) (svec i32 2)) : list Z :=
  match q with QBounds _ => [] | QKey k => map i32_val (vlist k) end.
Definition run_panics (c d n : nat) : list (list Z) :=
  match shaky_run c d n with Ok (_, _, _, tr) => map key_code (panicked_on tr) | _ => [] end.

Lemma code_done {A} (os : list (outcome A)) : existsb (Nat.eqb 0) (map outcome_code os) = true -> In Done os.
Proof. intros H. apply existsb_exists in H as (x & H & Hx). apply in_map_iff in H as ([a| |] & <- & Ho); try discriminate. exact Ho. Qed.
Lemma not_yielded {A} (l : list (A * nat)) e : existsb (Nat.eqb (snd e)) (map snd l) = false -> ~ In e l.
Proof. intros H Hin. assert (existsb (Nat.eqb (snd e)) (map snd l) = true); [|congruence]. apply existsb_exists. exists (snd e). split; [now apply in_map|apply Nat.eqb_refl]. Qed.
Lemma find_value (l : list (svec i32 2 * nat)) (v : nat) (c : list Z) :
  map (fun e => map i32_val (vlist (fst e))) (filter (fun e => snd e =? v) l) = [c] ->
  exists e, In e l /\ snd e = v /\ map i32_val (vlist (fst e)) = c.
Proof.
  intros H. destruct (filter _ l) as [|e l'] eqn:E; [discriminate|]. injection H as H _. exists e.
  assert (Hin : In e (filter (fun e => snd e =? v) l)) by (rewrite E; now left). apply filter_In in Hin as [Hin Hs].
  apply Nat.eqb_eq in Hs. auto.
Qed.
Lemma sample_8 : map (fun e => map i32_val (vlist (fst e))) (filter (fun e => snd e =? 8) (contents sample)) = [[2; 9]]%Z.
Proof. vm_compute. reflexivity. Qed.

(** The claim one would expect, that only the entry whose ranking panicked is missed, is false: a second entry of the same leaf
    is never yielded. *)
Theorem C65_ranking_panics_refuted :
  exists (cfg : config) (t : rtree (saabb i32 2) (svec i32 2) nat) (r : Ranking (saabb i32 2) (svec i32 2) (option i32))
    (f : FxRanking nat (saabb i32 2) (svec i32 2) i32) (PQ : PQueue (ranked (saabb i32 2) (svec i32 2) nat i32))
    (gs : list (nat -> nat)) h w1 os h' w' tr e,
  reachable PP cfg any_key t /\ opt_ranking_lawful PP (box_incl i32_ops) any_key i32_cmp r /\ ranks_as f r /\
  pqueue_laws (ranked_cmp i32_cmp) PQ /\
  fx_sorted_new PQ f t 0 = (Some h, w1) /\
  session (traced (fx_sorted_next PQ (rlogged f))) gs h w1 [] = Ok (os, h', w', tr) /\ In Done os /\
  In e (contents t) /\ has_rank r e = true /\ ~ In e (yields os) /\
  length (panicked_on tr) = 1 /\ forall q, In q (panicked_on tr) -> exists k, q = QKey k /\ k <> fst e.
Proof.
  assert (Hc : run_codes 7 1000 24 = [2; 1; 1; 1; 1; 1; 1; 1; 1; 1; 1; 1; 1; 1; 1; 1; 1; 1; 1; 1; 1; 0; 0; 0]) by (vm_compute; reflexivity).
  assert (Hv : run_values 7 1000 24 = [1; 14; 33; 6; 5; 29; 11; 15; 17; 10; 9; 2; 21; 22; 23; 27; 24; 25; 26; 28]) by (vm_compute; reflexivity).
  assert (Hp : run_panics 7 1000 24 = [[0; 9]]%Z) by (vm_compute; reflexivity).
  unfold run_codes, run_values, run_panics, shaky_run in *.
  destruct (fx_sorted_new SLQ (shaky 7 1000) sample 0) as [[h|] w1] eqn:E1; [|discriminate].
  destruct (session (traced (fx_sorted_next SLQ (rlogged (shaky 7 1000)))) (repeat (fun w => w) 24) h w1 []) as [[[[os h'] w'] tr]| | |] eqn:E2; try discriminate.
  assert (He : exists e, In e (contents sample) /\ snd e = 8 /\ map i32_val (vlist (fst e)) = [2; 9]%Z).
  { exact (find_value (contents sample) 8 [2; 9]%Z sample_8). }
  destruct He as (e & Hin & Hs & Hz).
  exists (cfg_of 4 2), sample, by_x_opt, (shaky 7 1000), SLQ, (repeat (fun w => w) 24), h, w1, os, h', w', tr, e.
  split; [exact sample_reachable|]. split; [exact by_x_opt_lawful|]. split; [apply shaky_ranks|]. split; [exact LQ_laws|].
  split; [exact E1|]. split; [exact E2|]. split.
  { apply code_done. rewrite Hc. reflexivity. }
  split; [exact Hin|]. split; [reflexivity|]. split.
  { apply not_yielded. rewrite Hv, Hs. reflexivity. }
  split; [rewrite <- (map_length key_code (panicked_on tr)), Hp; reflexivity|].
  clear E1 E2 Hc Hv.
  intros q Hq. apply (in_map key_code) in Hq. rewrite Hp in Hq. destruct Hq as [Hq|[]]. destruct q as [b|k]; cbn [key_code] in Hq; [discriminate|].
  exists k. split; [reflexivity|]. intros ->. rewrite Hz in Hq. discriminate.
Qed.
Print Assumptions C65_ranking_panics_refuted.

(** Without panics: the nodes and keys asked about, and the entries yielded, in order.  The entry 12 comes out after 8 of the 33
    questions below the root. *)
Example C64_case :
  cmp_laws i32_cmp /\ pqueue_laws (ranked_cmp i32_cmp) SLQ /\ opt_ranking_lawful PP (box_incl i32_ops) any_key i32_cmp by_x_opt /\
  ranks_as (shaky 1000 1000) by_x_opt /\
  firstn 16 (run_trace 1000 1000 24) =
    [(0, 0); (0, 0); (0, 0); (0, 0); (0, 0); (0, 0); (1, 0); (1, 0); (2, 12); (0, 0); (0, 0); (0, 0); (1, 0); (1, 0); (1, 0); (2, 1)] /\
  length (questions_below (snd sample)) = 33.
Proof.
  split; [exact i32_cmp_laws|]. split; [exact LQ_laws|]. split; [exact by_x_opt_lawful|]. split; [apply shaky_ranks|].
  split; vm_compute; reflexivity.
Qed.
