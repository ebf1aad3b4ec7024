(** C78: user code that answers as it likes. *)
From Verif Require Export WildForest IterProof FxProof.
From Verif Require Import FxLeftProof PropFxLeft HeapProof.

(** Whatever the user's [Bounds], [Bounded], [Volume], [Contains], [Intersects], [Eq], [Borrow] and [Clone] answer, each time
    anew, and whichever of their calls panic: there is no undefined behaviour, and everything ever allocated, cloned or
    handed over is destroyed, or was given back, or is in a tree, or was leaked, each exactly once.  Only a call that
    panicked leaks.  (Without the hypothesis: C48_no_ub_refuted.) *)
Theorem C78_no_ub :
  forall (B K V N : Type) (crash : nat -> bool) (bdrop : bool) (O : nat -> nat -> answers B K V N) (U : numops N) (os : list (wop B K V)),
  Forall (wunwind_ok bdrop) os ->
  exists outs F s leaked, wrun crash bdrop O U [] os xinit = Some ((outs, F), s) /\
    length outs = length os /\
    Permutation (x_made s ++ flat_map wgiven os) (x_gone s ++ got_back outs ++ xforest_things bdrop F ++ leaked) /\
    (Forall (fun o => o <> None) outs -> leaked = []).
Proof.
  intros * Hu. destruct (wrun_init crash bdrop False O U os [] ltac:(tauto) Hu ltac:(tauto)) as (outs & F & s & lost & E & _ & Hl & Ho & Hn & _).
  exists outs, F, s, lost. splits; auto. destruct Ho as [_ _ _ Ho]. rewrite app_nil_r in Ho. rewrite Ho. cbn [flat_map]. perm.
Qed.
Print Assumptions C78_no_ub.

(** Vectors and stored bounds: what a tree owns is alive, and no two places of the trees own the same. *)
Theorem C78_owned_once :
  forall (B K V N : Type) (crash : nat -> bool) (bdrop : bool) (O : nat -> nat -> answers B K V N) (U : numops N) (os : list (wop B K V)) outs F s,
  Forall (wunwind_ok bdrop) os ->
  wrun crash bdrop O U [] os xinit = Some ((outs, F), s) ->
  NoDup (objs (x_gone s ++ xforest_things bdrop F)) /\
  forall x, In x (objs (xforest_things bdrop F)) -> In x (x_made s) /\ ~ In x (x_gone s).
Proof.
  intros * Hu E. destruct (wrun_init crash bdrop False O U os [] ltac:(tauto) Hu ltac:(tauto)) as (outs' & F' & s' & lost & E' & _ & _ & Ho & _).
  rewrite E in E'. injection E' as <- <- <-. assert (Hob := xown_objs _ _ _ Ho). destruct Ho as [_ Hnd _ _].
  rewrite !objs_app in Hob. cbn [flat_map] in Hob.
  assert (Hp : Permutation (objs (x_made s)) (objs (x_gone s ++ xforest_things bdrop F) ++ objs (got_back outs) ++ objs lost)).
  { rewrite Hob, objs_app. change (objs (@nil (xthing K V))) with (@nil (xthing K V)). perm. }
  assert (Hnd' := Permutation_NoDup Hp Hnd).
  assert (Hn : NoDup (objs (x_gone s ++ xforest_things bdrop F))).
  { clear - Hnd'. revert Hnd'. generalize (objs (x_gone s ++ xforest_things bdrop F)). induction l as [|x l IH]; cbn; intros H; [constructor|].
    inversion H as [|? ? Hx Hl]; subst. constructor; [|now apply IH]. intros Hin. apply Hx, in_or_app. now left. }
  split; [exact Hn|]. intros x Hx. split.
  - assert (Hin : In x (objs (x_made s))).
    { eapply Permutation_in; [symmetry; exact Hp|]. apply in_or_app. left. rewrite objs_app. apply in_or_app. now right. }
    now apply in_objs in Hin.
  - intros Hg. rewrite objs_app in Hn. assert (Hg' : In x (objs (x_gone s))) by (apply in_objs; split; [exact Hg|now apply in_objs in Hx]).
    clear - Hn Hx Hg'. induction (objs (x_gone s)) as [|y l IH]; [contradiction|]. cbn in Hn. inversion Hn as [|? ? H1 H2]; subst.
    destruct Hg' as [->|Hg']; [apply H1, in_or_app; now right|now apply IH].
Qed.
Print Assumptions C78_owned_once.

(** From any state a program can reach, a call has the documented effect on the contents of the trees, taking "equal" to mean
    that user code said so during the call and "clone" to mean what user code returned; or it unwinds, has touched no other
    tree, and its tree holds only entries it had before or was being given. *)
Theorem C78_every_call :
  forall (B K V N : Type) (crash : nat -> bool) (bdrop : bool) (O : nat -> nat -> answers B K V N) (U : numops N) (os : list (wop B K V)) o outs F s,
  Forall (wunwind_ok bdrop) (os ++ [o]) ->
  wrun crash bdrop O U [] os xinit = Some ((outs, F), s) ->
  exists r s', wstep crash bdrop O U F o s = Some (r, s') /\
  match r with
  | inl (x, F') => wdone_as O (x_calls s) (x_calls s') o x (xforget_forest F) (xforget_forest F')
  | inr F' => wleft_behind O (x_calls s) (x_calls s') o (xforget_forest F) (xforget_forest F')
  end.
Proof.
  intros * Hu E. apply Forall_app in Hu as [Hu Ho1]. inversion Ho1 as [|? ? Hu1 _]; subst.
  destruct (wrun_init crash bdrop False O U os [o] ltac:(tauto) Hu ltac:(tauto)) as (outs' & F' & s' & lost & E' & HF & _ & Ho & _).
  rewrite E in E'. injection E' as <- <- <-.
  destruct (wstep_spec crash bdrop (flat_map wgiven (os ++ [o])) False ltac:(tauto) O U (x_calls s) F o HF Hu1 ltac:(tauto) s (got_back outs ++ lost) eq_refl)
    as (r & s1 & E1 & _ & HR).
  { eapply xown_perm; [|exact Ho]. cbn [flat_map]. perm. }
  exists r, s1. split; [exact E1|]. destruct r as [[x F1]|F1].
  - destruct HR as ([_ Hd] & _). exact Hd.
  - destruct HR as (_ & [_ Hd] & _). exact Hd.
Qed.
Print Assumptions C78_every_call.

(** In every tree a program can reach, [len], iteration and destruction see exactly the entries stored. *)
Theorem C78_trees_sound :
  forall (B K V N : Type) (crash : nat -> bool) (bdrop : bool) (O : nat -> nat -> answers B K V N) (U : numops N) (os : list (wop B K V))
    outs F s i cfg t,
  Forall (wunwind_ok bdrop) os ->
  wrun crash bdrop O U [] os xinit = Some ((outs, F), s) ->
  ptree_at (xforget_forest F) i = Some (cfg, t) ->
  rtree_len t = Ok (length (contents t)) /\
  (exists st, rtree_iter t = Ok st /\ iterates iter_next st (contents t)) /\
  (exists l, rtree_drop t = Ok l /\ Permutation l (contents t)).
Proof.
  intros * Hu E Et. destruct (wrun_init crash bdrop False O U os [] ltac:(tauto) Hu ltac:(tauto)) as (outs' & F' & s' & lost & E' & HF & _ & _ & _).
  rewrite E in E'. injection E' as <- <- <-. assert (Hw := fwf_wf bdrop F i cfg t (yforest_fwf _ _ _ HF) Et). splits.
  - eapply node_len_spec, Hw.
  - eapply iter_wf, Hw.
  - eapply drop_node_spec, Hw.
Qed.
Print Assumptions C78_trees_sound.

(** Queries on such trees, with filters of the same kind: [next] never reads a node as the wrong kind, asks about each node
    and entry at most once, in order, never below a rejected one, and yields exactly the entries accepted (see C62). *)
Theorem C78_queries :
  forall (B K V N : Type) (crash : nat -> bool) (bdrop : bool) (O : nat -> nat -> answers B K V N) (U : numops N) (os : list (wop B K V))
    outs F s i cfg t (W Q : Type) (brw : K -> Q) (f : FxFilter W B Q) (w : W) (gs : list (W -> W)),
  Forall (wunwind_ok bdrop) os ->
  wrun crash bdrop O U [] os xinit = Some ((outs, F), s) ->
  ptree_at (xforget_forest F) i = Some (cfg, t) ->
  let b := node_bounds (snd t) in
  let w1 := snd (fx_bounds f w b) in
  match fst (fx_bounds f w b) with
  | None => fx_filter_iter f t w = Ok (None, w1)
  | Some yes =>
    exists st os st' w' log rest out missed,
      fx_filter_iter f t w = Ok (Some st, w1) /\
      session (fx_iter_next brw (logged f)) gs st w1 [] = Ok (os, st', w', log) /\
      length os = length gs /\ fused os /\ unwound os = panics log /\ Forall (f_answered f) log /\
      explore [tree_search brw (snd t)] ((QBounds b, Some yes) :: log ++ rest) (yields os ++ out) missed /\
      (In Done os -> rest = [] /\ out = [])
  end.
Proof.
  intros * Hu E Et b w1. destruct (wrun_init crash bdrop False O U os [] ltac:(tauto) Hu ltac:(tauto)) as (outs' & F' & s' & lost & E' & HF & _ & _ & _).
  rewrite E in E'. injection E' as <- <- <-. assert (Hw := fwf_wf bdrop F i cfg t (yforest_fwf _ _ _ HF) Et). apply wf_kinded in Hw. clear - Hw.
  unfold fx_filter_iter. fold b. unfold w1. destruct (fx_bounds f w b) as [[[|]|] w0]; cbn [fst snd].
  - destruct (fx_iter_new brw t Hw) as (st & E1 & H1 & H2). rewrite E1. cbn [bind].
    destruct (fx_iter_sessions brw f st gs w0 [] H1) as (os & st' & w' & used & rest & out & missed & E2 & G1 & G2 & G3 & G4 & G5 & G6).
    exists st, os, st', w', used, rest, out, missed. splits; auto.
    rewrite tree_search_eq. apply ex_below. rewrite app_nil_r. now rewrite <- H2.
  - assert (H1 : stack_ok (@iter_new_empty B K V)) by (intros [|j] x; discriminate).
    destruct (fx_iter_sessions brw f _ gs w0 [] H1) as (os & st' & w' & used & rest & out & missed & E2 & G1 & G2 & G3 & G4 & G5 & G6).
    exists iter_new_empty, os, st', w', used, rest, out, missed. splits; auto.
    rewrite tree_search_eq. apply ex_skip. exact G5.
  - reflexivity.
Qed.
Print Assumptions C78_queries.

(** The same for a join of two such trees. *)
Theorem C78_joins :
  forall (B0 K0 V0 N0 B1 K1 V1 N1 : Type) (crash0 crash1 : nat -> bool) (bdrop0 bdrop1 : bool)
    (O0 : nat -> nat -> answers B0 K0 V0 N0) (O1 : nat -> nat -> answers B1 K1 V1 N1) (U0 : numops N0) (U1 : numops N1)
    (os0 : list (wop B0 K0 V0)) (os1 : list (wop B1 K1 V1)) outs0 F0 s0 i0 cfg0 t0 outs1 F1 s1 i1 cfg1 t1
    (W Q0 Q1 : Type) (brw0 : K0 -> Q0) (brw1 : K1 -> Q1) (f : FxJoinFilter W B0 B1 Q0 Q1) (w : W) (gs : list (W -> W)),
  Forall (wunwind_ok bdrop0) os0 -> Forall (wunwind_ok bdrop1) os1 ->
  wrun crash0 bdrop0 O0 U0 [] os0 xinit = Some ((outs0, F0), s0) -> wrun crash1 bdrop1 O1 U1 [] os1 xinit = Some ((outs1, F1), s1) ->
  ptree_at (xforget_forest F0) i0 = Some (cfg0, t0) -> ptree_at (xforget_forest F1) i1 = Some (cfg1, t1) ->
  let b0 := node_bounds (snd t0) in
  let b1 := node_bounds (snd t1) in
  let w1 := snd (fxj_bounds f w b0 b1) in
  match fst (fxj_bounds f w b0 b1) with
  | None => fx_join f t0 t1 w = Ok (None, w1)
  | Some yes =>
    exists it os it' w' log rest out missed,
      fx_join f t0 t1 w = Ok (Some it, w1) /\
      session (fx_join_next brw0 brw1 (jlogged f)) gs it w1 [] = Ok (os, it', w', log) /\
      length os = length gs /\ fused os /\ unwound os = panics log /\ Forall (j_answered f) log /\
      explore [pair_search brw0 brw1 (Nat.max (fst t0) (fst t1)) (snd t0) (snd t1)]
        ((QBounds2 b0 b1, Some yes) :: log ++ rest) (yields os ++ out) missed /\
      (In Done os -> rest = [] /\ out = [])
  end.
Proof.
  intros * Hu0 Hu1 R0 R1 T0 T1 b0 b1 w1.
  destruct (wrun_init crash0 bdrop0 False O0 U0 os0 [] ltac:(tauto) Hu0 ltac:(tauto)) as (x1 & x2 & x3 & x4 & E' & HF0 & _ & _ & _).
  rewrite R0 in E'. injection E' as <- <- <-. assert (Hw0 := fwf_wf bdrop0 F0 i0 cfg0 t0 (yforest_fwf _ _ _ HF0) T0). apply wf_kinded in Hw0.
  destruct (wrun_init crash1 bdrop1 False O1 U1 os1 [] ltac:(tauto) Hu1 ltac:(tauto)) as (x1 & x2 & x3 & x5 & E' & HF1 & _ & _ & _).
  rewrite R1 in E'. injection E' as <- <- <-. assert (Hw1 := fwf_wf bdrop1 F1 i1 cfg1 t1 (yforest_fwf _ _ _ HF1) T1). apply wf_kinded in Hw1.
  clear - Hw0 Hw1.
  unfold fx_join. fold b0 b1. unfold w1. destruct (fxj_bounds f w b0 b1) as [[[|]|] w0]; cbn [fst snd].
  - destruct (fx_join_start brw0 brw1 t0 t1 Hw0 Hw1) as (st & E1 & H1 & H2). cbv zeta in E1, H1, H2. rewrite E1. cbn [bind].
    set (h := Nat.max (fst t0) (fst t1)) in *.
    assert (Hpad : h - fst t0 = 0 \/ h - fst t1 = 0) by (unfold h; lia).
    destruct (fx_join_sessions brw0 brw1 f _ _ Hpad st gs w0 [] H1) as (os & st' & w' & used & rest & out & missed & E2 & G1 & G2 & G3 & G4 & G5 & G6).
    exists (st, (h - fst t0, h - fst t1)), os, st', w', used, rest, out, missed. splits; auto.
    change (pair_search brw0 brw1 h (snd t0) (snd t1)) with (pair_group brw0 brw1 h (snd t0, snd t1)).
    rewrite pair_group_eq. apply ex_below. rewrite app_nil_r. now rewrite <- H2.
  - assert (H1 : jstack_ok 0 0 0 (@stack_empty (product (K0 * V0) (K1 * V1)) (product (node B0 K0 V0) (node B1 K1 V1)))) by exact I.
    destruct (fx_join_sessions brw0 brw1 f 0 0 (or_introl eq_refl) _ gs w0 [] H1) as (os & st' & w' & used & rest & out & missed & E2 & G1 & G2 & G3 & G4 & G5 & G6).
    exists (stack_empty, (0, 0)), os, st', w', used, rest, out, missed. splits; auto.
    set (h := Nat.max (fst t0) (fst t1)).
    change (pair_search brw0 brw1 h (snd t0) (snd t1)) with (pair_group brw0 brw1 h (snd t0, snd t1)).
    rewrite pair_group_eq. apply ex_skip. exact G5.
  - reflexivity.
Qed.
Print Assumptions C78_joins.

(** And for a left join of two such trees: the left entries come one after the other, and the iterators that come with them
    can be used like any other. *)
Theorem C78_left_joins :
  forall (B0 K0 V0 N0 B1 K1 V1 N1 : Type) (crash0 crash1 : nat -> bool) (bdrop0 bdrop1 : bool)
    (O0 : nat -> nat -> answers B0 K0 V0 N0) (O1 : nat -> nat -> answers B1 K1 V1 N1) (U0 : numops N0) (U1 : numops N1)
    (os0 : list (wop B0 K0 V0)) (os1 : list (wop B1 K1 V1)) outs0 F0 s0 i0 cfg0 t0 outs1 F1 s1 i1 cfg1 t1
    (W F Q0 Q1 : Type) (f : FxLeft W F B0 B1 K0 Q0 Q1) (flt : F) (w : W) (gs : list (W -> W)),
  Forall (wunwind_ok bdrop0) os0 -> Forall (wunwind_ok bdrop1) os1 ->
  wrun crash0 bdrop0 O0 U0 [] os0 xinit = Some ((outs0, F0), s0) -> wrun crash1 bdrop1 O1 U1 [] os1 xinit = Some ((outs1, F1), s1) ->
  ptree_at (xforget_forest F0) i0 = Some (cfg0, t0) -> ptree_at (xforget_forest F1) i1 = Some (cfg1, t1) ->
  exists it os it' w' log rest,
    rtree_left_join t0 t1 = Ok it /\
    session (fx_left_next (llogged f) flt) gs it w [] = Ok (os, it', w', log) /\
    length os = length gs /\ fused os /\ unwound os = panics log /\
    left_walk (snd t0) (contents t0) os log rest /\ (In Done os -> rest = []) /\
    forall e sr j, In (e, (sr, j)) (yields os) ->
    forall (brw1 : K1 -> Q1) (gs2 : list (W -> W)) (w2 : W),
    exists os2 sr' w3 log2 rest2 out2 missed,
      session (fx_iter_next brw1 (logged (fx_joining_filter f j))) gs2 sr w2 [] = Ok (os2, sr', w3, log2) /\
      length os2 = length gs2 /\ fused os2 /\ unwound os2 = panics log2 /\
      explore (stack_search brw1 sr) (log2 ++ rest2) (yields os2 ++ out2) missed /\
      (In Done os2 -> rest2 = [] /\ out2 = []).
Proof.
  intros * Hu0 Hu1 R0 R1 T0 T1.
  destruct (wrun_init crash0 bdrop0 False O0 U0 os0 [] ltac:(tauto) Hu0 ltac:(tauto)) as (x1 & x2 & x3 & x4 & E' & HF0 & _ & _ & _).
  rewrite R0 in E'. injection E' as <- <- <-. assert (H0 := fwf_wf bdrop0 F0 i0 cfg0 t0 (yforest_fwf _ _ _ HF0) T0). apply wf_kinded in H0.
  destruct (wrun_init crash1 bdrop1 False O1 U1 os1 [] ltac:(tauto) Hu1 ltac:(tauto)) as (x1 & x2 & x3 & x5 & E' & HF1 & _ & _ & _).
  rewrite R1 in E'. injection E' as <- <- <-. assert (H1 := fwf_wf bdrop1 F1 i1 cfg1 t1 (yforest_fwf _ _ _ HF1) T1). apply wf_kinded in H1.
  clear - H0 H1.
  pose (Kd0 := fun k n => kinded k n /\ below_or_at (snd t0) n). pose (Kd1 := fun k (n : node B1 K1 V1) => kinded k n).
  destruct (left_join_start Kd0 Kd1 t0 t1 (fun _ _ => True) (conj H0 (boa_root _)) H1) as (L & R & E & Hi & Hp).
  destruct (left_session_spec f flt Kd0 Kd1 (below_kd _ _ kinded_kd) kinded_kd (below_leaf _ _ kinded_leaf) kinded_leaf
    (snd t0) (fun k n H => proj2 H) (snd t1) (fun _ _ => True) (fun _ => I) (fun _ _ _ _ _ _ _ _ _ => I) gs L R w [] Hi)
    as (os & L' & R' & w' & used & E2 & G1 & G2 & G3 & G4 & G5 & G6).
  exists (L, R), os, (L', R'), w', used, (pend0 L'). rewrite Hp in G4. splits; auto.
  intros e sr j Hin brw1 gs2 w2. rewrite Forall_forall in G6. specialize (G6 _ Hin). destruct G6 as [[Hs _] _]. cbn [fst snd] in Hs.
  assert (Hok : stack_ok sr) by (eapply okP_stack_ok; [|exact Hs]; intros k n Hn; exact Hn).
  destruct (fx_iter_sessions brw1 (fx_joining_filter f j) sr gs2 w2 [] Hok) as (os2 & st2 & w3 & used2 & rest2 & out2 & missed & F1 & F2 & F3 & F4 & F5 & F6 & F7).
  exists os2, st2, w3, used2, rest2, out2, missed. splits; auto.
Qed.
Print Assumptions C78_left_joins.

(** And for ordered iterators, even if the [Ord] of the metric is as senseless. *)
Theorem C78_ordered :
  forall (B K V N : Type) (crash : nat -> bool) (bdrop : bool) (O : nat -> nat -> answers B K V N) (U : numops N) (os0 : list (wop B K V))
    outs F s i cfg t (W M : Type) (H : FxHeap W (ranked B K V M)) (f : FxRanking W B K M) (w : W) (gs : list (W -> W)),
  Forall (wunwind_ok bdrop) os0 ->
  wrun crash bdrop O U [] os0 xinit = Some ((outs, F), s) ->
  ptree_at (xforget_forest F) i = Some (cfg, t) ->
  encapsulated H ->
  let (a, w0) := fxr_bounds f w (node_bounds (snd t)) in
  match fh_sorted_new H f t w with
  | (None, _) => a = None \/ exists m, a = Some (Some m) /\ fst (fst (fh_push H w0 ((m, fst t + 1), INode (snd t)) (fh_new H))) = true
  | (Some h, w1) =>
    exists ranks os h' w' tr,
      a = Some ranks /\
      session (traced (fh_sorted_next (hlogged H) (rlogged f))) gs h w1 [] = Ok (os, h', w', tr) /\
      length os = length gs /\ yields os = founds tr /\ Forall (r_answered f) tr /\
      (exists lost, any_first True (start ranks t) tr lost) /\
      (lossless H -> unwound os = 0 ->
       exists rest lost, any_first False (start ranks t) (tr ++ rest) lost /\ cut_short rest /\ (In Done os -> rest = []))
  end.
Proof.
  intros * Hu E Et EH. destruct (wrun_init crash bdrop False O U os0 [] ltac:(tauto) Hu ltac:(tauto)) as (outs' & F' & s' & lost & E' & HF & _ & _ & _).
  rewrite E in E'. injection E' as <- <- <-. assert (Hw := fwf_wf bdrop F i cfg t (yforest_fwf _ _ _ HF) Et). apply wf_kinded in Hw.
  clear - Hw EH. now apply heap_search.
Qed.
Print Assumptions C78_ordered.

(** If user code does not panic, and [min_children] is 0 or between 2 and [max_children - 2], no call panics, and all nodes
    are as full as the configuration promises. *)
Theorem C78_no_panic :
  forall (B K V N : Type) (crash : nat -> bool) (bdrop : bool) (O : nat -> nat -> answers B K V N) (U : numops N) (os : list (wop B K V)),
  (forall n, crash n = false) -> Forall modest_op os ->
  exists outs F s, wrun crash bdrop O U [] os xinit = Some ((outs, F), s) /\
    Forall (fun o => o <> None) outs /\
    forall i cfg t, ptree_at (xforget_forest F) i = Some (cfg, t) -> well_filled cfg t.
Proof.
  intros * Hc Hm.
  assert (Hu : Forall (wunwind_ok bdrop) os).
  { eapply Forall_impl; [|exact Hm]. intros o. unfold modest_op, wunwind_ok, modest. destruct o; auto. intros H. right. lia. }
  destruct (wrun_init crash bdrop True O U os [] (fun _ => Hc) Hu (fun _ => Hm)) as (outs & F & s & lost & E & HF & _ & _ & _ & Hall).
  exists outs, F, s. splits; auto. intros i cfg t Et. exact (yforest_filled bdrop True F i cfg t Logic.I HF Et).
Qed.
Print Assumptions C78_no_panic.

(** *** User code without any sense: every answer depends on the number of the call *)
Definition hash (n j m : nat) : nat := ((n * 7 + j * 5 + n * j) mod 11) mod m.
Definition senseless (n j : nat) : answers nat nat nat nat := {|
  w_empty := hash n j 5;
  w_union := fun a b => if Nat.even (n + j) then a + b else hash n j 9;
  w_union_all := fun l => length l + hash n j 7;
  w_contains := fun a b => Nat.even (a + b + n + j);
  w_intersects := fun a b => Nat.odd (a + n * j);
  w_volume := fun b => b + hash n j 6;
  w_bounds := fun k => k * hash n j 3;
  w_eq := fun a b => (a + b + n) mod 5 =? 0;
  w_clone_b := fun b => b + n;
  w_clone_k := fun k => k + 10 * n;
  w_clone_v := fun v => v + 100 |}.
(** Numbers that compare in a circle and whose difference is nonsense. *)
Definition circular : numops nat := {|
  nu_sub := fun a b => a * b + 1;
  nu_cmp := fun a b => Nat.compare ((a + b) mod 3) 1;
  nu_neg_inf := 4 |}.
Definition senseless_q (n j : nat) : qanswers nat nat nat := {|
  wq_borrow := fun k => k + n; wq_eq := fun a b => Nat.even (a + b); wq_bounds := fun q => hash n j 8 |}.
Definition w_program : list (wop nat nat nat) :=
  [WNew {| max_children := 4; min_children := 2 |}] ++ map (fun k => WInsert 0 k (k + 50)) (seq 0 12) ++
  map (fun k => WInsertUnique 0 k (k + 70)) [3; 5; 20; 21; 22] ++
  map (fun q => WRemove 0 _ senseless_q q) [4; 11; 0; 7; 9] ++ [WReplace 0 _ senseless_q 5 99; WClone 0; WDrop 0].
(** What the calls gave back, and for every tree its height and entries. *)
Definition w_summary {B K V} (r : option ((list (option (list (xthing K V))) * xforest B K V) * xmem K V)) :=
  match r with
  | Some ((outs, F), _) => Some (outs, map (option_map (fun ct => (fst (snd ct), xentries (snd (snd ct))))) F)
  | None => None
  end.

Example C78_example :
  Forall modest_op w_program /\ Forall (wunwind_ok true) w_program /\
  w_summary (wrun (fun _ => false) true senseless circular [] w_program xinit) =
    Some (repeat (Some []) 13 ++ [Some [XVal 51]; Some [XVal 50]; Some [XVal 73]; Some [XVal 55]; Some [XVal 58]; Some [XVal 91];
            Some [XVal 90]; Some [XVal 56]; Some []; Some []; Some [XVal 99]; Some []; Some []],
          [None; Some (1, [(1534, 154); (1550, 175); (1590, 160); (1603, 153); (1622, 152); (1657, 157); (1678, 192); (1699, 159); (1721, 161)])]) /\
  w_summary (wrun (fun n => n mod 17 =? 9) true senseless circular [] w_program xinit) =
    Some ([Some []; Some []; Some []; None; Some []; None; Some []; None; Some []; None; Some []; None; Some [];
           Some [XVal 50]; Some [XVal 61]; Some [XVal 54]; Some [XVal 75]; None; Some [XVal 55]; Some [XVal 92]; Some []; Some [];
           Some [XVal 90]; Some [XVal 73]; Some []; Some []], [None; Some (0, [(1050, 199)])]).
Proof.
  split; [repeat constructor; cbn; lia|]. split; [repeat (apply Forall_cons; [first [exact Logic.I|right; cbn; lia]|]); apply Forall_nil|].
  split; vm_compute; reflexivity.
Qed.
