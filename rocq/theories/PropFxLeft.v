(** C66, C67: left joins whose callbacks keep state and panic.  Vocabulary: FxSpec.v, FxLeftSpec.v. *)
From Verif Require Import Witness FxLeftProof.

(** ** C66 a left join with any callbacks *)

Section Kinds.
Context {B K V : Type} (root : node B K V).
Lemma below_kd (Kd : nat -> node B K V -> Prop) : kd_spec Kd -> kd_spec (fun k n => Kd k n /\ below_or_at root n).
Proof.
  intros H k n [Hn Hb]. destruct (H k n Hn) as (b & cs & -> & Hcs). exists b, cs. split; [reflexivity|].
  apply Forall_forall. intros c Hc. rewrite Forall_forall in Hcs. split; [auto|]. eapply boa_child; eassumption.
Qed.
Lemma below_leaf (Kd : nat -> node B K V -> Prop) : (forall n, Kd 0 n -> exists b es, n = Node b (CLeaf es)) ->
  forall n, Kd 0 n /\ below_or_at root n -> exists b es, n = Node b (CLeaf es).
Proof. intros H n [Hn _]. auto. Qed.
End Kinds.

(** The calls of [next] go through the left entries in order: each call yields the next one, or unwinds and goes past the
    entries for which the panicking callback was made. *)
Theorem C66_left_entries :
  forall (W F B0 B1 K0 K1 V0 V1 Q0 Q1 : Type) (P0 : Params B0 K0) (P1 : Params B1 K1) (cfg0 cfg1 : config)
    (f : FxLeft W F B0 B1 K0 Q0 Q1) (flt : F) (t0 : rtree B0 K0 V0) (t1 : rtree B1 K1 V1) (w : W) (gs : list (W -> W)),
  reachable P0 cfg0 any_key t0 -> reachable P1 cfg1 any_key t1 ->
  exists it os it' w' log rest,
    rtree_left_join t0 t1 = Ok it /\
    session (fx_left_next (llogged f) flt) gs it w [] = Ok (os, it', w', log) /\
    length os = length gs /\ fused os /\ unwound os = panics log /\
    left_walk (snd t0) (contents t0) os log rest /\ (In Done os -> rest = []).
Proof.
  intros * H0 H1. apply inv_any in H0 as [H0 _], H1 as [H1 _]. apply wf_kinded in H0, H1.
  pose (Kd0 := fun k n => kinded k n /\ below_or_at (snd t0) n). pose (Kd1 := fun k (n : node B1 K1 V1) => kinded k n).
  destruct (left_join_start Kd0 Kd1 t0 t1 (fun _ _ => True) (conj H0 (boa_root _)) H1) as (L & R & E & Hi & Hp).
  destruct (left_session_spec f flt Kd0 Kd1 (below_kd _ _ kinded_kd) kinded_kd (below_leaf _ _ kinded_leaf) kinded_leaf
    (snd t0) (fun k n H => proj2 H) (snd t1) (fun _ _ => True) (fun _ => I) (fun _ _ _ _ _ _ _ _ _ => I) gs L R w [] Hi)
    as (os & L' & R' & w' & used & E2 & G1 & G2 & G3 & G4 & G5 & _).
  exists (L, R), os, (L', R'), w', used, (pend0 L'). rewrite Hp in G4. splits; auto.
Qed.
Print Assumptions C66_left_entries.

(** What that means: no entry is yielded twice or out of order, and without panics none is left out. *)
Theorem C66_each_once :
  forall (B0 B1 K0 V0 Q0 I : Type) (root : node B0 K0 V0) todo (os : list (outcome ((K0 * V0) * I)))
    (log : list (lquestion B0 B1 K0 Q0 * option bool)) rest,
  left_walk root todo os log rest ->
  sublist (map fst (yields os) ++ rest) todo /\ (unwound os = 0 -> todo = map fst (yields os) ++ rest).
Proof.
  induction 1 as [todo|e i todo os used log rest _ _ [IH1 IH2]|os used log rest _ _ [IH1 IH2]|q es todo os used log rest _ _ _ [IH1 IH2]].
  - split; [apply sublist_refl|reflexivity].
  - cbn [yields flat_map app map fst]. split; [now apply sub_take|]. intros Hu. f_equal. apply IH2. exact Hu.
  - split; [exact IH1|]. intros Hu. apply IH2. exact Hu.
  - split; [|discriminate]. exact (sublist_app [] es _ _ (sublist_nil es) IH1).
Qed.
Print Assumptions C66_each_once.

(** The iterator that comes with a left entry: of the right tree's entries it lacks only those below nodes that the filter
    rejected together with a node above the left entry; and it goes through the others as any filtered iterator does. *)
Theorem C66_right_iterators :
  forall (W F B0 B1 K0 K1 V0 V1 Q0 Q1 : Type) (P0 : Params B0 K0) (P1 : Params B1 K1) (cfg0 cfg1 : config)
    (f : FxLeft W F B0 B1 K0 Q0 Q1) (flt : F) (t0 : rtree B0 K0 V0) (t1 : rtree B1 K1 V1) (w : W) (gs : list (W -> W))
    it os it' w' log e sr b q c,
  reachable P0 cfg0 any_key t0 -> reachable P1 cfg1 any_key t1 ->
  rtree_left_join t0 t1 = Ok it ->
  session (fx_left_next (llogged f) flt) gs it w [] = Ok (os, it', w', log) ->
  In (e, (sr, (b, q, c))) (yields os) ->
  prune (fun n1 => below_or_at (snd t1) n1 /\
                   exists n0 w0, below_or_at (snd t0) n0 /\ In e (entries n0) /\
                                 fst (fl_bounds f flt w0 (node_bounds n0) (node_bounds n1)) = Some false)
    (contents t1) (stack_entries sr) /\
  ((exists w0, fst (fl_borrow f w0 (fst e)) = Some q) /\ (exists w0, fst (fl_clone f flt w0) = Some c) /\
   (exists w0, fst (fl_qbounds f w0 q) = Some b)) /\
  forall (brw1 : K1 -> Q1) (gs2 : list (W -> W)) (w2 : W),
  exists os2 sr' w3 log2 rest2 out2 missed,
    session (fx_iter_next brw1 (logged (fx_joining_filter f (b, q, c)))) gs2 sr w2 [] = Ok (os2, sr', w3, log2) /\
    length os2 = length gs2 /\ fused os2 /\ unwound os2 = panics log2 /\
    Forall (f_answered (fx_joining_filter f (b, q, c))) log2 /\
    explore (stack_search brw1 sr) (log2 ++ rest2) (yields os2 ++ out2) missed /\
    (In Done os2 -> rest2 = [] /\ out2 = []).
Proof.
  intros * H0 H1 E E2 Hin. apply inv_any in H0 as [H0 _], H1 as [H1 _]. apply wf_kinded in H0, H1.
  pose (Kd0 := fun k n => kinded k n /\ below_or_at (snd t0) n). pose (Kd1 := fun k n => kinded k n /\ below_or_at (snd t1) n).
  pose (fine := fun (e : K0 * V0) l => prune (fun n1 => below_or_at (snd t1) n1 /\
                   exists n0 w0, below_or_at (snd t0) n0 /\ In e (entries n0) /\
                                 fst (fl_bounds f flt w0 (node_bounds n0) (node_bounds n1)) = Some false) (contents t1) l).
  destruct (left_join_start Kd0 Kd1 t0 t1 fine (conj H0 (boa_root _)) (conj H1 (boa_root _))) as (L & R & E' & Hi & Hp).
  rewrite E in E'. injection E' as ->.
  destruct (left_session_spec f flt Kd0 Kd1 (below_kd _ _ kinded_kd) (below_kd _ _ kinded_kd) (below_leaf _ _ kinded_leaf) (below_leaf _ _ kinded_leaf)
    (snd t0) (fun k n H => proj2 H) (snd t1) fine) with (gs := gs) (L := L) (R := R) (w := w) (lg := @nil (lquestion B0 B1 K0 Q0 * option bool))
    as (os' & L' & R' & w'' & used & E3 & _ & _ & _ & _ & _ & G6); [intros e0; constructor| |exact Hi|].
  - intros k n e0 l l' [_ Hn] He Hpr Hf. unfold fine in *. eapply prune_trans; [exact Hf|]. eapply prune_mono; [|exact Hpr].
    intros c0 [[k1 [_ Hb]] [w0 Hr]]. split; [exact Hb|]. exists n, w0. auto.
  - assert (E4 : Ok (os', (L', R'), w'', [] ++ used) = Ok (os, it', w', log)) by (rewrite <- E2, <- E3; reflexivity).
    injection E4 as -> _ _ _. rewrite Forall_forall in G6. specialize (G6 _ Hin). destruct G6 as [[Hs Hf] Hj]. cbn [fst snd] in *.
    split; [exact Hf|]. split; [exact Hj|]. intros brw1 gs2 w2.
    assert (Hok : stack_ok sr) by (eapply okP_stack_ok; [|exact Hs]; intros k n [Hn _]; exact Hn).
    destruct (fx_iter_sessions brw1 (fx_joining_filter f (b, q, c)) sr gs2 w2 [] Hok) as (os2 & st2 & w3 & used2 & rest2 & out2 & missed & F1 & F2 & F3 & F4 & F5 & F6 & F7).
    exists os2, st2, w3, used2, rest2, out2, missed. splits; auto.
Qed.
Print Assumptions C66_right_iterators.

Lemma sublist_in' {A} (l1 l2 : list A) : sublist l1 l2 -> forall x, In x l1 -> In x l2.
Proof. induction 1; cbn [In]; intros; intuition. Qed.

(** ** C67 a lawful join filter that panics now and then: entries that come out have exactly their matches *)
Theorem C67_left_join_panics :
  forall (W F B0 B1 K0 K1 V0 V1 Q0 Q1 : Type) (P0 : Params B0 K0) (P1 : Params B1 K1) (cfg0 cfg1 : config)
    (ok0 : K0 -> Prop) (ok1 : K1 -> Prop) (incl0 : B0 -> B0 -> Prop) (incl1 : B1 -> B1 -> Prop)
    (brw0 : K0 -> Q0) (brw1 : K1 -> Q1) (qb0 : Q0 -> B0) (tb : B0 -> B1 -> bool) (tk : Q0 -> Q1 -> bool)
    (f : FxLeft W F B0 B1 K0 Q0 Q1) (flt : F) (t0 : rtree B0 K0 V0) (t1 : rtree B1 K1 V1) (w : W) (gs : list (W -> W))
    it os it' w' log e sr j (gs2 : list (W -> W)) w2 os2 sr' w3 log2,
  bounds_laws (bops P0) incl0 -> bounds_laws (bops P1) incl1 ->
  join_filter_lawful P0 P1 brw0 brw1 incl0 incl1 ok0 ok1 tb tk ->
  (* the borrowed form of a key has the bounds of the key *)
  (forall k, qb0 (brw0 k) = key_bounds P0 k) ->
  lanswers_as f flt brw0 qb0 tb tk ->
  reachable P0 cfg0 ok0 t0 -> reachable P1 cfg1 ok1 t1 ->
  rtree_left_join t0 t1 = Ok it ->
  session (fx_left_next (llogged f) flt) gs it w [] = Ok (os, it', w', log) ->
  In (e, (sr, j)) (yields os) ->
  (* a program that uses the iterator yielded with [e] until it is exhausted *)
  session (fx_iter_next brw1 (logged (fx_joining_filter f j))) gs2 sr w2 [] = Ok (os2, sr', w3, log2) -> In Done os2 ->
  let matching := filter (fun kv => tk (brw0 (fst e)) (brw1 (fst kv))) in
  exists missed,
    explore (stack_search brw1 sr) log2 (yields os2) missed /\
    Permutation (matching (contents t1)) (yields os2 ++ matching missed) /\
    (unwound os2 = 0 -> yields os2 = matching (contents t1)).
Proof.
  intros * L0 L1 HF Hqb (A1 & A2 & A3 & A4 & A5) Hr0 Hr1 E E2 Hin E5 Hd matching.
  apply (inv_cover _ _ _ incl0 _ L0) in Hr0 as [Hr0 _]. apply (inv_cover _ _ _ incl1 _ L1) in Hr1 as [Hr1 _].
  assert (Ga : good P0 incl0 ok0 cfg0 (fst t0) (snd t0)) by (eexists _, _; exact Hr0).
  assert (Gb : good P1 incl1 ok1 cfg1 (fst t1) (snd t1)) by (eexists _, _; exact Hr1).
  pose (tke := fun (e : K0 * V0) (kv : K1 * V1) => tk (brw0 (fst e)) (brw1 (fst kv))).
  pose (Kd0 := fun k n => good P0 incl0 ok0 cfg0 k n /\ below_or_at (snd t0) n). pose (Kd1 := good (V := V1) P1 incl1 ok1 cfg1).
  pose (fine := fun (e : K0 * V0) l => filter (tke e) l = filter (tke e) (contents t1)).
  destruct (left_join_start Kd0 Kd1 t0 t1 fine (conj Ga (boa_root _)) Gb) as (L & R & E' & Hi & Hp).
  rewrite E in E'. injection E' as ->.
  destruct (left_session_spec f flt Kd0 Kd1 (below_kd _ _ (good_kd _ _ _ _)) (good_kd _ _ _ _) (below_leaf _ _ (good_leaf _ _ _ _)) (good_leaf _ _ _ _)
    (snd t0) (fun k n H => proj2 H) (snd t1) fine) with (gs := gs) (L := L) (R := R) (w := w) (lg := @nil (lquestion B0 B1 K0 Q0 * option bool))
    as (os' & L' & R' & w'' & used & E3 & _ & _ & _ & G4 & _ & G6); [intros e0; reflexivity| |exact Hi|].
  - intros k n e0 l l' [Hn _] He Hpr Hf. unfold fine in *. rewrite <- Hf. clear Hf. induction Hpr as [l|x c y l [[kc Hc] [w0 Hr]] _ IH]; [reflexivity|].
    rewrite IH. rewrite !filter_app.
    assert (Ec : filter (tke e0) (entries c) = []).
    { destruct (filter (tke e0) (entries c)) as [|kv r] eqn:Ef; [reflexivity|exfalso].
      assert (Hin' : In kv (filter (tke e0) (entries c))) by (rewrite Ef; now left). apply filter_In in Hin' as [Hin' Hk].
      destruct (good_cover _ _ _ _ _ _ Hn e0 He) as [F1 F2]. destruct (good_cover _ _ _ _ _ _ Hc kv Hin') as [F3 F4].
      assert (Ht := HF _ _ _ _ F1 F3 Hk F2 F4). destruct (A1 w0 (node_bounds n) (node_bounds c)) as [Ha|Ha]; rewrite Ha in Hr; congruence. }
    now rewrite Ec.
  - assert (E4 : Ok (os', (L', R'), w'', [] ++ used) = Ok (os, it', w', log)) by (rewrite <- E2, <- E3; reflexivity).
    injection E4 as -> _ _ _. rewrite Forall_forall in G6. specialize (G6 _ Hin). destruct G6 as [[Hs Hf] Hj]. cbn [fst snd] in *.
    (* the left key is in the tree *)
    assert (Hoke : ok0 (fst e)).
    { assert (Hsub := proj1 (C66_each_once _ _ _ _ _ _ _ _ _ _ _ G4)). rewrite Hp in Hsub.
      assert (Hok0 := wf_ok _ _ _ _ _ _ _ Hr0). rewrite Forall_forall in Hok0. apply (Hok0 e).
      assert (Hm : In e (map fst (yields os) ++ pend0 L')).
      { apply in_or_app. left. exact (in_map fst _ _ Hin). }
      exact (sublist_in' _ _ Hsub e Hm). }
    destruct j as [[b q] c]. destruct Hj as ((w4 & Hq) & (w5 & Hc) & (w6 & Hb)).
    assert (Eq : q = brw0 (fst e)) by (destruct (A4 w4 (fst e)) as [Ha|Ha]; congruence).
    assert (Eb : b = qb0 q) by (destruct (A5 w6 q) as [Ha|Ha]; congruence). subst q b. clear Hq Hb.
    pose (f0 := {| test_bounds := tb (qb0 (brw0 (fst e))); test_key := tk (brw0 (fst e)) |}).
    assert (HL : filter_lawful P1 brw1 incl1 ok1 (test_bounds f0) (test_key f0)).
    { intros b1 k1 Hk1 Hm Hi1. cbn in *. apply (HF _ b1 (fst e) k1 Hoke Hk1 Hm); [|exact Hi1]. rewrite Hqb. apply (Spec.incl_refl _ _ L0). }
    assert (Hok : stack_ok sr) by (eapply okP_stack_ok; [|exact Hs]; intros k n; apply good_kinded).
    destruct (fx_iter_sessions brw1 (fx_joining_filter f (qb0 (brw0 (fst e)), brw0 (fst e), c)) sr gs2 w2 [] Hok) as (os3 & st3 & w7 & used2 & rest2 & out2 & missed & F1 & F2 & F3 & F4 & F5 & F6 & F7).
    rewrite E5 in F1. injection F1 as <- _ _ ->. destruct (F7 Hd) as [-> ->]. rewrite !app_nil_r in F6. cbn [app].
    assert (HLg : log_ok (f_ans f0) used2).
    { eapply Forall_impl; [|exact F5]. intros [qq a] (w8 & Ha). cbn [fst snd] in *. subst a.
      destruct qq as [b1|k1]; cbn [f_ans f0 test_bounds test_key fx_joining_filter fx_bounds fx_key]; [exact (A2 w5 w8 c _ b1 Hc)|exact (A3 w5 w8 c _ k1 Hc)]. }
    assert (HFa : Forall (faithful (f_ans f0) (fun kv => tk (brw0 (fst e)) (brw1 (fst kv)))) (agenda brw1 sr) /\ flat_map hits (agenda brw1 sr) = stack_entries sr).
    { clear - Hs HL. revert Hs. generalize 0. unfold agenda, stack_entries. induction sr as [|x sr IH]; intros k Hs; [split; constructor|].
      destruct Hs as [Hx Hs]. destruct (IH _ Hs) as [IH1 IH2]. cbn [flat_map]. rewrite flat_map_app, IH2. clear IH IH2. split.
      - apply Forall_app. split; [|exact IH1]. destruct k as [|k], x as [es|cs]; cbn in Hx; try contradiction; cbn [slot_search].
        + apply Forall_forall. intros s Hin. apply in_map_iff in Hin as (kv & <- & _). reflexivity.
        + apply Forall_forall. intros s Hin. apply in_map_iff in Hin as (n & <- & Hin). rewrite Forall_forall in Hx. destruct (Hx n Hin) as (lo & strict & Hw).
          exact (faithful_tree brw1 P1 cfg1 ok1 incl1 f0 lo strict k n HL Hw).
      - f_equal. destruct x as [es|cs]; cbn [slot_search].
        + clear Hx. induction es as [|kv es IHes]; cbn; [reflexivity|]. now rewrite IHes.
        + induction cs as [|n cs IHcs]; cbn; [reflexivity|]. rewrite (hits_tree brw1 n), IHcs; [reflexivity|].
          clear - Hx. destruct k; cbn in *; [contradiction|]. now inversion Hx. }
    destruct HFa as [HFa Hhits]. change (flat_map remP sr) with (stack_entries sr) in Hf. unfold fine, tke in Hf.
    exists missed. split; [exact F6|]. split.
    + destruct (explore_faithful _ _ _ _ _ _ F6 HFa HLg) as [X1 _]. rewrite Hhits in X1. unfold matching. rewrite <- Hf. exact X1.
    + intros Hu. destruct (explore_no_panic _ _ _ _ _ _ F6 HFa HLg) as [_ X1]; [congruence|]. rewrite Hhits in X1. unfold matching. rewrite <- Hf. exact X1.
Qed.
Print Assumptions C67_left_join_panics.

(** ** The hypotheses can be met *)

(** A join that accepts everything, and whose callbacks panic at calls 3, 10 and 25 ([W] counts from 0). *)
Definition at_calls (w : nat) : bool := (w =? 3) || (w =? 10) || (w =? 25).
Definition shaky_left : FxLeft nat unit (saabb i32 2) (saabb i32 2) (svec i32 2) (svec i32 2) (saabb i32 2) := {|
  fl_bounds := fun _ w _ _ => (if at_calls w then None else Some true, S w);
  fl_key := fun _ w _ _ => (if at_calls w then None else Some true, S w);
  fl_clone := fun _ w => (if at_calls w then None else Some tt, S w);
  fl_borrow := fun w k => (if at_calls w then None else Some k, S w);
  fl_qbounds := fun w k => (if at_calls w then None else Some (key_bounds PP k), S w) |}.
Definition lcode {A} (o : outcome A) : nat := match o with Done => 0 | Yield _ => 1 | Panicked => 2 end.
Definition shaky_run : res (list (outcome (@fx_item unit (saabb i32 2) (saabb i32 2) (svec i32 2) (saabb i32 2) nat nat (svec i32 2)))) :=
  let* it := rtree_left_join sample box_sample in
  let* r := session (fx_left_next (llogged shaky_left) tt) (repeat (fun w => w) 24) it 0 [] in
  Ok (fst (fst (fst r))).
Definition shaky_codes : list nat := match shaky_run with Ok os => map lcode os | _ => [] end.
Definition shaky_values : list nat := match shaky_run with Ok os => map (fun x => snd (fst x)) (yields os) | _ => [] end.
(** The panics at calls 3 and 25 cost one entry each (1 and 22), the one at call 10 a leaf of two entries (5 and 24). *)
Example C66_case :
  reachable PP (cfg_of 4 2) any_key sample /\ reachable PB (cfg_of 4 2) (valid_box i32_ops) box_sample /\
  map snd (contents sample) = [1; 14; 9; 5; 24; 11; 6; 23; 22; 27; 29; 17; 10; 21; 2; 33; 15; 25; 26; 28; 12; 8] /\
  shaky_codes = [2; 1; 1; 2; 1; 1; 1; 2; 1; 1; 1; 1; 1; 1; 1; 1; 1; 1; 1; 1; 1; 0; 0; 0] /\
  shaky_values = [14; 9; 11; 6; 23; 27; 29; 17; 10; 21; 2; 33; 15; 25; 26; 28; 12; 8].
Proof. split; [exact sample_reachable|]. split; [exact box_sample_reachable|]. split; [|split]; vm_compute; reflexivity. Qed.
(** The iterators that came with them go through the whole right tree. *)
Definition shaky_rights : list (list nat) :=
  match shaky_run with
  | Ok os => map (fun x => match session (fx_iter_next (fun k => k) (logged (fx_joining_filter shaky_left (snd (snd x)))))
                                  (repeat (fun w => w) 8) (fst (snd x)) 100 [] with
                           | Ok r => map snd (yields (fst (fst (fst r)))) | _ => [] end) (yields os)
  | _ => [] end.
Example C67_case : lanswers_as shaky_left tt (fun k => k) (key_bounds PP) (fun _ _ => true) (fun _ _ => true) /\
  Forall (fun l => l = map snd (contents box_sample)) shaky_rights /\ length shaky_rights = 18.
Proof.
  split; [|split].
  - unfold lanswers_as. repeat split; intros; cbn [shaky_left fl_bounds fl_key fl_clone fl_borrow fl_qbounds fst]; destruct (at_calls _); auto.
  - assert (H : forallb (fun l => if list_eq_dec Nat.eq_dec l (map snd (contents box_sample)) then true else false) shaky_rights = true)
      by (vm_compute; reflexivity).
    apply Forall_forall. intros l Hin. assert (Hl := proj1 (forallb_forall _ _) H l Hin). cbv beta in Hl. clear H Hin. destruct (list_eq_dec _ _ _); [assumption|discriminate].
  - vm_compute. reflexivity.
Qed.
