(** Programs using several trees: everything is accounted for. *)
From Verif Require Export MemProof.

Section Forest.
Context {B K V : Type} (P : Params B K) (gv : list (thing K V)).
Notation sim := (sim gv).

Lemma tree_at_forget (F : forest B K V) i :
  ptree_at (forget_forest F) i = option_map (fun ct => (fst ct, forget_c (snd ct))) (tree_at F i).
Proof.
  unfold ptree_at, tree_at, forget_forest. rewrite nth_error_map_.
  destruct (nth_error F i) as [[[c t]|]|]; reflexivity.
Qed.

Lemma forest_at (F : forest B K V) i c t : tree_at F i = Some (c, t) -> exists rest,
  Permutation (forest_things F) (things_c t ++ rest) /\
  (forall c' t', Permutation (forest_things (set_nth i (Some (c', t')) F)) (things_c t' ++ rest)) /\
  Permutation (forest_things (set_nth i None F)) rest.
Proof.
  unfold tree_at. destruct (nth_error F i) as [[ct|]|] eqn:E; intros [= ->].
  assert (E' := E). apply nth_error_split in E' as (l1 & l2 & -> & <-).
  exists (forest_things l1 ++ forest_things l2). unfold forest_things.
  split; [rewrite flat_map_app; cbn [flat_map]; perm|]. split.
  - intros c' t'. rewrite set_nth_middle, flat_map_app. cbn [flat_map]. perm.
  - rewrite set_nth_middle, flat_map_app. cbn [flat_map]. perm.
Qed.

Definition forget_out (r : list (thing K V) * forest B K V) : list (thing K V) * pforest B K V :=
  (fst r, forget_forest (snd r)).
Definition things_out (r : list (thing K V) * forest B K V) : list (thing K V) := fst r ++ forest_things (snd r).

Lemma forget_set i (c : config) (t : mcontainer B K V) F :
  set_nth i (Some (c, forget_c t)) (forget_forest F) = forget_forest (set_nth i (Some (c, t)) F).
Proof.
  unfold forget_forest. change (Some (c, forget_c t)) with (option_map (fun ct : config * mcontainer B K V => (fst ct, forget_c (snd ct))) (Some (c, t))).
  apply set_nth_map.
Qed.

Lemma forget_unset i (F : forest B K V) : set_nth i None (forget_forest F) = forget_forest (set_nth i None F).
Proof.
  unfold forget_forest. change None with (option_map (fun ct : config * mcontainer B K V => (fst ct, forget_c (snd ct))) None) at 1.
  apply set_nth_map.
Qed.

Lemma mstep_sim (F : forest B K V) o H :
  sim (mstep P F o) (pstep P (forget_forest F) o) (given o ++ forest_things F ++ H) (gets forget_out things_out H).
Proof.
  assert (Hid : forall x, sim (mret (x, F)) (Ok (x, forget_forest F)) (x ++ forest_things F ++ H) (gets forget_out things_out H)).
  { intros x. apply sim_ret. split; [reflexivity|]. unfold things_out. cbn [fst snd]. perm. }
  destruct o as [cfg|i k v|i k v|i Q BR q|i Q BR q v|i|i]; cbn [mstep pstep given]; rewrite ?tree_at_forget.
  - unfold mnew_leaf, rtree_new, new_leaf.
    assert (Hs : sim (let! id := new_vec in mret (@nil (thing K V), F ++ [Some (cfg, (0, MNode (b_empty (bops P)) id (CLeaf [])))]))
              (Ok ([], forget_forest F ++ [Some (cfg, (0, Node (b_empty (bops P)) (CLeaf [])))])) ([] ++ forest_things F ++ H)
              (gets forget_out things_out H)).
    { apply sim_new. intros id. apply sim_ret. split.
      - unfold forget_out, forget_forest. cbn [fst snd]. now rewrite map_app.
      - unfold things_out, forest_things. cbn [fst snd]. rewrite flat_map_app. cbn [flat_map things_c snd things]. perm. }
    intros s Ho. exact (Hs s Ho).
  - destruct (tree_at F i) as [[cfg t]|] eqn:Et; cbn [option_map fst snd]; [|apply Hid].
    destruct (forest_at F i cfg t Et) as (rest & Hp & Hp' & _). unfold rtree_insert.
    eapply sim_bind.
    { eapply sim_perm; [|apply (minsert_entry_sim P cfg gv t (MELeaf (k, v)) (rest ++ H))]. rewrite Hp. cbn [things_e]. unfold kv_things. cbn [fst snd]. perm. }
    intros t' t0 H' [-> HP]. apply sim_ret. split; [unfold forget_out; cbn [fst snd]; now rewrite forget_set|].
    rewrite HP. unfold things_out. cbn [fst snd]. rewrite Hp'. perm.
  - destruct (tree_at F i) as [[cfg t]|] eqn:Et; cbn [option_map fst snd]; [|apply Hid].
    destruct (forest_at F i cfg t Et) as (rest & Hp & Hp' & _). unfold rtree_insert_unique.
    eapply sim_bind.
    { eapply sim_perm; [|apply (mcontainer_insert_unique_sim P cfg gv t k v (rest ++ H))]. rewrite Hp. perm. }
    intros [o t'] [o0 t0] H' [E HP]. unfold forget_v in E. cbn [fst snd] in E. injection E as -> ->.
    apply sim_ret. split; [unfold forget_out; cbn [fst snd]; now rewrite forget_set|].
    rewrite HP. unfold things_out, things_v. cbn [fst snd]. rewrite Hp'. change the_value with (@the K V). perm.
  - destruct (tree_at F i) as [[cfg t]|] eqn:Et; cbn [option_map fst snd]; [|apply Hid].
    destruct (forest_at F i cfg t Et) as (rest & Hp & Hp' & _). unfold rtree_remove.
    eapply sim_bind.
    { eapply sim_perm; [|apply (mcontainer_remove_sim P cfg gv BR t q (rest ++ H))]. rewrite Hp. cbn [app]. perm. }
    intros [o t'] [o0 t0] H' [E HP]. unfold forget_v in E. cbn [fst snd] in E. injection E as -> ->.
    apply sim_ret. split; [unfold forget_out; cbn [fst snd]; now rewrite forget_set|].
    rewrite HP. unfold things_out, things_v. cbn [fst snd]. rewrite Hp'. change the_value with (@the K V). perm.
  - destruct (tree_at F i) as [[cfg t]|] eqn:Et; cbn [option_map fst snd]; [|apply Hid].
    destruct (forest_at F i cfg t Et) as (rest & Hp & Hp' & _). unfold rtree_get_mut.
    assert (Hg := mnode_get_mut_sim P gv BR (fst t) (snd t) q ([TVal v] ++ rest ++ H)).
    cbn [forget_c fst snd].
    assert (Hp0 : Permutation ([TVal v] ++ forest_things F ++ H) (things (snd t) ++ [TVal v] ++ rest ++ H)).
    { rewrite Hp. unfold things_c. perm. }
    intros s Ho. apply (own_perm _ _ _ _ Hp0) in Ho. specialize (Hg s Ho). unfold mbind.
    destruct (node_get_mut P BR (fst t) (forget (snd t)) q) as [r| | |]; cbn [bind].
    + destruct Hg as (r' & s' & H' & -> & [HP HR] & Ho'). cbn [bind].
      destruct r' as [[v' put']|], r as [[v0 put]|]; try contradiction; cbn [option_map fst snd].
      * destruct HR as (-> & Hput & Hth). eapply (sim_ret gv); [|exact Ho'].
        split.
        { unfold forget_out. cbn [fst snd]. rewrite <- forget_set. unfold forget_c. cbn [fst snd]. now rewrite Hput. }
        rewrite HP. unfold things_out. cbn [fst snd]. rewrite Hp'. unfold things_c. cbn [snd].
        transitivity ((TVal v0 :: things (put' v)) ++ rest ++ H); [rewrite Hth|]; perm.
      * eapply (sim_ret gv); [|exact Ho']. split; [reflexivity|]. rewrite HP. unfold things_out. cbn [fst snd].
        rewrite Hp. unfold things_c. perm.
    + now rewrite Hg.
    + now rewrite Hg.
    + now rewrite Hg.
  - destruct (tree_at F i) as [[cfg t]|] eqn:Et; cbn [option_map fst snd]; [|apply Hid].
    destruct (forest_at F i cfg t Et) as (rest & Hp & Hp' & _).
    eapply sim_bind.
    { eapply sim_perm; [|apply (mtree_clone_sim cfg gv t (rest ++ H))]. rewrite Hp. cbn [app]. perm. }
    intros t' t0 H' [-> HP]. apply sim_ret. split.
    + unfold forget_out, forget_forest. cbn [fst snd]. now rewrite map_app.
    + rewrite HP. unfold things_out. cbn [fst snd]. unfold forest_things at 1. rewrite flat_map_app. fold (forest_things F).
      cbn [flat_map]. rewrite Hp. perm.
  - destruct (tree_at F i) as [[cfg t]|] eqn:Et; cbn [option_map fst snd]; [|apply Hid].
    destruct (forest_at F i cfg t Et) as (rest & Hp & _ & Hp'). unfold rtree_drop, mtree_drop. cbn [forget_c fst snd].
    eapply sim_bind.
    { eapply sim_perm; [|apply (mdrop_node_sim gv (fst t) (snd t) (rest ++ H))]. rewrite Hp. unfold things_c. cbn [app]. perm. }
    intros [] l H' HP. apply sim_ret. split; [unfold forget_out; cbn [fst snd]; now rewrite forget_unset|].
    unfold gone_all in HP. rewrite HP. unfold things_out. cbn [fst snd]. rewrite Hp'. perm.
Qed.

Lemma mrun_sim os (F : forest B K V) H :
  sim (mrun P F os) (prun P (forget_forest F) os) (flat_map given os ++ forest_things F ++ H) (gets forget_out things_out H).
Proof.
  revert F H; induction os as [|o os IH]; intros F H; cbn [mrun prun flat_map].
  - apply sim_ret. split; reflexivity.
  - eapply sim_bind.
    { eapply sim_perm; [|apply (mstep_sim F o (flat_map given os ++ H))]. perm. }
    intros [x F'] [x0 F0] H' [E HP]. unfold forget_out in E. cbn [fst snd] in E. injection E as -> ->.
    eapply sim_bind.
    { eapply sim_perm; [|apply (IH F' (x ++ H))]. rewrite HP. unfold things_out. cbn [fst snd]. perm. }
    intros [xs F2] [xs0 F0] H2 [E HP2]. unfold forget_out in E. cbn [fst snd] in E. injection E as -> ->.
    apply sim_ret. split; [reflexivity|]. rewrite HP2. unfold things_out. cbn [fst snd]. perm.
Qed.
End Forest.

(** ** The plain program: no undefined behaviour, and no panic in supported configurations *)
Section PlainRun.
Context {B K V : Type} (P : Params B K).
Notation pforest := (pforest B K V).

Definition slot_ok (sup : Prop) (o : option (config * rtree B K V)) : Prop :=
  match o with Some (cfg, t) => reachable P cfg any_key t /\ (sup -> supported cfg) | None => True end.

Lemma ptree_at_ok sup (F : pforest) i cfg t : Forall (slot_ok sup) F -> ptree_at F i = Some (cfg, t) ->
  reachable P cfg any_key t /\ (sup -> supported cfg).
Proof.
  intros HF. unfold ptree_at. destruct (nth_error F i) as [[ct|]|] eqn:E; intros [= ->].
  apply nth_error_In in E. rewrite Forall_forall in HF. exact (HF _ E).
Qed.

Lemma Forall_set {A} (R : A -> Prop) i x (l : list A) : Forall R l -> R x -> Forall R (set_nth i x l).
Proof.
  intros Hl Hx. revert i; induction Hl as [|y l Hy Hl IH]; intros [|i]; cbn; constructor; auto.
Qed.

Lemma pstep_post (sup : Prop) (F : pforest) o : Forall (slot_ok sup) F -> (sup -> supported_op o) ->
  post (pstep P F o) (~ sup) (fun r => Forall (slot_ok sup) (snd r)).
Proof.
  intros HF Hs. destruct o as [cfg|i k v|i k v|i Q BR q|i Q BR q v|i|i]; cbn [pstep supported_op] in *.
  - cbn [post snd]. apply Forall_app. split; [exact HF|]. constructor; [|constructor]. split; [constructor|exact Hs].
  - destruct (ptree_at F i) as [[cfg t]|] eqn:Et; [|exact HF].
    destruct (ptree_at_ok sup F i cfg t HF Et) as [Hr Hsup].
    assert (Hub := step_no_ub P cfg any_key t (OInsert k v) Hr Logic.I). cbn [step] in Hub.
    assert (Htot : sup -> exists t', rtree_insert P cfg t k v = Ok t') by (intros Hp; exact (insert_total P cfg any_key t k v (Hsup Hp) Hr Logic.I)).
    destruct (rtree_insert P cfg t k v) as [t'| | |] eqn:E; cbn [bind post snd] in *; try tauto.
    + apply Forall_set; [exact HF|]. split; [|exact Hsup]. eapply r_insert; [exact Hr|exact Logic.I|exact E].
    + intros Hp. destruct (Htot Hp); discriminate.
  - destruct (ptree_at F i) as [[cfg t]|] eqn:Et; [|exact HF].
    destruct (ptree_at_ok sup F i cfg t HF Et) as [Hr Hsup].
    assert (Hub := step_no_ub P cfg any_key t (OInsertUnique k v) Hr Logic.I). cbn [step] in Hub.
    assert (Htot : sup -> exists r, rtree_insert_unique P cfg t k v = Ok r) by (intros Hp; exact (insert_unique_total P cfg any_key t k v (Hsup Hp) Hr Logic.I)).
    destruct (rtree_insert_unique P cfg t k v) as [[old t']| | |] eqn:E; cbn [bind post snd] in *; try tauto.
    + apply Forall_set; [exact HF|]. split; [|exact Hsup]. eapply r_insert_unique; [exact Hr|exact Logic.I|exact E].
    + intros Hp. destruct (Htot Hp); discriminate.
  - destruct (ptree_at F i) as [[cfg t]|] eqn:Et; [|exact HF].
    destruct (ptree_at_ok sup F i cfg t HF Et) as [Hr Hsup].
    assert (Hub := remove_no_ub P cfg any_key t Q BR q Hr).
    assert (Htot : sup -> exists r, rtree_remove P cfg BR t q = Ok r) by (intros Hp; exact (remove_total P cfg any_key t Q BR q (Hsup Hp) Hr)).
    destruct (rtree_remove P cfg BR t q) as [[old t']| | |] eqn:E; cbn [bind post snd] in *; try tauto.
    + apply Forall_set; [exact HF|]. split; [|exact Hsup]. eapply r_remove; [exact Hr|exact E].
    + intros Hp. destruct (Htot Hp); discriminate.
  - destruct (ptree_at F i) as [[cfg t]|] eqn:Et; [|exact HF].
    destruct (ptree_at_ok sup F i cfg t HF Et) as [Hr Hsup].
    assert (Hw := inv_any P cfg any_key t Hr).
    destruct (node_get_mut_spec P BR cfg any_key rel_any 0 False False ltac:(tauto) (fst t) (snd t) q (proj1 Hw)) as (r & E & _ & He).
    unfold rtree_get_mut. rewrite E. cbn [bind].
    destruct r as [[old put]|]; cbn [option_map fst snd post]; [|exact HF].
    apply Forall_set; [exact HF|]. split; [|exact Hsup].
    eapply r_values; [exact Hr|]. split; [reflexivity|]. cbn [snd]. now rewrite He.
  - destruct (ptree_at F i) as [[cfg t]|] eqn:Et; [|exact HF].
    destruct (ptree_at_ok sup F i cfg t HF Et) as [Hr Hsup].
    rewrite (clone_spec P cfg any_key t Hr). cbn [bind post snd]. apply Forall_app. split; [exact HF|].
    constructor; [|constructor]. split; assumption.
  - destruct (ptree_at F i) as [[cfg t]|] eqn:Et; [|exact HF].
    destruct (ptree_at_ok sup F i cfg t HF Et) as [Hr Hsup].
    destruct (drop_spec P cfg any_key t Hr) as (l & -> & _). cbn [bind post snd]. now apply Forall_set.
Qed.

Lemma prun_post (sup : Prop) os (F : pforest) : Forall (slot_ok sup) F -> (sup -> Forall supported_op os) ->
  post (prun P F os) (~ sup) (fun r => Forall (slot_ok sup) (snd r)).
Proof.
  revert F; induction os as [|o os IH]; intros F HF Hs; cbn [prun]; [exact HF|].
  assert (H1 := pstep_post sup F o HF (fun Hp => Forall_inv (Hs Hp))).
  destruct (pstep P F o) as [[x F1]| | |]; cbn [bind post snd] in *; try exact H1.
  specialize (IH F1 H1 (fun Hp => Forall_inv_tail (Hs Hp))).
  destruct (prun P F1 os) as [[xs F2]| | |]; cbn [bind post snd] in *; exact IH.
Qed.
End PlainRun.

Section Whole.
Context {B K V : Type} (P : Params B K).

Lemma given_not_buf (os : list (mop B K V)) : Forall not_buf (flat_map given os).
Proof.
  induction os as [|o os IH]; cbn [flat_map]; [constructor|]. apply Forall_app. split; [|exact IH].
  destruct o; repeat constructor.
Qed.

Lemma mrun_whole (os : list (mop B K V)) :
  match prun P [] os with
  | Ok (back, F0) => exists F s, mrun P [] os mem_init = Ok ((back, F), s) /\ forget_forest F = F0 /\
      own (flat_map given os) s (back ++ forest_things F)
  | Panic => mrun P [] os mem_init = Panic
  | _ => False
  end.
Proof.
  assert (Ho : own (flat_map given os) mem_init (flat_map given os ++ forest_things (@nil (option (config * mcontainer B K V))) ++ [])).
  { split; [apply given_not_buf|constructor|]. cbn. now rewrite !app_nil_r. }
  assert (Hs := mrun_sim P (flat_map given os) os [] [] mem_init Ho).
  assert (Hp := prun_post P False os [] ltac:(constructor) ltac:(tauto)).
  change (forget_forest (@nil (option (config * mcontainer B K V)))) with (@nil (option (config * rtree B K V))) in Hs.
  destruct (prun P [] os) as [[back F0]| | |]; cbn [post] in Hp; try exact Hs; try tauto.
  destruct Hs as ([back' F] & s & H' & E & [Ef HP] & Ho'). unfold forget_out in Ef. cbn [fst snd] in Ef. injection Ef as -> ->.
  exists F, s. split; [exact E|]. split; [reflexivity|]. eapply own_perm; [|exact Ho']. rewrite HP. unfold things_out. cbn [fst snd].
  now rewrite app_nil_r.
Qed.

Lemma mrun_total (os : list (mop B K V)) : Forall supported_op os -> exists back F s, mrun P [] os mem_init = Ok ((back, F), s).
Proof.
  intros Hs. assert (Hp := prun_post P True os [] ltac:(constructor) (fun _ => Hs)).
  assert (Hw := mrun_whole os). destruct (prun P [] os) as [[back F0]| | |]; cbn [post] in Hp; try tauto.
  destruct Hw as (F & s & E & _). eauto.
Qed.
End Whole.
