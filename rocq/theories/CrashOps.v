(** Unwinding: the operations of a tree. *)
From Verif Require Export CrashRemove.
Set Default Proof Using "Type".

Section XOps.
Context {B K V : Type} (crash : nat -> bool) (bdrop : bool) (gv : list (xthing K V)) (lk ns : Prop) (P : Params B K) (cfg : config).
Notation xnode := (xnode B K V).
Notation xcontainer := (xcontainer B K V).
Notation xentry := (xentry B K V).
Notation xcc := (xcc B K V).
Notation spec := (spec crash gv lk).
Notation cspec := (cspec gv lk).
Notation dspec := (dspec gv).
Notation cap := (max_children cfg).
Notation minc := (min_children cfg).
Notation xthings := (xthings bdrop).
Notation xthings_c := (xthings_c bdrop).
Notation xthings_e := (xthings_e bdrop).
Notation xthings_o := (xthings_o bdrop).
Notation xthings_cc := (xthings_cc bdrop).
Notation bnd_things := (bnd_things bdrop).
Notation xwf := (xwf cfg).
Notation xwf_o := (xwf_o cfg).
Notation xcc_wf := (xcc_wf cfg).
Notation xentry_wf := (xentry_wf cfg).

Lemma xbind_inl {A E C E'} (a : A) (k : A -> X K V C E') (h : E -> D K V E') : xbind (dret (inl a)) k h = k a.
Proof. reflexivity. Qed.
Lemma xbind_inr {A E C E'} (e : E) (k : A -> X K V C E') (h : E -> D K V E') : xbind (dret (inr e)) k h = (let$ e := h e in dret (inr e)).
Proof. reflexivity. Qed.
Lemma dbind_ret {A C} (a : A) (k : A -> D K V C) : dbind (dret a) k = k a.
Proof. reflexivity. Qed.

Definition cwf (c : xcontainer) : Prop := xwf (fst c) (snd c).
Definition centries (c : xcontainer) : list (K * V) := xentries (snd c).
(** What a call leaves behind when it returns, when it unwinds. *)
Definition c_ok (es : list (K * V)) (c : xcontainer) : Prop := cwf c /\ Permutation (centries c) es.
Definition c_left (es : list (K * V)) (c : xcontainer) : Prop := cwf c /\ part_of (centries c) es.

(** The same when [es] minus [es0] was being inserted. *)
Definition c_kept (es0 es : list (K * V)) (c : xcontainer) : Prop :=
  cwf c /\ part_of (centries c) es /\ (ns -> part_of es0 (centries c)).

Lemma c_ok_left es c : c_ok es c -> c_left es c.
Proof. intros [H1 H2]. split; [exact H1|]. now apply part_perm. Qed.

Lemma drop_bnd_nothing bid H : bdrop = false -> dspec (drop_bnd bdrop bid) H (fun _ => H) any.
Proof. intros ->. apply dspec_ret; [reflexivity|exact Logic.I]. Qed.

Lemma xbranch_spec (root sib : xcontainer) : bdrop = false \/ cap <> 1 -> cwf root -> xwf_o (fst root) (Some sib) -> (lk -> cap <> 1) ->
  spec (xbranch crash bdrop P cfg root sib) (branch P cfg (xforget_c root) (xforget_c sib)) xforget_c
    (xthings_c root ++ xthings_c sib) xthings_c (c_ok (centries root ++ centries sib))
    xthings_c (c_left (centries root ++ centries sib)).
Proof.
  intros Hu Hwf (Hl & Hws & Hcap) Hlk. destruct root as [l rn], sib as [l' sn]. cbn [fst snd] in *. subst l'.
  unfold xbranch, branch, xforget_c, CrashSpec.xthings_c. cbn [fst snd]. rewrite Nat.eqb_refl. cbn [negb].
  eapply spec_dbind with (F := []); [rewrite app_nil_r; reflexivity|apply dspec_use_bnd|].
  { apply part_app_r, bnd_part. }
  intros u _. rewrite app_nil_r.
  eapply spec_dbind with (F := []); [rewrite app_nil_r; reflexivity|apply dspec_use_bnd|].
  { eapply part_perm_r; [apply Permutation_app_comm|]. apply part_app_r, bnd_part. }
  intros u' _. rewrite app_nil_r.
  assert (Hleft : c_left (centries (l, rn) ++ centries (l, sn)) (l, rn)).
  { split; [exact Hwf|]. apply part_app_r, part_refl. }
  apply spec_user.
  2:{ eapply cspec_then with (H1 := xthings sn) (F := xthings rn); [perm|apply (dspec_drop_container bdrop gv cfg (l, sn) Hws)|apply keep_refl|exact Hleft]. }
  eapply spec_dbind with (H1 := []); [cbn [app]; reflexivity|apply dspec_new_buf|]. intros id _.
  set (H0 := [XBuf id] ++ xthings rn ++ xthings sn).
  assert (E1 : xtry_push cap [] rn = dret (inl [rn]) :> X K V (list xnode) xnode).
  { unfold xtry_push. cbn [length app]. destruct (Nat.eqb_spec 0 cap); [lia|]. reflexivity. }
  rewrite E1, xbind_inl. unfold push. cbn [length]. destruct (Nat.eqb_spec 0 cap) as [H|_]; [lia|]. cbn [bind app length].
  destruct (Nat.eqb_spec 1 cap) as [Hc1|Hc1].
  - destruct Hu as [Hu|Hu]; [|lia].
    assert (E2 : xtry_push cap [rn] sn = dret (inr sn) :> X K V (list xnode) xnode).
    { unfold xtry_push. cbn [length app]. rewrite <- Hc1. reflexivity. }
    rewrite E2, xbind_inr. cbn [bind]. apply spec_unwind; [reflexivity|].
    eapply cspec_bind with (F := []); [rewrite app_nil_r; reflexivity|apply dspec_cspec, (drop_bnd_nothing (x_bid sn) H0 Hu)|].
    intros v _. rewrite app_nil_r.
    eapply cspec_bind with (H1 := XBuf id :: flat_map (fun _ => []) [rn]) (F := xthings rn ++ xthings sn);
      [reflexivity|apply (cspec_drop_vec gv lk (drop_bare bdrop) (fun _ => []))|].
    { intros x. apply dspec_cspec. apply (drop_bnd_nothing (x_bid x) [] Hu). }
    intros w _. apply cspec_ret; [|exact Hleft]. cbn [nothing app]. apply keep_not; [intros Hk; now apply (Hlk Hk)|]. apply part_app_r, part_refl.
  - assert (E2 : xtry_push cap [rn] sn = dret (inl [rn; sn]) :> X K V (list xnode) xnode).
    { unfold xtry_push. cbn [length app]. destruct (Nat.eqb_spec 1 cap); [lia|]. destruct (Nat.ltb_spec cap 1); [lia|]. reflexivity. }
    rewrite E2, xbind_inl. cbn [bind]. 
    eapply spec_dbind with (H1 := []); [cbn [app]; reflexivity|apply dspec_new_bnd|]. intros bid _. apply spec_ret.
    + cbn [fst snd xforget map app]. now rewrite !x_bounds_forget.
    + split.
      * unfold cwf. cbn [fst snd]. rewrite Nat.add_1_r. split; [cbn; lia|]. constructor; [exact Hwf|]. now constructor.
      * unfold centries. cbn [fst snd]. rewrite xentries_inner. cbn [flat_map]. perm.
    + cbn [fst snd CrashSpec.xthings flat_map]. unfold H0. perm.
Qed.

Lemma xinsert_entry_spec (root : xcontainer) (e : xentry) : bdrop = false \/ cap <> 1 -> cwf root -> xentry_wf e ->
  (lk -> cap <> 1 /\ xroom cfg (fst root) (snd root)) -> (ns -> xroom_all cfg (fst root) (snd root)) ->
  spec (xinsert_entry crash bdrop P cfg root e) (insert_entry P cfg (xforget_c root) (xforget_e e)) xforget_c
    (xthings_c root ++ xthings_e e) xthings_c (c_ok (centries root ++ xentries_e e))
    xthings_c (c_kept (centries root) (centries root ++ xentries_e e)).
Proof.
  intros Hu Hwf He Hlk Hns. destruct root as [l rn]. unfold xinsert_entry, insert_entry. cbn [xforget_c fst snd].
  eapply spec_bind with (F := []); [rewrite app_nil_r; reflexivity|apply (xnode_insert_spec crash bdrop gv lk ns P cfg l rn e Hwf He (fun Hk => proj2 (Hlk Hk)) Hns)| |].
  - intros [n' sib] (H1 & H2 & H3 & H0) _. unfold xforget_out. cbn [fst snd] in *. rewrite app_nil_r. destruct sib as [s|]; cbn [option_map].
    + eapply spec_mono; [| |exact (xbranch_spec (l, n') s Hu H1 H2 (fun Hk => proj1 (Hlk Hk)))].
      * intros c [H4 H5]. split; [exact H4|]. rewrite H5. exact H3.
      * intros c [H4 H5]. split; [exact H4|]. split; [eapply part_perm_r; [symmetry; exact H3|exact H5]|]. intros Hk. specialize (H0 Hk). discriminate.
    + apply spec_ret; [reflexivity| |unfold CrashTree.xthings_o; rewrite app_nil_r; reflexivity]. split; [exact H1|].
      cbn [xentries_o] in H3. rewrite app_nil_r in H3. exact H3.
  - intros n' (H1 & H2 & H3). rewrite app_nil_r. apply cspec_ret; [apply keep_refl|]. split; [exact H1|]. split; [exact H2|exact H3].
Qed.

Lemma xcontainer_insert_unique_spec (root : xcontainer) k v : bdrop = false \/ cap <> 1 -> cwf root ->
  (lk -> cap <> 1 /\ xroom cfg (fst root) (snd root)) -> (ns -> xroom_all cfg (fst root) (snd root)) ->
  spec (xcontainer_insert_unique crash bdrop P cfg root k v) (container_insert_unique P cfg (xforget_c root) k v)
    (fun r => (fst r, xforget_c (snd r))) (xthings_c root ++ xkv_things (k, v)) (fun r => xthe (fst r) ++ xthings_c (snd r))
    (fun r => cwf (snd r) /\ uniq_rel P (fst r) (centries root) k v (centries (snd r)))
    xthings_c (fun c => cwf c /\ uniq_left P (centries root) k v (centries c) /\ (ns -> uniq_keep P (centries root) k v (centries c))).
Proof.
  intros Hu Hwf Hlk Hns. destruct root as [l rn]. unfold xcontainer_insert_unique, container_insert_unique. cbn [xforget_c fst snd].
  eapply spec_bind with (F := []); [rewrite app_nil_r; reflexivity|apply (xnode_insert_unique_spec crash bdrop gv lk ns P cfg l rn k v Hwf (fun Hk => proj2 (Hlk Hk)) Hns)| |].
  - intros [[old n'] sib] (H1 & H2 & H3 & H0) _. unfold xforget_uni, xthings_uni. cbn [fst snd] in *. rewrite app_nil_r. destruct sib as [s|]; cbn [option_map].
    + eapply spec_bind with (H1 := xthings_c (l, n') ++ xthings_c s) (F := xthe old); [cbn [CrashTree.xthings_o]; unfold CrashSpec.xthings_c; cbn [snd]; perm|exact (xbranch_spec (l, n') s Hu H1 H2 (fun Hk => proj1 (Hlk Hk)))| |].
      * intros c [H4 H5] _. apply spec_ret; [reflexivity| |cbn [fst snd]; perm]. split; [exact H4|].
        eapply uniq_rel_perm; [symmetry; exact H5|exact H3].
      * intros c [H4 H5]. eapply cspec_then with (H1 := xthe old) (F := xthings_c c); [perm|apply dspec_drop_opt|apply keep_refl|].
        split; [exact H4|]. split; [|intros Hk; specialize (H0 Hk); discriminate]. eapply uniq_rel_left; [exact H3|exact H5].
    + apply spec_ret; [reflexivity| |].
      * split; [exact H1|]. cbn [xentries_o] in H3. rewrite app_nil_r in H3. exact H3.
      * cbn [fst snd CrashTree.xthings_o]. unfold CrashSpec.xthings_c. cbn [snd]. perm.
  - intros n' (H1 & H2 & H3). rewrite app_nil_r. apply cspec_ret; [apply keep_refl|]. split; [exact H1|]. split; [exact H2|exact H3].
Qed.

End XOps.

Section XRemOps.
Context {B K V : Type} (crash : nat -> bool) (bdrop : bool) (gv : list (xthing K V)) (lk : Prop) (P : Params B K) (cfg : config).
Notation xnode := (xnode B K V).
Notation xcontainer := (xcontainer B K V).
Notation xentry := (xentry B K V).
Notation xcc := (xcc B K V).
Notation spec := (spec crash gv lk).
Notation cspec := (cspec gv lk).
Notation dspec := (dspec gv).
Notation cap := (max_children cfg).
Notation minc := (min_children cfg).
Notation xthings := (xthings bdrop).
Notation xthings_c := (xthings_c bdrop).
Notation xthings_e := (xthings_e bdrop).
Notation xthings_o := (xthings_o bdrop).
Notation xthings_cc := (xthings_cc bdrop).
Notation bnd_things := (bnd_things bdrop).
Notation xwf := (xwf cfg).
Notation xwf_o := (xwf_o cfg).
Notation xcc_wf := (xcc_wf cfg).
Notation xentry_wf := (xentry_wf cfg).

Notation cwf := (cwf cfg).
Notation c_ok := (c_ok cfg).
Notation c_left := (c_left cfg).

Lemma dspec_try_unbranch (root : xcontainer) : cwf root ->
  dspec (xtry_unbranch bdrop root) (xthings_c root) xthings_c (fun c =>
    try_unbranch (xforget_c root) = Ok (xforget_c c) /\ cwf c /\ centries c = centries root).
Proof.
  destruct root as [[|l] rn]; unfold cwf; cbn [fst snd]; intros Hwf; unfold xtry_unbranch, try_unbranch, xforget_c, CrashSpec.xthings_c; cbn [fst snd].
  - assert (Hwf' := Hwf). apply xwf_leaf in Hwf' as (b & bid & id & es & -> & Hl).
    eapply dspec_bind with (F := []); [rewrite app_nil_r; reflexivity| |].
    { rewrite <- (app_nil_r (xthings _)). apply dspec_read_leaf_all. }
    intros es' ->. rewrite !app_nil_r. apply dspec_ret; [reflexivity|]. splits; auto.
  - assert (Hwf' := Hwf). apply xwf_inner in Hwf' as (b & bid & id & cs & -> & Hl & Hcs).
    eapply dspec_bind with (F := []); [rewrite app_nil_r; reflexivity| |].
    { rewrite <- (app_nil_r (xthings _)). apply dspec_read_inner_all. }
    intros cs' ->. rewrite !app_nil_r. cbn [xforget node_children read_inner bind]. rewrite map_length.
    destruct cs as [|c [|c2 cs]].
    + apply dspec_ret; [reflexivity|]. splits; auto.
    + cbn [with_ch map]. inversion Hcs as [|? ? Hc _]; subst.
      eapply dspec_bind with (H1 := xthings_c (S l, XNode b bid id (CInner []))) (F := xthings c).
      * unfold CrashSpec.xthings_c. cbn [snd CrashSpec.xthings flat_map]. perm.
      * apply (dspec_drop_container bdrop gv cfg (S l, XNode b bid id (CInner []))). split; [cbn; lia|constructor].
      * intros u _. apply dspec_ret; [reflexivity|]. splits; [reflexivity|exact Hc|]. unfold centries. cbn [snd]. rewrite xentries_inner.
        cbn [flat_map]. now rewrite app_nil_r.
    + apply dspec_ret; [reflexivity|]. splits; auto.
Qed.

(** *** The array of underfull nodes *)
Notation xslot := (xslot (B := B) (K := K) (V := V)).
Definition xforget_ch (c : children xnode (K * V)) : children (node B K V) (K * V) :=
  match c with CInner cs => CInner (map xforget cs) | CLeaf es => CLeaf es end.
Definition xforget_slot (o : xslot) : option (children (node B K V) (K * V)) := option_map (fun p => xforget_ch (snd p)) o.
Definition xthings_slot (o : xslot) : list (xthing K V) :=
  match o with Some (id, c) => XBuf id :: xthings_ch bdrop c | None => [] end.
Definition slot_entries (o : xslot) : list (K * V) := match o with Some (_, c) => xentries_ch c | None => [] end.
Definition slot_wf (level : nat) (o : xslot) : Prop :=
  match o, level with
  | None, _ => True
  | Some (_, CLeaf es), 0 => length es <= cap
  | Some (_, CInner cs), S l => length cs <= cap /\ Forall (xwf l) cs
  | _, _ => False
  end.
Fixpoint slots_wf (level : nat) (arr : list xslot) : Prop :=
  match arr with [] => True | o :: r => slot_wf level o /\ slots_wf (S level) r end.

Lemma slots_wf_set level arr i o : slots_wf level arr -> slot_wf (level + i) o -> slots_wf level (set_nth i o arr).
Proof.
  revert level i; induction arr as [|x arr IH]; intros level i H Ho; [now destruct i|]. destruct H as [H1 H2].
  destruct i as [|i]; cbn [set_nth slots_wf].
  - rewrite Nat.add_0_r in Ho. auto.
  - split; [exact H1|]. apply IH; [exact H2|]. now rewrite Nat.add_succ_comm.
Qed.

Lemma xstore_all_spec ccs (arr : list xslot) : slots_wf 0 arr ->
  Forall xcc_wf ccs -> NoDup (map xcc_level ccs) -> (forall cc, In cc ccs -> nth_error arr (xcc_level cc) = Some None) ->
  spec (xstore_all arr ccs) (store_all (map xforget_slot arr) (map xforget_cc ccs)) (map xforget_slot)
    (flat_map xthings_slot arr ++ flat_map xthings_cc ccs) (flat_map xthings_slot)
    (fun arr' => slots_wf 0 arr' /\ Permutation (flat_map slot_entries arr') (flat_map slot_entries arr ++ flat_map ccs_entries ccs) /\
       (ccs = [] -> arr' = arr))
    nothing (fun _ => False).
Proof.
  revert arr; induction ccs as [|cc ccs IH]; intros arr Hw Hcc Hnd Hnone; cbn [xstore_all store_all map].
  - apply spec_ret; [reflexivity| |].
    + split; [exact Hw|]. cbn [flat_map]. split; [now rewrite app_nil_r|reflexivity].
    + cbn [flat_map]. now rewrite app_nil_r.
  - unfold store_underfull. replace (cc_level (xforget_cc cc)) with (xcc_level cc) by (now destruct cc).
    rewrite map_length. assert (Hslot := Hnone cc (or_introl eq_refl)).
    assert (Hlt := nth_error_lt _ _ _ Hslot). apply Nat.ltb_lt in Hlt. rewrite Hlt. cbn [bind].
    inversion Hnd as [|? ? Hnin Hnd']; subst. inversion Hcc as [|? ? Hwc Hcc']; subst.
    replace (Some (cc_leak (xforget_cc cc))) with (xforget_slot (Some (xcc_leak cc))) by (now destruct cc).
    rewrite set_nth_map.
    destruct (nth_error_split_set _ _ (Some (xcc_leak cc)) _ Hslot) as (a1 & a2 & Ea & _ & Es).
    eapply spec_perm; [|eapply spec_mono; [| |apply (IH (set_nth (xcc_level cc) (Some (xcc_leak cc)) arr))]].
    + rewrite Es, Ea. rewrite !flat_map_app. cbn [flat_map].
      replace (xthings_slot (Some (xcc_leak cc))) with (xthings_cc cc) by (now destruct cc).
      cbn [xthings_slot]. perm.
    + intros a (H1 & H2 & _). split; [exact H1|]. split; [|discriminate]. rewrite H2, Es, Ea, !flat_map_app. cbn [flat_map].
      replace (slot_entries (Some (xcc_leak cc))) with (ccs_entries cc) by (now destruct cc). cbn [slot_entries]. perm.
    + intros e He. exact He.
    + apply slots_wf_set; [exact Hw|]. destruct cc as [[|l] id cs|id es]; cbn in *; auto.
    + exact Hcc'.
    + exact Hnd'.
    + intros cc2 Hin. rewrite nth_error_set_nth. destruct (Nat.eqb_spec (xcc_level cc) (xcc_level cc2)) as [E|E].
      * elim Hnin. rewrite E. now apply in_map.
      * apply Hnone. now right.
Qed.

Lemma xinsert_entries_spec es (root : xcontainer) : bdrop = false \/ cap <> 1 -> cwf root -> Forall xentry_wf es -> (lk -> es = []) ->
  spec (xinsert_entries crash bdrop P cfg root es) (insert_entries P cfg (xforget_c root) (map xforget_e es)) xforget_c
    (xthings_c root ++ flat_map xthings_e es) xthings_c (c_ok (centries root ++ flat_map xentries_e es))
    xthings_c (c_left (centries root ++ flat_map xentries_e es)).
Proof.
  intros Hu. revert root; induction es as [|e es IH]; intros root Hwf Hes Hlk; cbn [xinsert_entries insert_entries map flat_map].
  - apply spec_ret; [reflexivity| |now rewrite app_nil_r]. split; [exact Hwf|]. now rewrite app_nil_r.
  - assert (Hnlk : ~ lk) by (intros Hk; specialize (Hlk Hk); discriminate).
    inversion Hes as [|? ? He Hes']; subst.
    eapply spec_bind with (H1 := xthings_c root ++ xthings_e e) (F := flat_map xthings_e es); [perm|exact (xinsert_entry_spec crash bdrop gv lk False P cfg root e Hu Hwf He (fun Hk => False_ind _ (Hnlk Hk)) (fun Hf => False_ind _ Hf))| |].
    + intros c [H1 H2] _. eapply spec_mono; [| |exact (IH c H1 Hes' (fun Hk => False_ind _ (Hnlk Hk)))].
      * intros c' [H3 H4]. split; [exact H3|]. rewrite H4, H2. perm.
      * intros c' [H3 H4]. split; [exact H3|]. eapply part_perm_r; [|exact H4]. rewrite H2. perm.
    + intros c (H1 & H2 & _). eapply cspec_then with (H1 := flat_map xthings_e es) (F := xthings_c c); [perm| |apply keep_refl|].
      * apply dspec_dseq. intros e' Hin. apply (dspec_drop_entry bdrop gv cfg). rewrite Forall_forall in Hes'. now apply Hes'.
      * split; [exact H1|]. eapply part_perm_r; [|exact (part_app_r _ _ (flat_map xentries_e es) H2)]. perm.
Qed.

Lemma xreinsert_spec arr (root : xcontainer) level : bdrop = false \/ cap <> 1 -> cwf root -> slots_wf level arr ->
  (lk -> Forall (fun o => o = None) arr) ->
  spec (xreinsert crash bdrop P cfg root level arr) (reinsert P cfg (xforget_c root) level (map xforget_slot arr)) xforget_c
    (xthings_c root ++ flat_map xthings_slot arr) xthings_c (c_ok (centries root ++ flat_map slot_entries arr))
    xthings_c (fun c => c_left (centries root ++ flat_map slot_entries arr) c /\ ~ lk).
Proof.
  intros Hu. revert root level; induction arr as [|o arr IH]; intros root level Hwf Harr Hlk; cbn [xreinsert reinsert map].
  - apply spec_ret; [reflexivity| |cbn [flat_map]; now rewrite app_nil_r]. split; [exact Hwf|]. cbn [flat_map]. now rewrite app_nil_r.
  - destruct Harr as [Ho Harr]. destruct o as [[id ch]|]; cbn [xforget_slot option_map].
    2:{ cbn [flat_map xthings_slot slot_entries app]. apply IH; auto. intros Hk. specialize (Hlk Hk). now inversion Hlk. }
    assert (Hnlk : ~ lk) by (intros Hk; specialize (Hlk Hk); inversion Hlk; discriminate).
    cbn [snd].
    assert (Hcc : exists cc, xwrap_children (id, ch) level = dret cc :> D K V _ /\ wrap_children (xforget_ch ch) level = Ok (xforget_cc cc) /\
       xcc_id cc = id /\ flat_map xthings_e (xcc_entries cc) = xthings_ch bdrop ch /\
       map xforget_e (xcc_entries cc) = cc_entries (xforget_cc cc) /\ Forall xentry_wf (xcc_entries cc) /\
       flat_map xentries_e (xcc_entries cc) = xentries_ch ch).
    { destruct level as [|l], ch as [cs|es]; cbn [slot_wf] in Ho; try contradiction.
      - exists (XCCLeaf id es). splits; auto.
        + cbn [xcc_entries xthings_ch]. clear. induction es as [|kv es IHe]; [reflexivity|]. cbn [map flat_map CrashTree.xthings_e]. now rewrite IHe.
        + cbn [xcc_entries xforget_cc cc_entries]. rewrite map_map. reflexivity.
        + cbn [xcc_entries]. apply Forall_forall. intros e He. apply in_map_iff in He as (kv & <- & _). exact Logic.I.
        + cbn [xcc_entries xentries_ch]. clear. induction es as [|kv es IHe]; [reflexivity|]. cbn [map flat_map xentries_e]. now rewrite IHe.
      - destruct Ho as [Hl Hcs]. exists (XCCInner (S l) id cs). splits; auto.
        + cbn [xcc_entries xthings_ch]. clear. induction cs as [|c cs IHc]; [reflexivity|]. cbn [map flat_map CrashTree.xthings_e]. now rewrite IHc.
        + cbn [xcc_entries xforget_cc cc_entries]. rewrite !map_map. reflexivity.
        + cbn [xcc_entries]. apply Forall_forall. intros e He. apply in_map_iff in He as (c & <- & Hin).
          cbn [CrashTree.xentry_wf fst snd]. replace (S l - 1) with l by lia. rewrite Forall_forall in Hcs. now apply Hcs.
        + cbn [xcc_entries xentries_ch]. clear. induction cs as [|c cs IHc]; [reflexivity|]. cbn [map flat_map xentries_e snd]. now rewrite IHc. }
    destruct Hcc as (cc & E1 & E2 & Eid & Eth & Efe & Hwe & Een). rewrite E1, E2. cbn [bind]. rewrite dbind_ret, Eid.
    cbn [flat_map xthings_slot slot_entries].
    eapply spec_dbind with (F := []); [rewrite app_nil_r; reflexivity|apply dspec_use; [|reflexivity]|].
    { apply in_or_app. right. now left. }
    intros u _. rewrite app_nil_r, <- Efe.
    eapply spec_bind with (F := XBuf id :: flat_map xthings_slot arr); [|exact (xinsert_entries_spec (xcc_entries cc) root Hu Hwf Hwe (fun Hk => False_ind _ (Hnlk Hk)))| |].
    { rewrite Eth. perm. }
    + intros c [H1 H2] _. eapply spec_dbind with (H1 := [XBuf id]) (F := xthings_c c ++ flat_map xthings_slot arr); [perm|apply dspec_destroy|].
      intros v _. cbn [nothing app]. eapply spec_mono; [| |exact (IH c (S level) H1 Harr (fun Hk => False_ind _ (Hnlk Hk)))].
      * intros c' [H3 H4]. split; [exact H3|]. rewrite H4, H2, Een. perm.
      * intros c' [[H3 H4] H5]. split; [|exact H5]. split; [exact H3|]. eapply part_perm_r; [|exact H4]. rewrite H2, Een. perm.
    + intros c [H1 H2]. eapply cspec_then with (H1 := [XBuf id]) (F := xthings_c c ++ flat_map xthings_slot arr);
        [perm|apply dspec_destroy|apply keep_not; [exact Hnlk|apply part_app_r, part_refl]|].
      split; [|exact Hnlk]. split; [exact H1|]. eapply part_perm_r; [|exact (part_app_r _ _ (flat_map slot_entries arr) H2)]. rewrite Een. perm.
Qed.

Lemma xcontainer_remove_spec {Q} (BR : Borrowed B K Q) (root : xcontainer) q : bdrop = false \/ cap <> 1 -> cwf root ->
  (lk -> xspare cfg (fst root) (snd root)) ->
  spec (xcontainer_remove crash bdrop P cfg BR root q) (container_remove P cfg BR (xforget_c root) q)
    (fun r => (fst r, xforget_c (snd r))) (xthings_c root) (fun r => xthe (fst r) ++ xthings_c (snd r))
    (fun r => cwf (snd r) /\ rem_rel BR (fst r) (centries root) q (centries (snd r)))
    xthings_c (fun c => c_left (centries root) c /\ (lk -> exists old, rem_rel BR old (centries root) q (centries c))).
Proof.
  intros Hu Hwf Hlk. destruct root as [l rn]. unfold xcontainer_remove, container_remove. cbn [xforget_c fst snd].
  eapply spec_bind with (F := []); [rewrite app_nil_r; reflexivity|apply (xnode_remove_spec crash bdrop gv lk P cfg BR l rn q Hwf Hlk)| |].
  2:{ intros n' (H1 & H2 & H3). rewrite app_nil_r. apply cspec_ret; [apply keep_refl|]. split; [now split|exact H3]. }
  intros [[value n'] unders] (H1 & (Hcc1 & Hcc2 & Hcc3) & Hn & Hrel & Hun) _. unfold xforget_rem, xthings_rem. cbn [fst snd] in *. rewrite app_nil_r.
  assert (Hrep : map xforget_slot (repeat None l) = repeat None l).
  { generalize l as m. clear. induction m; cbn; congruence. }
  assert (Hrep0 : flat_map xthings_slot (repeat None l) = []).
  { generalize l as m. clear. induction m; cbn; congruence. }
  assert (Hrep1 : flat_map slot_entries (repeat None l) = []).
  { generalize l as m. clear. induction m; cbn; congruence. }
  assert (Hrep2 : slots_wf 0 (repeat None l)).
  { generalize 0 as j. generalize l as m. clear. induction m; cbn; auto. }
  destruct value as [value|].
  2:{ destruct (Hn eq_refl) as [-> ->]. cbn [flat_map map xstore_all store_all bind xthe app] in *. rewrite app_nil_r in *. rewrite xbind_inl.
      apply spec_ret; [reflexivity| |reflexivity]. split; [exact H1|exact Hrel]. }
  rewrite <- Hrep at 1.
  assert (Hleft : c_left (centries (l, rn)) (l, n')).
  { split; [exact H1|]. apply rem_rel_part in Hrel. eapply part_cut. exact Hrel. }
  eapply spec_bind with (H1 := flat_map xthings_slot (repeat None l) ++ flat_map xthings_cc unders) (F := [XVal value] ++ xthings n');
    [rewrite Hrep0; cbn [xthe]; perm| | |].
  { apply xstore_all_spec; auto. intros cc Hin. rewrite nth_error_repeat; [reflexivity|]. rewrite Forall_forall in Hcc3. now apply Hcc3. }
  2:{ intros u []. }
  intros arr (Hs & He & Ha) _. rewrite Hrep1 in He. cbn [app] in He.
  - eapply spec_dbind with (H1 := xthings_c (l, n')) (F := [XVal value] ++ flat_map xthings_slot arr); [unfold CrashSpec.xthings_c; cbn [snd]; perm|exact (dspec_try_unbranch (l, n') H1)|].
    intros c (Ec & Hc & Hce). change (l, xforget n') with (xforget_c (l, n')). rewrite Ec. cbn [bind].
    assert (Hrel' : rem_rel BR (Some value) (centries (l, rn)) q (centries c ++ flat_map slot_entries arr)).
    { eapply rem_rel_perm; [|exact Hrel]. rewrite Hce. unfold centries. cbn [snd]. now rewrite He. }
    eapply spec_bind with (H1 := xthings_c c ++ flat_map xthings_slot arr) (F := [XVal value]); [perm|apply (xreinsert_spec arr c 0 Hu Hc Hs)| |].
    { intros Hk. rewrite (Ha (proj1 (Hun Hk))). apply Forall_forall. intros o Ho'. exact (repeat_spec l None o Ho'). }
    + intros c' [H2 H3] _. apply spec_ret; [reflexivity| |cbn [fst snd xthe]; perm]. split; [exact H2|].
      cbn [fst snd]. eapply rem_rel_perm; [symmetry; exact H3|exact Hrel'].
    + intros c' [[H2 H3] Hnk]. eapply cspec_then with (H1 := [XVal value]) (F := xthings_c c'); [perm|apply dspec_destroy|apply keep_refl|].
      split; [|intros Hk; now elim (Hnk Hk)]. split; [exact H2|]. apply rem_rel_part in Hrel'. eapply part_trans; [exact H3|exact Hrel'].
Qed.
End XRemOps.
