(** User code that answers as it likes: the operations of a tree. *)
From Verif Require Export WildUnique.
Set Default Proof Using "Type".

Section WOps.
Context {B K V N : Type} (crash : nat -> bool) (bdrop : bool) (gv : list (xthing K V)) (np : Prop)
  (Hnc : np -> forall i, crash i = false) (O : nat -> nat -> answers B K V N) (U : numops N) (cfg : config).
Notation xnode := (xnode B K V).
Notation xcontainer := (xcontainer B K V).
Notation xentry := (xentry B K V).
Notation xcc := (xcc B K V).
Notation wspec := (wspec gv np).
Notation cspec := (cspec gv False).
Notation dspec := (dspec gv).
Notation cap := (max_children cfg).
Notation minc := (min_children cfg).
Notation xthings := (xthings bdrop).
Notation xthings_c := (xthings_c bdrop).
Notation xthings_e := (xthings_e bdrop).
Notation xthings_o := (xthings_o bdrop).
Notation xthings_cc := (xthings_cc bdrop).
Notation bnd_things := (bnd_things bdrop).
Context (lo : nat) (Hcap : np -> 2 <= cap) (Hlo : np -> lo <= 1 \/ lo <= Nat.min minc (cap - minc)) (Hrem : np -> lo <= minc)
  (Hroot2 : np -> minc = 0 \/ 2 <= lo) (Hu : bdrop = false \/ cap <> 1).
Notation ywf := (ywf np cfg lo).
Notation ychild := (ychild np cfg lo).
Notation yentry := (yentry np cfg lo).
Notation yo := (yo np cfg lo).
Ltac ask := apply (wspec_ask crash gv np Hnc).

Definition yroot (t : xcontainer) : Prop := ywf (fst t) (snd t) /\ (np -> fst t <> 0 -> 2 <= xlen (snd t)).
(** What a call leaves behind when it returns, when it unwinds; [l]: the height before. *)
Definition w_ok (l : nat) (es : list (K * V)) (_ : nat) (t : xcontainer) : Prop :=
  yroot t /\ Permutation (centries t) es /\ l <= fst t.
Definition w_left (es : list (K * V)) (_ : nat) (t : xcontainer) : Prop := yroot t /\ part_of (centries t) es.

Lemma yroot_unwound l (n : xnode) : ~ np -> ywf l n -> yroot (l, n).
Proof. intros Hn Hw. split; [exact Hw|]. intros Hnp. now elim Hn. Qed.

Lemma wbranch_spec c (root sib : xcontainer) : ychild (fst root) (snd root) -> yo (fst root) (Some sib) ->
  wspec c (wbranch crash bdrop O cfg root sib) (xthings_c root ++ xthings_c sib) xthings_c (w_ok (fst root) (centries root ++ centries sib))
    xthings_c (w_left (centries root ++ centries sib)).
Proof using Hnc Hu Hcap.
  clear Hroot2 Hrem Hlo.
  intros Hwf (Hl & Hws & Hcap1). destruct root as [l rn], sib as [l' sn]. cbn [fst snd] in *. subst l'.
  unfold wbranch, CrashSpec.xthings_c. cbn [fst snd]. rewrite Nat.eqb_refl. cbn [negb].
  eapply wspec_dbind with (F := []); [rewrite app_nil_r; reflexivity|apply dspec_use_bnd|].
  { apply part_app_r, bnd_part. }
  intros u _. rewrite app_nil_r.
  eapply wspec_dbind with (F := []); [rewrite app_nil_r; reflexivity|apply dspec_use_bnd|].
  { eapply part_perm_r; [apply Permutation_app_comm|]. apply part_app_r, bnd_part. }
  intros u' _. rewrite app_nil_r.
  assert (Hleft : ~ np -> forall c, w_left (centries (l, rn) ++ centries (l, sn)) c (l, rn)).
  { intros Hn c'. split; [apply yroot_unwound; [exact Hn|exact (proj1 Hwf)]|]. apply part_app_r, part_refl. }
  ask.
  2:{ intros Hn. eapply cspec_then with (H1 := xthings sn) (F := xthings rn); [perm| |apply keep_refl|apply Hleft, Hn].
      apply (dspec_drop_container bdrop gv cfg (l, sn)). apply (ywf_xwf np cfg lo), (proj1 Hws). }
  eapply wspec_dbind with (H1 := []); [cbn [app]; reflexivity|apply dspec_new_buf|]. intros id _.
  set (H0 := [XBuf id] ++ xthings rn ++ xthings sn).
  assert (E1 : xtry_push cap [] rn = dret (inl [rn]) :> X K V (list xnode) xnode).
  { unfold xtry_push. cbn [length app]. destruct (Nat.eqb_spec 0 cap); [lia|]. reflexivity. }
  rewrite E1, xbind_inl. destruct (Nat.eqb_spec 1 cap) as [Hc1|Hc1].
  - destruct Hu as [Hu'|Hu']; [|lia].
    assert (E2 : xtry_push cap [rn] sn = dret (inr sn) :> X K V (list xnode) xnode).
    { unfold xtry_push. cbn [length app]. rewrite <- Hc1. reflexivity. }
    assert (Hn : ~ np) by (intros Hnp; specialize (Hcap Hnp); lia).
    rewrite E2, xbind_inr. apply wspec_unwind; [exact Hn|].
    eapply cspec_bind with (F := []); [rewrite app_nil_r; reflexivity|apply dspec_cspec, (drop_bnd_nothing bdrop gv (x_bid sn) H0 Hu')|].
    intros v _. rewrite app_nil_r.
    eapply cspec_bind with (H1 := XBuf id :: flat_map (fun _ => []) [rn]) (F := xthings rn ++ xthings sn);
      [reflexivity|apply (cspec_drop_vec gv False (drop_bare bdrop) (fun _ => []))|].
    { intros x. apply dspec_cspec. apply (drop_bnd_nothing bdrop gv (x_bid x) [] Hu'). }
    intros w _. apply cspec_ret; [|apply Hleft, Hn]. cbn [nothing app]. apply keep_not; [tauto|]. apply part_app_r, part_refl.
  - assert (E2 : xtry_push cap [rn] sn = dret (inl [rn; sn]) :> X K V (list xnode) xnode).
    { unfold xtry_push. cbn [length app]. destruct (Nat.eqb_spec 1 cap); [lia|]. destruct (Nat.ltb_spec cap 1); [lia|]. reflexivity. }
    rewrite E2, xbind_inl.
    eapply wspec_dbind with (H1 := []); [cbn [app]; reflexivity|apply dspec_new_bnd|]. intros bid _. apply wspec_ret.
    + split; [split|split].
      * cbn [fst snd]. rewrite Nat.add_1_r. split; [cbn; lia|]. constructor; [exact Hwf|]. now constructor.
      * intros _ _. cbn. lia.
      * unfold centries. cbn [fst snd]. rewrite xentries_inner. cbn [flat_map]. perm.
      * cbn. lia.
    + cbn [fst snd CrashSpec.xthings flat_map]. unfold H0. perm.
Qed.

Lemma winsert_entry_spec c (root : xcontainer) (e : xentry) : yroot root -> yentry e -> (np -> x_target_level e <= fst root) ->
  wspec c (winsert_entry crash bdrop O U cfg root e) (xthings_c root ++ xthings_e e) xthings_c (w_ok (fst root) (centries root ++ xentries_e e))
    xthings_c (w_left (centries root ++ xentries_e e)).
Proof using Hnc Hu Hcap Hlo.
  clear Hroot2 Hrem.
  intros [Hwf Hr] He Ht. destruct root as [l rn]. unfold winsert_entry. cbn [fst snd] in *.
  eapply wspec_bind with (F := []); [rewrite app_nil_r; reflexivity|apply (wnode_insert_spec crash bdrop gv np Hnc O U cfg lo Hcap Hlo l c rn e Hwf He Ht)| |].
  - intros Hnp Hne. specialize (Ht Hnp). specialize (Hr Hnp ltac:(lia)). lia.
  - intros c' [n' sib] Hc (H1 & H2 & H3 & H4). cbn [fst snd] in *. rewrite app_nil_r. destruct sib as [s|].
    + eapply wspec_mono; [| |exact (wbranch_spec c' (l, n') s (conj H1 H4) H2)].
      * intros c2 t _ (H5 & H6 & H7). split; [exact H5|]. split; [|exact H7]. rewrite H6. exact H3.
      * intros _ c2 t _ [H5 H6]. split; [exact H5|]. eapply part_perm_r; [symmetry; exact H3|exact H6].
    + apply wspec_ret; [|unfold CrashTree.xthings_o; rewrite app_nil_r; reflexivity]. split; [split; [exact H1|]|split; [|cbn; lia]].
      * intros Hnp Hl0. specialize (Hr Hnp Hl0). cbn [fst snd] in *. lia.
      * cbn [xentries_o] in H3. rewrite app_nil_r in H3. exact H3.
  - intros Hn c' n' _ [H1 H2]. rewrite app_nil_r. apply cspec_ret; [apply keep_refl|]. split; [now apply yroot_unwound|exact H2].
Qed.

Lemma wcontainer_insert_unique_spec c (root : xcontainer) k v : yroot root ->
  wspec c (wcontainer_insert_unique crash bdrop O U cfg root k v) (xthings_c root ++ xkv_things (k, v))
    (fun r => xthe (fst r) ++ xthings_c (snd r))
    (fun c' r => yroot (snd r) /\ urel (fun k0 => matched (wself O) c c' k0 k) (fst r) (centries root) k v (centries (snd r)))
    xthings_c (fun c' t => yroot t /\ uleft (fun k0 => matched (wself O) c c' k0 k) (centries root) k v (centries t)).
Proof using Hnc Hu Hcap Hlo.
  clear Hroot2 Hrem.
  intros [Hwf Hr]. destruct root as [l rn]. unfold wcontainer_insert_unique. cbn [fst snd] in *.
  eapply wspec_bind with (F := []); [rewrite app_nil_r; reflexivity|apply (wnode_insert_unique_spec crash bdrop gv np Hnc O U cfg lo Hcap Hlo l c c rn k v (le_n _) Hwf)| |].
  - intros Hnp Hne. specialize (Hr Hnp Hne). lia.
  - intros c' [[old n'] sib] Hc (H1 & H2 & H3 & H4). unfold wthings_uni. cbn [fst snd] in *. rewrite app_nil_r. destruct sib as [s|].
    + eapply wspec_bind with (H1 := xthings_c (l, n') ++ xthings_c s) (F := xthe old);
        [cbn [CrashTree.xthings_o]; unfold CrashSpec.xthings_c; cbn [snd]; perm|exact (wbranch_spec c' (l, n') s (conj H1 H4) H2)| |].
      * intros c2 t Hc2 (H5 & H6 & H7). apply wspec_ret; [|cbn [fst snd]; perm]. split; [exact H5|]. cbn [fst snd].
        eapply urel_mono; [|eapply urel_perm; [symmetry; exact H6|exact H3]]. intros k0. apply matched_le; lia.
      * intros Hn c2 t Hc2 [H5 H6]. eapply cspec_then with (H1 := xthe old) (F := xthings_c t); [perm|apply dspec_drop_opt|apply keep_refl|].
        split; [exact H5|]. eapply uleft_mono; [|eapply urel_left; [exact H3|exact H6]]. intros k0. apply matched_le; lia.
    + apply wspec_ret.
      * split; [split; [exact H1|]|].
        -- intros Hnp Hl0. specialize (Hr Hnp Hl0). cbn [fst snd] in *. lia.
        -- cbn [xentries_o] in H3. rewrite app_nil_r in H3. exact H3.
      * cbn [fst snd CrashTree.xthings_o]. unfold CrashSpec.xthings_c. cbn [snd]. perm.
  - intros Hn c' n' _ [H1 H2]. rewrite app_nil_r. apply cspec_ret; [apply keep_refl|]. split; [now apply yroot_unwound|exact H2].
Qed.

Lemma dspec_yunbranch (root : xcontainer) : ywf (fst root) (snd root) ->
  (np -> fst root <> 0 -> 1 <= xlen (snd root) /\ (minc = 0 -> 2 <= xlen (snd root))) ->
  dspec (xtry_unbranch bdrop root) (xthings_c root) xthings_c (fun t => yroot t /\ centries t = centries root /\ fst root <= S (fst t)).
Proof using Hrem Hroot2.
  clear Hcap Hlo Hu.
  destruct root as [[|l] rn]; cbn [fst snd]; intros Hwf Hr; unfold xtry_unbranch, CrashSpec.xthings_c; cbn [fst snd].
  - assert (Hwf' := Hwf). apply ywf_leaf in Hwf' as (b & bid & id & es & -> & Hl).
    eapply dspec_bind with (F := []); [rewrite app_nil_r; reflexivity| |].
    { rewrite <- (app_nil_r (xthings _)). apply dspec_read_leaf_all. }
    intros es' ->. rewrite !app_nil_r. apply dspec_ret; [reflexivity|]. splits; auto. split; [exact Hwf|]. cbn. congruence.
  - assert (Hwf' := Hwf). apply ywf_inner in Hwf' as (b & bid & id & cs & -> & Hl & Hcs).
    eapply dspec_bind with (F := []); [rewrite app_nil_r; reflexivity| |].
    { rewrite <- (app_nil_r (xthings _)). apply dspec_read_inner_all. }
    intros cs' ->. rewrite !app_nil_r. destruct cs as [|x [|c2 cs]].
    + apply dspec_ret; [reflexivity|]. splits; auto. split; [exact Hwf|]. intros Hnp Hl0. specialize (Hr Hnp ltac:(discriminate)). cbn in Hr. lia.
    + cbn [with_ch map]. inversion Hcs as [|? ? [Hc Hcl] _]; subst.
      eapply dspec_bind with (H1 := xthings_c (S l, XNode b bid id (CInner []))) (F := xthings x).
      * unfold CrashSpec.xthings_c. cbn [snd CrashSpec.xthings flat_map]. perm.
      * apply (dspec_drop_container bdrop gv cfg (S l, XNode b bid id (CInner []))). split; [cbn; lia|constructor].
      * intros u _. apply dspec_ret; [reflexivity|]. splits; [split; [exact Hc|]| |cbn; lia].
        -- cbn [fst snd]. intros Hnp Hl0. specialize (Hr Hnp ltac:(discriminate)). specialize (Hcl Hnp). specialize (Hrem Hnp).
           cbn in Hr. destruct (Hroot2 Hnp) as [E2|E2]; [lia|]. unfold lo_at in Hcl. destruct l; lia.
        -- unfold centries. cbn [snd]. rewrite xentries_inner. cbn [flat_map]. now rewrite app_nil_r.
    + apply dspec_ret; [reflexivity|]. splits; auto. split; [exact Hwf|]. intros _ _. cbn. lia.
Qed.

(** *** The array of underfull nodes *)
Notation xslot := (xslot (B := B) (K := K) (V := V)).
Notation xthings_slot := (xthings_slot bdrop).
Definition yslot (level : nat) (o : xslot) : Prop :=
  match o, level with
  | None, _ => True
  | Some (_, CLeaf es), 0 => length es <= cap
  | Some (_, CInner cs), S l => length cs <= cap /\ Forall (ychild l) cs
  | _, _ => False
  end.
Fixpoint yslots (level : nat) (arr : list xslot) : Prop :=
  match arr with [] => True | o :: r => yslot level o /\ yslots (S level) r end.

Lemma yslots_set level arr i o : yslots level arr -> yslot (level + i) o -> yslots level (set_nth i o arr).
Proof.
  clear Hcap Hlo Hu Hrem Hroot2.
  revert level i; induction arr as [|x arr IH]; intros level i H Ho; [now destruct i|]. destruct H as [H1 H2].
  destruct i as [|i]; cbn [set_nth yslots].
  - rewrite Nat.add_0_r in Ho. auto.
  - split; [exact H1|]. apply IH; [exact H2|]. now rewrite Nat.add_succ_comm.
Qed.

Lemma ystore_all_spec c ccs (arr : list xslot) : yslots 0 arr ->
  Forall (ycc np cfg lo) ccs -> NoDup (map xcc_level ccs) -> (forall cc, In cc ccs -> nth_error arr (xcc_level cc) = Some None) ->
  wspec c (xstore_all arr ccs) (flat_map xthings_slot arr ++ flat_map xthings_cc ccs) (flat_map xthings_slot)
    (fun _ arr' => yslots 0 arr' /\ Permutation (flat_map slot_entries arr') (flat_map slot_entries arr ++ flat_map ccs_entries ccs) /\
       length arr' = length arr)
    nothing (fun _ _ => False).
Proof.
  clear Hcap Hlo Hu Hrem Hroot2.
  revert arr; induction ccs as [|cc ccs IH]; intros arr Hw Hcc Hnd Hnone; cbn [xstore_all].
  - apply wspec_ret.
    + split; [exact Hw|]. cbn [flat_map]. split; [now rewrite app_nil_r|reflexivity].
    + cbn [flat_map]. now rewrite app_nil_r.
  - assert (Hslot := Hnone cc (or_introl eq_refl)).
    assert (Hlt := nth_error_lt _ _ _ Hslot). apply Nat.ltb_lt in Hlt. rewrite Hlt.
    inversion Hnd as [|? ? Hnin Hnd']; subst. inversion Hcc as [|? ? Hwc Hcc']; subst.
    destruct (nth_error_split_set _ _ (Some (xcc_leak cc)) _ Hslot) as (a1 & a2 & Ea & _ & Es).
    eapply wspec_perm; [|eapply wspec_mono; [| |apply (IH (set_nth (xcc_level cc) (Some (xcc_leak cc)) arr))]].
    + rewrite Es, Ea. rewrite !flat_map_app. cbn [flat_map].
      replace (xthings_slot (Some (xcc_leak cc))) with (xthings_cc cc) by (now destruct cc).
      cbn [CrashOps.xthings_slot]. perm.
    + intros c' a _ (H1 & H2 & H3). split; [exact H1|]. rewrite set_nth_length in H3. split; [|exact H3]. rewrite H2, Es, Ea, !flat_map_app. cbn [flat_map].
      replace (slot_entries (Some (xcc_leak cc))) with (ccs_entries cc) by (now destruct cc). cbn [slot_entries]. perm.
    + intros _ c' e _ He. exact He.
    + apply yslots_set; [exact Hw|]. destruct cc as [[|l] id cs|id es]; cbn in *; auto.
    + exact Hcc'.
    + exact Hnd'.
    + intros cc2 Hin. rewrite nth_error_set_nth. destruct (Nat.eqb_spec (xcc_level cc) (xcc_level cc2)) as [E|E].
      * elim Hnin. rewrite E. now apply in_map.
      * apply Hnone. now right.
Qed.

Lemma winsert_entries_spec c es (root : xcontainer) : yroot root -> Forall yentry es -> (np -> Forall (fun e => x_target_level e <= fst root) es) ->
  wspec c (winsert_entries crash bdrop O U cfg root es)
    (xthings_c root ++ flat_map xthings_e es) xthings_c (w_ok (fst root) (centries root ++ flat_map xentries_e es))
    xthings_c (w_left (centries root ++ flat_map xentries_e es)).
Proof using Hnc Hu Hcap Hlo.
  clear Hroot2 Hrem.
  revert c root; induction es as [|e es IH]; intros c root Hwf Hes Ht; cbn [winsert_entries flat_map].
  - apply wspec_ret; [|now rewrite app_nil_r]. split; [exact Hwf|]. split; [now rewrite app_nil_r|lia].
  - inversion Hes as [|? ? He Hes']; subst.
    eapply wspec_bind with (H1 := xthings_c root ++ xthings_e e) (F := flat_map xthings_e es); [perm|apply (winsert_entry_spec c root e Hwf He)| |].
    + intros Hnp. specialize (Ht Hnp). now inversion Ht.
    + intros c' t _ (H1 & H2 & Hl). eapply wspec_mono; [| |apply (IH c' t H1 Hes')].
      * intros c2 t' _ (H3 & H4 & Hl2). split; [exact H3|]. split; [|lia]. rewrite H4, H2. perm.
      * intros _ c2 t' _ [H3 H4]. split; [exact H3|]. eapply part_perm_r; [|exact H4]. rewrite H2. perm.
      * intros Hnp. specialize (Ht Hnp). inversion Ht as [|? ? _ Ht']; subst. eapply Forall_impl; [|exact Ht']. cbn. intros; lia.
    + intros Hn c' t _ (H1 & H2). eapply cspec_then with (H1 := flat_map xthings_e es) (F := xthings_c t); [perm| |apply keep_refl|].
      * apply dspec_dseq. intros e' Hin. apply (dspec_drop_entry bdrop gv cfg). apply (yentry_wf np cfg lo). rewrite Forall_forall in Hes'. now apply Hes'.
      * split; [exact H1|]. eapply part_perm_r; [|exact (part_app_r _ _ (flat_map xentries_e es) H2)]. perm.
Qed.

Lemma wreinsert_spec c arr (root : xcontainer) level : yroot root -> yslots level arr -> (np -> level + length arr <= S (fst root)) ->
  wspec c (wreinsert crash bdrop O U cfg root level arr)
    (xthings_c root ++ flat_map xthings_slot arr) xthings_c (w_ok (fst root) (centries root ++ flat_map slot_entries arr))
    xthings_c (w_left (centries root ++ flat_map slot_entries arr)).
Proof using Hnc Hu Hcap Hlo.
  clear Hroot2 Hrem.
  revert c root level; induction arr as [|o arr IH]; intros c root level Hwf Harr Hlv; cbn [wreinsert].
  - apply wspec_ret; [|cbn [flat_map]; now rewrite app_nil_r]. split; [exact Hwf|]. cbn [flat_map]. split; [now rewrite app_nil_r|lia].
  - destruct Harr as [Ho Harr]. cbn [length] in Hlv. destruct o as [[id ch]|].
    2:{ cbn [flat_map CrashOps.xthings_slot slot_entries app]. apply IH; auto. intros Hnp. specialize (Hlv Hnp). lia. }
    assert (Hcc : exists cc, xwrap_children (id, ch) level = dret cc :> D K V _ /\
       xcc_id cc = id /\ flat_map xthings_e (xcc_entries cc) = xthings_ch bdrop ch /\
       Forall yentry (xcc_entries cc) /\ Forall (fun e => x_target_level e <= level) (xcc_entries cc) /\
       flat_map xentries_e (xcc_entries cc) = xentries_ch ch).
    { destruct level as [|l], ch as [cs|es]; cbn [yslot] in Ho; try contradiction.
      - exists (XCCLeaf id es). splits; auto.
        + cbn [xcc_entries xthings_ch]. clear. induction es as [|kv es IHe]; [reflexivity|]. cbn [map flat_map CrashTree.xthings_e]. now rewrite IHe.
        + cbn [xcc_entries]. apply Forall_forall. intros e He. apply in_map_iff in He as (kv & <- & _). exact Logic.I.
        + cbn [xcc_entries]. apply Forall_forall. intros e He. apply in_map_iff in He as (kv & <- & _). cbn. lia.
        + cbn [xcc_entries xentries_ch]. clear. induction es as [|kv es IHe]; [reflexivity|]. cbn [map flat_map xentries_e]. now rewrite IHe.
      - destruct Ho as [Hl Hcs]. exists (XCCInner (S l) id cs). splits; auto.
        + cbn [xcc_entries xthings_ch]. clear. induction cs as [|x cs IHc]; [reflexivity|]. cbn [map flat_map CrashTree.xthings_e]. now rewrite IHc.
        + cbn [xcc_entries]. apply Forall_forall. intros e He. apply in_map_iff in He as (x & <- & Hin).
          cbn [WildTree.yentry fst snd]. replace (S l - 1) with l by lia. rewrite Forall_forall in Hcs. now apply Hcs.
        + cbn [xcc_entries]. apply Forall_forall. intros e He. apply in_map_iff in He as (x & <- & Hin). cbn. lia.
        + cbn [xcc_entries xentries_ch]. clear. induction cs as [|x cs IHc]; [reflexivity|]. cbn [map flat_map xentries_e snd]. now rewrite IHc. }
    destruct Hcc as (cc & E1 & Eid & Eth & Hwe & Hwt & Een). rewrite E1, dbind_ret, Eid.
    cbn [flat_map CrashOps.xthings_slot slot_entries].
    eapply wspec_dbind with (F := []); [rewrite app_nil_r; reflexivity|apply dspec_use; [|reflexivity]|].
    { apply in_or_app. right. now left. }
    intros u _. rewrite app_nil_r.
    eapply wspec_bind with (F := XBuf id :: flat_map xthings_slot arr); [|apply (winsert_entries_spec c (xcc_entries cc) root Hwf Hwe)| |].
    { rewrite Eth. perm. }
    { intros Hnp. specialize (Hlv Hnp). eapply Forall_impl; [|exact Hwt]. cbn. intros; lia. }
    + intros c' t _ (H1 & H2 & Hl). eapply wspec_dbind with (H1 := [XBuf id]) (F := xthings_c t ++ flat_map xthings_slot arr); [perm|apply dspec_destroy|].
      intros v _. cbn [nothing app]. eapply wspec_mono; [| |apply (IH c' t (S level) H1 Harr)].
      * intros c2 t' _ (H3 & H4 & Hl2). split; [exact H3|]. split; [|lia]. rewrite H4, H2, Een. perm.
      * intros _ c2 t' _ [H3 H4]. split; [exact H3|]. eapply part_perm_r; [|exact H4]. rewrite H2, Een. perm.
      * intros Hnp. specialize (Hlv Hnp). lia.
    + intros Hn c' t _ [H1 H2]. eapply cspec_then with (H1 := [XBuf id]) (F := xthings_c t ++ flat_map xthings_slot arr);
        [perm|apply dspec_destroy|apply keep_not; [tauto|apply part_app_r, part_refl]|].
      split; [exact H1|]. eapply part_perm_r; [|exact (part_app_r _ _ (flat_map slot_entries arr) H2)]. rewrite Een. perm.
Qed.

Lemma wcontainer_remove_spec c {Q} (OQ : nat -> nat -> qanswers B K Q) (root : xcontainer) q : yroot root ->
  wspec c (wcontainer_remove crash bdrop O U cfg OQ root q) (xthings_c root) (fun r => xthe (fst r) ++ xthings_c (snd r))
    (fun c' r => yroot (snd r) /\ rrel (fun k => matched OQ c c' k q) (fst r) (centries root) (centries (snd r)) /\
       (fst r = None -> snd r = root))
    xthings_c (w_left (centries root)).
Proof using Hnc Hu Hcap Hlo Hrem Hroot2.
  intros [Hwf Hr]. destruct root as [l rn]. unfold wcontainer_remove. cbn [fst snd] in *.
  eapply wspec_bind with (F := []); [rewrite app_nil_r; reflexivity|apply (wnode_remove_spec crash bdrop gv np Hnc O cfg lo Hrem OQ l c c rn q (le_n _) Hwf)| |].
  2:{ intros Hn c' n' _ (H1 & H2). rewrite app_nil_r. apply cspec_ret; [apply keep_refl|]. split; [now apply yroot_unwound|exact H2]. }
  intros c' [[value n'] unders] Hc' (H1 & (Hcc1 & Hcc2 & Hcc3) & Hn & Hrel & Hf1 & Hf2). unfold wthings_rem. cbn [fst snd] in *. rewrite app_nil_r.
  assert (Hrep0 : flat_map xthings_slot (repeat (@None (nat * children xnode (K * V))) l) = []).
  { generalize l as m. clear. induction m; cbn; congruence. }
  assert (Hrep1 : flat_map slot_entries (repeat (@None (nat * children xnode (K * V))) l) = []).
  { generalize l as m. clear. induction m; cbn; congruence. }
  assert (Hrep2 : yslots 0 (repeat None l)).
  { generalize 0 as j. generalize l as m. clear. induction m; cbn; auto. }
  destruct value as [value|].
  2:{ destruct (Hn eq_refl) as [-> ->]. cbn [flat_map map xstore_all xthe app] in *. rewrite app_nil_r in *. rewrite xbind_inl.
      apply wspec_ret; [|reflexivity]. split; [now split|]. split; [exact Hrel|reflexivity]. }
  eapply wspec_bind with (H1 := flat_map xthings_slot (repeat None l) ++ flat_map xthings_cc unders) (F := [XVal value] ++ xthings n');
    [rewrite Hrep0; cbn [xthe]; perm| | |].
  { apply ystore_all_spec; auto. intros cc Hin. rewrite nth_error_repeat; [reflexivity|]. rewrite Forall_forall in Hcc3. now apply Hcc3. }
  2:{ intros _ c2 u _ []. }
  intros c2 arr Hc2 (Hs & He & Ha). rewrite Hrep1 in He. cbn [app] in He. rewrite repeat_length in Ha.
  eapply wspec_dbind with (H1 := xthings_c (l, n')) (F := [XVal value] ++ flat_map xthings_slot arr);
    [unfold CrashSpec.xthings_c; cbn [snd]; perm|apply (dspec_yunbranch (l, n') H1)|].
  { cbn [fst snd]. intros Hnp Hl0. specialize (Hr Hnp Hl0). split; [lia|]. intros Hz. specialize (Hf2 Hz Hl0). lia. }
  intros t (Hc & Hce & Hlt). cbn [fst snd] in Hlt.
  assert (Hrel' : rrel (fun k => matched OQ c c' k q) (Some value) (centries (l, rn)) (centries t ++ flat_map slot_entries arr)).
  { eapply rrel_perm; [|exact Hrel]. rewrite Hce. unfold centries. cbn [snd]. now rewrite He. }
  eapply wspec_bind with (H1 := xthings_c t ++ flat_map xthings_slot arr) (F := [XVal value]); [perm|apply (wreinsert_spec c2 arr t 0 Hc Hs)| |].
  { intros _. lia. }
  + intros c3 t' Hc3 (H2 & H3 & _). apply wspec_ret; [|cbn [fst snd xthe]; perm]. split; [exact H2|]. split; [|discriminate].
    cbn [fst snd]. eapply rrel_mono; [|eapply rrel_perm; [symmetry; exact H3|exact Hrel']]. intros k0. apply matched_le; lia.
  + intros Hnn c3 t' _ [H2 H3]. eapply cspec_then with (H1 := [XVal value]) (F := xthings_c t'); [perm|apply dspec_destroy|apply keep_refl|].
    split; [exact H2|]. apply rrel_part in Hrel'. eapply part_trans; [exact H3|exact Hrel'].
Qed.
End WOps.
