(** Unwinding: insertion and lookup below the root. *)
From Verif Require Export CrashTree.

Lemma nth_split_mid {T} i (x : T) l : nth_error l i = Some x ->
  exists l1 l2, l = l1 ++ x :: l2 /\ forall y, set_nth i y l = l1 ++ y :: l2.
Proof.
  intros E. apply nth_error_split in E as (l1 & l2 & -> & <-). exists l1, l2. split; [reflexivity|].
  intros y. apply set_nth_middle.
Qed.

Lemma part_middle {T} (l1 l2 m m' : list T) : part_of m m' -> part_of (l1 ++ m ++ l2) (l1 ++ m' ++ l2).
Proof. intros H. apply part_app; [apply part_refl|]. apply part_app; [exact H|apply part_refl]. Qed.

Set Default Proof Using "Type".
Section XInsert.
Context {B K V : Type} (crash : nat -> bool) (bdrop : bool) (gv : list (xthing K V)) (lk ns : Prop) (P : Params B K) (cfg : config).
Notation xnode := (xnode B K V).
Notation xcontainer := (xcontainer B K V).
Notation xentry := (xentry B K V).
Notation spec := (spec crash gv lk).
Notation cspec := (cspec gv lk).
Notation dspec := (dspec gv).
Notation cap := (max_children cfg).
Notation minc := (min_children cfg).
Notation xthings := (xthings bdrop).
Notation xthings_c := (xthings_c bdrop).
Notation xthings_e := (xthings_e bdrop).
Notation xthings_o := (xthings_o bdrop).
Notation bnd_things := (bnd_things bdrop).
Notation xwf := (xwf cfg).
Notation xwf_o := (xwf_o cfg).
Notation xentry_wf := (xentry_wf cfg).
Notation ins_spec := (ins_spec crash bdrop gv lk ns cfg).
Notation xout_ok := (xout_ok ns cfg).
Notation xleft_ok := (xleft_ok ns cfg).

(** Every inner node has room for one more child; every node has room for one more element. *)
Fixpoint xroom (level : nat) (n : xnode) : Prop :=
  match level, x_children n with S l, CInner cs => length cs < cap /\ Forall (xroom l) cs | _, _ => True end.
Fixpoint xroom_all (level : nat) (n : xnode) : Prop :=
  match level, x_children n with
  | S l, CInner cs => length cs < cap /\ Forall (xroom_all l) cs
  | 0, CLeaf es => length es < cap
  | _, _ => True
  end.
Lemma xroom_top level n : xwf level n -> xroom level n ->
  match x_children n with CInner cs => length cs < cap | CLeaf _ => True end.
Proof. destruct level as [|l], n as [b bid id [cs|es]]; cbn; intros H1 H2; try contradiction; try exact Logic.I; first [exact (proj1 H2)|exact H2]. Qed.
Lemma xroom_all_top level n : xwf level n -> xroom_all level n ->
  match x_children n with CInner cs => length cs < cap | CLeaf es => length es < cap end.
Proof. destruct level as [|l], n as [b bid id [cs|es]]; cbn; intros H1 H2; try contradiction; try exact Logic.I; first [exact (proj1 H2)|exact H2]. Qed.

Lemma x_target_forget (e : xentry) : x_target_level e = target_level (xforget_e e).
Proof. destruct e as [[l n]|kv]; reflexivity. Qed.
Lemma x_entry_bounds_forget (e : xentry) : x_entry_bounds P e = entry_bounds P (xforget_e e).
Proof. destruct e as [[l n]|[k v]]; [apply x_bounds_forget|reflexivity]. Qed.

Lemma dspec_read_inner_all b bid id (cs : list xnode) F :
  dspec (xread_inner bdrop (XNode b bid id (CInner cs))) (xthings (XNode b bid id (CInner cs)) ++ F)
    (fun _ => xthings (XNode b bid id (CInner cs)) ++ F) (fun cs' => cs' = cs).
Proof.
  apply dspec_read_inner. apply part_app_r. cbn [CrashSpec.xthings].
  eapply part_perm_r; [apply Permutation_app_comm|]. apply part_app_r, part_refl.
Qed.
Lemma dspec_read_leaf_all b bid id (es : list (K * V)) F :
  dspec (xread_leaf (XNode b bid id (CLeaf es) : xnode)) (xthings (XNode b bid id (CLeaf es)) ++ F)
    (fun _ => xthings (XNode b bid id (CLeaf es)) ++ F) (fun es' => es' = es).
Proof. apply dspec_read_leaf. cbn [CrashSpec.xthings]. rewrite <- app_assoc. apply in_or_app. right. now left. Qed.

(** After an insertion into a child. *)
Lemma child_tail_spec l b bid id (cs : list xnode) nc eb : length cs <= cap -> Forall (xwf l) cs -> xwf_o l nc -> (lk -> length cs < cap) -> (ns -> nc = None) ->
  let n := XNode b bid id (CInner cs) in
  spec
    (match nc with
     | Some new_child =>
       try! _ := user crash catch _ => (let$ _ := xdrop_container bdrop new_child in dret n) in
       let$ n := set_bounds bdrop n (b_union_all (bops P) (map x_bounds cs)) in
       xself_insert crash bdrop P cfg (S l) n (XEInner new_child)
     | None =>
       try! _ := user crash catch _ => dret n in
       let$ n := set_bounds bdrop n (b_union (bops P) (x_bounds n) eb) in
       dret (inl (n, None))
     end)
    (match option_map xforget_c nc with
     | Some new_child =>
       self_insert P cfg (S l) (Node (b_union_all (bops P) (map node_bounds (map xforget cs))) (CInner (map xforget cs))) (EInner new_child)
     | None => Ok (Node (b_union (bops P) b eb) (CInner (map xforget cs)), None)
     end) xforget_out (xthings n ++ xthings_o nc) (fun r => xthings (fst r) ++ xthings_o (snd r))
    (xout_ok (S l) (xentries n ++ xentries_o nc)) xthings (xleft_ok (S l) (xentries n) (xentries n ++ xentries_o nc)).
Proof.
  intros Hl Hcs Hnc Hlk Hns n. assert (Hwf : xwf (S l) n) by (split; assumption). destruct nc as [[nl nn]|]; cbn [option_map].
  - assert (Hnns : ~ ns) by (intros Hn; specialize (Hns Hn); discriminate).
    destruct Hnc as (Hnl & Hw & Hc). cbn [fst snd] in *. subst nl. apply spec_user.
    + eapply spec_dbind; [reflexivity|apply dspec_set_bounds|]. intros n' [bid' ->]. subst n. cbn [x_id x_children].
      rewrite map_x_bounds.
      exact (xself_insert_spec crash bdrop gv lk ns P cfg (S l) (XNode _ bid' id (CInner cs)) (XEInner (l, nn)) Hwf Hw Hlk (fun H => False_ind _ (Hnns H))).
    + eapply cspec_then with (F := xthings n); [|apply (dspec_drop_container bdrop gv cfg (l, nn) Hw)|apply keep_refl|]; [cbn [CrashTree.xthings_o]; perm|].
      split; [exact Hwf|]. split; [apply part_app_r, part_refl|intros _; apply part_refl].
  - apply spec_user.
    + eapply spec_dbind; [reflexivity|apply dspec_set_bounds|]. intros n' [bid' ->]. subst n. cbn [x_id x_children].
      apply spec_ret; [reflexivity| |reflexivity]. split; [exact Hwf|]. split; [exact Logic.I|]. now split.
    + apply cspec_ret; [cbn; rewrite app_nil_r; apply keep_refl|]. split; [exact Hwf|]. split; [apply part_app_r, part_refl|intros _; apply part_refl].
Qed.

Lemma xnode_insert_spec level (n : xnode) (e : xentry) : xwf level n -> xentry_wf e ->
  (lk -> xroom level n) -> (ns -> xroom_all level n) ->
  ins_spec level (xnode_insert crash bdrop P cfg level n e) (node_insert P cfg level (xforget n) (xforget_e e)) n e.
Proof.
  revert n e; induction level as [|l IH]; intros n e Hwf He Hlk Hns; cbn [xnode_insert node_insert]; rewrite <- x_target_forget.
  - unfold CrashTree.ins_spec.
    assert (Hab : cspec (let$ _ := xdrop_entry bdrop e in dret n) (xthings n ++ xthings_e e) xthings (xleft_ok 0 (xentries n) (xentries n ++ xentries_e e))).
    { eapply cspec_then with (F := xthings n); [|apply (dspec_drop_entry bdrop gv cfg e He)|apply keep_refl|]; [perm|].
      split; [exact Hwf|]. split; [apply part_app_r, part_refl|intros _; apply part_refl]. }
    apply spec_user; [|exact Hab]. destruct (negb _).
    + apply spec_unwind; [reflexivity|exact Hab].
    + apply xself_insert_spec; auto; [intros Hk; exact (xroom_top 0 n Hwf (Hlk Hk))|intros Hk; exact (xroom_all_top 0 n Hwf (Hns Hk))].
  - unfold CrashTree.ins_spec.
    assert (Hab : cspec (let$ _ := xdrop_entry bdrop e in dret n) (xthings n ++ xthings_e e) xthings (xleft_ok (S l) (xentries n) (xentries n ++ xentries_e e))).
    { eapply cspec_then with (F := xthings n); [|apply (dspec_drop_entry bdrop gv cfg e He)|apply keep_refl|]; [perm|].
      split; [exact Hwf|]. split; [apply part_app_r, part_refl|intros _; apply part_refl]. }
    apply spec_user; [|exact Hab]. destruct (negb _).
    2:{ apply xself_insert_spec; auto; [intros Hk; exact (xroom_top (S l) n Hwf (Hlk Hk))|intros Hk; exact (xroom_all_top (S l) n Hwf (Hns Hk))]. }
    apply xwf_inner in Hwf as (b & bid & id & cs & -> & Hl & Hcs).
    eapply spec_dbind with (F := []); [rewrite app_nil_r; reflexivity|apply dspec_read_inner_all|].
    intros cs' ->. rewrite app_nil_r. cbn [xforget node_children read_inner bind node_bounds].
    apply spec_user; [|exact Hab].
    apply (spec_lift crash gv lk (fun x => x)); [|apply unwrap_not_ub|apply unwrap_not_oof| |exact Hab].
    { rewrite <- res_map_id, map_x_bounds, x_entry_bounds_forget. reflexivity. }
    intros i Ei.
    apply (spec_lift crash gv lk xforget); [|apply unwrap_not_ub|apply unwrap_not_oof| |exact Hab].
    { rewrite nth_error_map_, unwrap_map. reflexivity. }
    intros child Ec. destruct (nth_error cs i) as [c|] eqn:En; [|discriminate]. injection Ec as ->.
    apply nth_split_mid in En as (l1 & l2 & -> & Hset).
    assert (Hcs' := Hcs). apply Forall_app in Hcs' as [Hw1 Hw2]. inversion Hw2 as [|? ? Hwc Hw3]; subst.
    assert (Hsame : forall c', xwf l c' -> Forall (xwf l) (l1 ++ c' :: l2)) by (intros c' Hc'; apply Forall_app; auto).
    assert (Hlen : forall c', length (l1 ++ c' :: l2) <= cap) by (intros c'; rewrite app_length in *; exact Hl).
    eapply spec_bind with (H1 := xthings child ++ xthings_e e) (F := bnd_things bid ++ XBuf id :: flat_map xthings l1 ++ flat_map xthings l2).
    { cbn [CrashSpec.xthings]. rewrite flat_map_app. cbn [flat_map]. perm. }
    { apply (IH child e Hwc He).
      - intros Hk. apply Hlk in Hk as [_ Hk]. now apply Forall_app in Hk as [_ Hk]; inversion Hk.
      - intros Hk. apply Hns in Hk as [_ Hk]. now apply Forall_app in Hk as [_ Hk]; inversion Hk. }
    + intros [child' nc] (Hc' & Ho' & Hp & Hnc) _. cbn [fst snd xforget_out] in *. rewrite set_nth_map, !Hset. cbn [with_ch].
      eapply spec_perm with (H' := xthings (XNode b bid id (CInner (l1 ++ child' :: l2))) ++ xthings_o nc).
      { cbn [CrashSpec.xthings]. rewrite flat_map_app. cbn [flat_map]. perm. }
      assert (Hpe : Permutation (xentries (XNode b bid id (CInner (l1 ++ child' :: l2))) ++ xentries_o nc)
                     (xentries (XNode b bid id (CInner (l1 ++ child :: l2))) ++ xentries_e e)).
      { rewrite !xentries_inner, !flat_map_app. cbn [flat_map].
        transitivity ((xentries child' ++ xentries_o nc) ++ flat_map xentries l1 ++ flat_map xentries l2); [perm|]. rewrite Hp. perm. }
      rewrite <- x_entry_bounds_forget.
      eapply spec_mono; [| |apply (child_tail_spec l b bid id (l1 ++ child' :: l2) nc (x_entry_bounds P e)); auto].
      * intros r (H1 & H2 & H3 & H4). split; [exact H1|]. split; [exact H2|]. split; [now rewrite H3|exact H4].
      * intros r (H1 & H2 & H3). split; [exact H1|]. split; [eapply part_perm_r; [symmetry; exact Hpe|exact H2]|].
        intros Hk. rewrite (Hnc Hk) in Hpe. cbn [xentries_o] in Hpe. rewrite app_nil_r in Hpe.
        eapply part_trans; [|exact (H3 Hk)]. eapply part_perm_r; [exact Hpe|]. apply part_app_r, part_refl.
      * intros Hk. apply Hlk in Hk as [Hk _]. rewrite app_length in *. exact Hk.
    + intros child' (Hc' & Hp & Hk'). rewrite Hset. cbn [with_ch]. apply cspec_ret.
      * cbn [CrashSpec.xthings]. apply keep_perm. rewrite flat_map_app. cbn [flat_map]. perm.
      * split; [split; auto|]. rewrite !xentries_inner, !flat_map_app. cbn [flat_map].
        split; [|intros Hk; apply part_middle; exact (Hk' Hk)].
        eapply part_perm_l with (l1' := flat_map xentries l1 ++ xentries child' ++ flat_map xentries l2); [perm|].
        eapply part_perm_r with (l2' := flat_map xentries l1 ++ (xentries child ++ xentries_e e) ++ flat_map xentries l2); [perm|].
        apply part_middle. exact Hp.
Qed.

(** *** Lookup *)
Section Lens.
Context {Q : Type} (BR : Borrowed B K Q).

Definition lens_ok {C} (ent : C -> list (K * V)) (thg : C -> list (xthing K V)) (good : C -> Prop) (c0 : C) (q : Q)
  (found : option (V * (V -> C))) : Prop :=
  match found with
  | None => True
  | Some (o, put) => exists k0 r T, q_eq BR (borrow BR k0) q = true /\
      Permutation (ent c0) ((k0, o) :: r) /\ Permutation (thg c0) (XVal o :: T) /\
      forall v, good (put v) /\ Permutation (ent (put v)) ((k0, v) :: r) /\ Permutation (thg (put v)) (XVal v :: T)
  end.

Definition forget_lens {C C'} (f : C -> C') (o : option (V * (V -> C))) : option (V * (V -> C')) :=
  option_map (fun p => (fst p, fun v => f (snd p v))) o.

Lemma xkv_eq (k : K) (v : V) : xkv_things (k, v) = [XKey k; XVal v].
Proof. reflexivity. Qed.

Lemma entries_lens_ok (es : list (K * V)) q :
  lens_ok (fun es => es) (flat_map xkv_things) (fun es' => length es' = length es) es q (entries_get_mut BR es q).
Proof.
  induction es as [|[k v] es IH]; cbn [entries_get_mut]; [exact Logic.I|]. destruct (q_eq BR (borrow BR k) q) eqn:E.
  - exists k, es, (XKey k :: flat_map xkv_things es). splits; [exact E|reflexivity| |].
    + cbn [flat_map]. rewrite ?xkv_eq. perm.
    + intros v'. splits; [reflexivity|reflexivity|]. cbn [flat_map]. rewrite ?xkv_eq. perm.
  - destruct (entries_get_mut BR es q) as [[o put]|]; cbn [option_map fst snd]; [|exact Logic.I].
    destruct IH as (k0 & r & T & H1 & H2 & H3 & H4). exists k0, ((k, v) :: r), (XKey k :: XVal v :: T). splits; auto.
    + rewrite H2. perm.
    + cbn [flat_map]. rewrite ?xkv_eq. rewrite H3. perm.
    + intros v'. destruct (H4 v') as (H5 & H6 & H7). splits; [cbn; now rewrite H5|rewrite H6; perm|].
      cbn [flat_map]. rewrite ?xkv_eq. rewrite H7. perm.
Qed.

Lemma xnode_get_mut_spec level (n : xnode) q H : xwf level n -> part_of (xthings n) H ->
  spec (xnode_get_mut crash bdrop P BR level n q) (node_get_mut P BR level (xforget n) q) (forget_lens xforget) H
    (fun _ => H) (lens_ok xentries xthings (xwf level) n q) (fun _ => H) any.
Proof.
  revert n H; induction level as [|l IH]; intros n H Hwf HH; cbn [xnode_get_mut node_get_mut].
  - apply xwf_leaf in Hwf as (b & bid & id & es & -> & Hl). cbn [xforget node_children read_leaf bind node_bounds].
    eapply spec_dbind with (F := []); [rewrite app_nil_r; reflexivity|apply dspec_read_leaf|].
    { destruct HH as [r HH]. rewrite HH. cbn [CrashSpec.xthings]. rewrite <- app_assoc. apply in_or_app. right. now left. }
    intros es' ->. rewrite app_nil_r. apply spec_user; [|apply cspec_ret; [apply keep_refl|exact Logic.I]].
    assert (Hlens := entries_lens_ok es q). destruct (entries_get_mut BR es q) as [[o put]|]; cbn [option_map fst snd].
    + apply spec_ret; [reflexivity| |reflexivity]. destruct Hlens as (k0 & r & T & H1 & H2 & H3 & H4).
      exists k0, r, (bnd_things bid ++ XBuf id :: T). splits; auto.
      * cbn [CrashSpec.xthings]. rewrite H3. perm.
      * intros v. destruct (H4 v) as (H5 & H6 & H7). cbn [with_ch]. splits; [cbn; lia|exact H6|].
        cbn [CrashSpec.xthings]. rewrite H7. perm.
    + apply spec_ret; [reflexivity|exact Logic.I|reflexivity].
  - apply xwf_inner in Hwf as (b & bid & id & cs & -> & Hl & Hcs). cbn [xforget node_children read_inner bind node_bounds].
    eapply spec_dbind with (F := []); [rewrite app_nil_r; reflexivity|apply dspec_read_inner|].
    { eapply part_trans; [|exact HH]. cbn [CrashSpec.xthings]. eapply part_perm_r; [apply Permutation_app_comm|]. apply part_app_r, part_refl. }
    intros cs' ->. rewrite app_nil_r.
    assert (Hpc : part_of (flat_map xthings cs) H).
    { eapply part_trans; [|exact HH]. cbn [CrashSpec.xthings]. eapply part_perm_r with (l2' := flat_map xthings cs ++ bnd_things bid ++ [XBuf id]); [perm|].
      apply part_app_r, part_refl. }
    eapply spec_bind with (F := []) (fg := forget_lens (map xforget)) (th := fun _ => H) (te := fun _ => H) (QE := any)
      (QA := lens_ok (flat_map xentries) (flat_map xthings) (fun cs' => length cs' = length cs /\ Forall (xwf l) cs') cs q);
      [rewrite app_nil_r; reflexivity| | |].
    { clear HH Hl. induction cs as [|c r IHr]; cbn [map].
      - apply spec_ret; [reflexivity|exact Logic.I|reflexivity].
      - inversion Hcs as [|? ? Hc Hr]; subst.
        assert (Hpc1 : part_of (xthings c) H) by (eapply part_cut; exact Hpc).
        assert (Hpc2 : part_of (flat_map xthings r) H).
        { eapply part_cut. eapply part_perm_l; [apply Permutation_app_comm|exact Hpc]. }
        apply spec_user; [|apply cspec_ret; [apply keep_refl|exact Logic.I]].
        eapply spec_bind with (F := []) (fg := forget_lens xforget) (th := fun _ => H) (te := fun _ => H) (QE := any)
          (QA := lens_ok xentries xthings (xwf l) c q); [rewrite app_nil_r; reflexivity| | |].
        { rewrite <- x_bounds_forget. destruct (b_contains _ _ _); [now apply IH|].
          apply spec_ret; [reflexivity|exact Logic.I|reflexivity]. }
        + intros [[o put]|] Hlens _; rewrite app_nil_r; cbn [forget_lens option_map fst snd].
          * apply spec_ret; [reflexivity| |reflexivity]. destruct Hlens as (k0 & r0 & T & H1 & H2 & H3 & H4).
            exists k0, (r0 ++ flat_map xentries r), (T ++ flat_map xthings r). splits; auto.
            -- cbn [flat_map]. rewrite H2. perm.
            -- cbn [flat_map]. rewrite H3. perm.
            -- intros v. destruct (H4 v) as (H5 & H6 & H7). splits; [reflexivity|now constructor|cbn [flat_map]; rewrite H6; perm|].
               cbn [flat_map]. rewrite H7. perm.
          * eapply spec_bind with (F := []); [rewrite app_nil_r; reflexivity|exact (IHr Hr Hpc2)| |].
            -- intros [[o put]|] Hlens' _; rewrite app_nil_r; cbn [forget_lens option_map fst snd].
               ++ apply spec_ret; [reflexivity| |reflexivity]. destruct Hlens' as (k0 & r0 & T & H1 & H2 & H3 & H4).
                  exists k0, (xentries c ++ r0), (xthings c ++ T). splits; auto.
                  ** cbn [flat_map]. rewrite H2. perm.
                  ** cbn [flat_map]. rewrite H3. perm.
                  ** intros v. destruct (H4 v) as ((H5 & H8) & H6 & H7). splits; [cbn; now rewrite H5|now constructor|cbn [flat_map]; rewrite H6; perm|].
                     cbn [flat_map]. rewrite H7. perm.
               ++ apply spec_ret; [reflexivity|exact Logic.I|reflexivity].
            -- intros u _. apply cspec_ret; [rewrite app_nil_r; apply keep_refl|exact Logic.I].
        + intros u _. apply cspec_ret; [rewrite app_nil_r; apply keep_refl|exact Logic.I]. }
    + intros [[o put]|] Hlens _; rewrite app_nil_r; cbn [forget_lens option_map fst snd].
      * apply spec_ret; [reflexivity| |reflexivity]. destruct Hlens as (k0 & r0 & T & H1 & H2 & H3 & H4).
        exists k0, r0, (bnd_things bid ++ XBuf id :: T). rewrite xentries_inner. splits; auto.
        -- cbn [CrashSpec.xthings]. rewrite H3. perm.
        -- intros v. destruct (H4 v) as ((H5 & H8) & H6 & H7). cbn [with_ch]. splits; [split; [lia|exact H8]|now rewrite xentries_inner|].
           cbn [CrashSpec.xthings]. rewrite H7. perm.
      * apply spec_ret; [reflexivity|exact Logic.I|reflexivity].
    + intros u _. apply cspec_ret; [rewrite app_nil_r; apply keep_refl|exact Logic.I].
Qed.
End Lens.
End XInsert.
