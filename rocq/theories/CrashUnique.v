(** Unwinding: [insert_unique] below the root. *)
From Verif Require Export CrashInsert.
Set Default Proof Using "Type".

Section XUnique.
Context {B K V : Type} (crash : nat -> bool) (bdrop : bool) (gv : list (xthing K V)) (lk ns : Prop) (P : Params B K) (cfg : config).
Notation xnode := (xnode B K V).
Notation xcontainer := (xcontainer B K V).
Notation xentry := (xentry B K V).
Notation spec := (spec crash gv lk).
Notation cspec := (cspec gv lk).
Notation dspec := (dspec gv).
Notation cap := (max_children cfg).
Notation minc := (min_children cfg).
Notation xthings := (xthings bdrop).
Notation xthings_c := (xthings_c bdrop).
Notation xthings_e := (xthings_e bdrop).
Notation xthings_o := (xthings_o bdrop).
Notation bnd_things := (bnd_things bdrop).
Notation xwf := (xwf cfg).
Notation xwf_o := (xwf_o cfg).
Notation xentry_wf := (xentry_wf cfg).
Notation xroom := (xroom cfg).
Notation xroom_all := (xroom_all cfg).

(** The entries after [insert_unique] of [(k, v)] returned [old]. *)
Definition uniq_rel (old : option V) (es : list (K * V)) (k : K) (v : V) (es' : list (K * V)) : Prop :=
  match old with
  | None => Permutation es' (es ++ [(k, v)])
  | Some o => exists k0 r, key_eq P k0 k = true /\ Permutation es ((k0, o) :: r) /\ Permutation es' ((k0, v) :: r)
  end.
(** The entries after it unwound. *)
Definition uniq_left (es : list (K * V)) (k : K) (v : V) (es' : list (K * V)) : Prop :=
  part_of es' (es ++ [(k, v)]) \/
  exists k0 o r, key_eq P k0 k = true /\ Permutation es ((k0, o) :: r) /\ part_of es' ((k0, v) :: r).

(** Nothing was lost: everything is still there, or only the value was replaced. *)
Definition uniq_keep (es : list (K * V)) (k : K) (v : V) (es' : list (K * V)) : Prop :=
  part_of es es' \/
  exists k0 o r, key_eq P k0 k = true /\ Permutation es ((k0, o) :: r) /\ Permutation es' ((k0, v) :: r).
Lemma uniq_keep_same es k v : uniq_keep es k v es.
Proof. left. apply part_refl. Qed.
Lemma uniq_rel_keep old es k v es' : uniq_rel old es k v es' -> uniq_keep es k v es'.
Proof.
  destruct old as [o|]; cbn.
  - intros (k0 & r & H1 & H2 & H3). right. exists k0, o, r. now splits.
  - intros H. left. eapply part_perm_r; [exact H|]. apply part_app_r, part_refl.
Qed.
Lemma uniq_keep_frame es k v es1 l1 l2 : uniq_keep es k v es1 -> uniq_keep (l1 ++ es ++ l2) k v (l1 ++ es1 ++ l2).
Proof.
  intros [H|(k0 & o & r & H1 & H2 & H3)].
  - left. now apply part_middle.
  - right. exists k0, o, (l1 ++ r ++ l2). splits; auto; [rewrite H2; perm|rewrite H3; perm].
Qed.

Lemma uniq_left_same es k v : uniq_left es k v es.
Proof. left. apply part_app_r, part_refl. Qed.
Lemma uniq_left_new es k v es' : part_of es' (es ++ [(k, v)]) -> uniq_left es k v es'.
Proof. now left. Qed.
Lemma uniq_rel_left old es k v es1 es' : uniq_rel old es k v es1 -> part_of es' es1 -> uniq_left es k v es'.
Proof.
  destruct old as [o|]; cbn.
  - intros (k0 & r & H1 & H2 & H3) Hp. right. exists k0, o, r. splits; auto. eapply part_perm_r; [symmetry; exact H3|exact Hp].
  - intros H Hp. left. eapply part_perm_r; [symmetry; exact H|exact Hp].
Qed.
Lemma uniq_rel_perm old es k v es1 es2 : Permutation es1 es2 -> uniq_rel old es k v es1 -> uniq_rel old es k v es2.
Proof.
  intros Hp. destruct old as [o|]; cbn.
  - intros (k0 & r & H1 & H2 & H3). exists k0, r. splits; auto. now rewrite <- Hp.
  - intros H. now rewrite <- Hp.
Qed.
Lemma uniq_rel_frame old es k v es1 l1 l2 : uniq_rel old es k v es1 -> uniq_rel old (l1 ++ es ++ l2) k v (l1 ++ es1 ++ l2).
Proof.
  destruct old as [o|]; cbn.
  - intros (k0 & r & H1 & H2 & H3). exists k0, (l1 ++ r ++ l2). splits; auto; [rewrite H2; perm|rewrite H3; perm].
  - intros H. rewrite H. perm.
Qed.
Lemma uniq_left_frame es k v es1 l1 l2 : uniq_left es k v es1 -> uniq_left (l1 ++ es ++ l2) k v (l1 ++ es1 ++ l2).
Proof.
  intros [H|(k0 & o & r & H1 & H2 & H3)].
  - left. eapply part_perm_r with (l2' := l1 ++ (es ++ [(k, v)]) ++ l2); [perm|]. now apply part_middle.
  - right. exists k0, o, (l1 ++ r ++ l2). splits; auto; [rewrite H2; perm|].
    eapply part_perm_r with (l2' := l1 ++ ((k0, v) :: r) ++ l2); [perm|]. now apply part_middle.
Qed.

Definition xuni : Type := (option V * xnode * option xcontainer)%type.
Definition xforget_uni (r : xuni) : option V * node B K V * option (container B K V) :=
  (fst (fst r), xforget (snd (fst r)), option_map xforget_c (snd r)).
Definition xthings_uni (r : xuni) : list (xthing K V) := xthe (fst (fst r)) ++ xthings (snd (fst r)) ++ xthings_o (snd r).
Definition uni_ok (level : nat) (es : list (K * V)) (k : K) (v : V) (r : xuni) : Prop :=
  xwf level (snd (fst r)) /\ xwf_o level (snd r) /\
  uniq_rel (fst (fst r)) es k v (xentries (snd (fst r)) ++ xentries_o (snd r)) /\ (ns -> snd r = None).
Definition uni_left (level : nat) (es : list (K * V)) (k : K) (v : V) (n : xnode) : Prop :=
  xwf level n /\ uniq_left es k v (xentries n) /\ (ns -> uniq_keep es k v (xentries n)).
Definition uni_spec level (m : X K V xuni xnode) (r : res (option V * node B K V * option (container B K V))) (n : xnode) (k : K) (v : V) : Prop :=
  spec m r xforget_uni (xthings n ++ xkv_things (k, v)) xthings_uni (uni_ok level (xentries n) k v) xthings (uni_left level (xentries n) k v).

Lemma plain_insert_spec level (n : xnode) k v : xwf level n -> (lk -> xroom level n) -> (ns -> xroom_all level n) ->
  uni_spec level (try! (n, sibling) := xnode_insert crash bdrop P cfg level n (XELeaf (k, v)) catch n => dret n in dret (inl (None, n, sibling)))
    (let* (n, sibling) := node_insert P cfg level (xforget n) (ELeaf (k, v)) in Ok (None, n, sibling)) n k v.
Proof.
  intros Hwf Hlk Hns. unfold uni_spec. eapply spec_bind with (F := []).
  - rewrite app_nil_r. reflexivity.
  - apply (xnode_insert_spec crash bdrop gv lk ns P cfg level n (XELeaf (k, v)) Hwf); [exact Logic.I|exact Hlk|exact Hns].
  - intros [n' sib] (H1 & H2 & H3 & H4) _. cbn [fst snd xentries_e xforget_out] in *. rewrite app_nil_r. apply spec_ret.
    + reflexivity.
    + split; [exact H1|]. split; [exact H2|]. split; [exact H3|exact H4].
    + reflexivity.
  - intros n' (H1 & H2 & H3). apply cspec_ret; [rewrite app_nil_r; apply keep_refl|]. split; [exact H1|]. split; [now left|]. intros Hk. left. exact (H3 Hk).
Qed.

(** Unwinding after the child was changed. *)
Lemma drop_opt_then old (n : xnode) H (Q : xnode -> Prop) : Permutation H (xthe old ++ xthings n) -> Q n ->
  cspec (let$ _ := drop_opt old in dret n) H xthings Q.
Proof.
  intros Hp HQ. eapply cspec_then with (F := xthings n); [exact Hp|apply dspec_drop_opt|apply keep_refl|exact HQ].
Qed.

Lemma xnode_insert_unique_spec level (n : xnode) k v : xwf level n -> (lk -> xroom level n) -> (ns -> xroom_all level n) ->
  uni_spec level (xnode_insert_unique crash bdrop P cfg level n k v) (node_insert_unique P cfg level (xforget n) k v) n k v.
Proof.
  revert n; induction level as [|l IH]; intros n Hwf Hlk Hns; unfold uni_spec.
  all: assert (Hab : forall lv, xwf lv n -> cspec (let$ _ := drop_kv (k, v) in dret n) (xthings n ++ xkv_things (k, v)) xthings
      (uni_left lv (xentries n) k v)) by
    (intros lv Hlv; eapply cspec_then with (F := xthings n); [|apply dspec_drop_kv|apply keep_refl|]; [perm|];
     split; [exact Hlv|split; [apply uniq_left_same|intros _; apply uniq_keep_same]]).
  all: specialize (Hab _ Hwf); cbn [xnode_insert_unique node_insert_unique]; apply spec_user; [|exact Hab].
  - assert (Hwf' := Hwf). apply xwf_leaf in Hwf' as (b & bid & id & es & -> & Hl).
    eapply spec_dbind with (F := []); [rewrite app_nil_r; reflexivity|apply dspec_read_leaf_all|].
    intros es' ->. rewrite app_nil_r. cbn [xforget node_children read_leaf bind node_bounds].
    apply spec_user; [|exact Hab].
    assert (Hlens := entries_lens_ok (self_borrow P) es k).
    destruct (entries_get_mut (self_borrow P) es k) as [[old put]|].
    + destruct Hlens as (k0 & r & T & H1 & H2 & H3 & H4). destruct (H4 v) as (H5 & H6 & H7). cbn [with_ch].
      eapply spec_dbind with (H1 := [XKey k]); [|apply dspec_destroy|].
      { rewrite xkv_eq. transitivity ([XKey k] ++ XVal v :: xthings (XNode b bid id (CLeaf es))); [perm|reflexivity]. }
      intros u _. cbn [nothing app]. apply spec_ret; [reflexivity| |].
      * split; [cbn; lia|]. split; [exact Logic.I|]. split; [|reflexivity]. exists k0, r. rewrite xentries_leaf. cbn [fst snd xentries_o].
        rewrite app_nil_r. splits; auto.
      * unfold xthings_uni. cbn [fst snd xthe CrashTree.xthings_o CrashSpec.xthings]. rewrite H3, H7. perm.
    + exact (plain_insert_spec 0 (XNode b bid id (CLeaf es)) k v Hwf Hlk Hns).
  - assert (Hwf' := Hwf). apply xwf_inner in Hwf' as (b & bid & id & cs & -> & Hl & Hcs).
    eapply spec_dbind with (F := []); [rewrite app_nil_r; reflexivity|apply dspec_read_inner_all|].
    intros cs' ->. rewrite app_nil_r. cbn [xforget node_children read_inner bind node_bounds].
    apply spec_user; [|exact Hab].
    rewrite enumerate_map, filter_map_. cbn [snd fst].
    rewrite (filter_ext (fun ic : nat * xnode => b_contains (bops P) (x_bounds (snd ic)) (key_bounds P k))
       (fun ic : nat * xnode => b_contains (bops P) (node_bounds (xforget (snd ic))) (key_bounds P k)))
      by (intros ic; now rewrite x_bounds_forget).
    destruct (filter _ (enumerate cs)) as [|[i child] [|x y]] eqn:Ef; cbn [map fst snd].
    + exact (plain_insert_spec (S l) (XNode b bid id (CInner cs)) k v Hwf Hlk Hns).
    + assert (En : nth_error cs i = Some child).
      { apply in_enumerate. assert (Hin : In (i, child) [(i, child)]) by now left. rewrite <- Ef in Hin.
        now apply filter_In in Hin. }
      clear Ef Hab Hwf. apply nth_split_mid in En as (l1 & l2 & -> & Hset).
      assert (Hcs' := Hcs). apply Forall_app in Hcs' as [Hw1 Hw2]. inversion Hw2 as [|? ? Hwc Hw3]; subst.
      assert (Hsame : forall c', xwf l c' -> Forall (xwf l) (l1 ++ c' :: l2)) by (intros c' Hc'; apply Forall_app; auto).
      assert (Hlen : forall c', length (l1 ++ c' :: l2) <= cap) by (intros c'; rewrite app_length in *; exact Hl).
      assert (Hent : forall c', Permutation (xentries (XNode b bid id (CInner (l1 ++ c' :: l2))))
                       (flat_map xentries l1 ++ xentries c' ++ flat_map xentries l2)).
      { intros c'. rewrite xentries_inner, flat_map_app. reflexivity. }
      assert (Heq : xentries (XNode b bid id (CInner (l1 ++ child :: l2))) = flat_map xentries l1 ++ xentries child ++ flat_map xentries l2).
      { rewrite xentries_inner, flat_map_app. reflexivity. }
      rewrite Heq. clear Heq.
      eapply spec_bind with (H1 := xthings child ++ xkv_things (k, v)) (F := bnd_things bid ++ XBuf id :: flat_map xthings l1 ++ flat_map xthings l2).
      { cbn [CrashSpec.xthings]. rewrite flat_map_app. cbn [flat_map]. perm. }
      { apply (IH child Hwc).
        - intros Hk. apply Hlk in Hk as [_ Hk]. now apply Forall_app in Hk as [_ Hk]; inversion Hk.
        - intros Hk. apply Hns in Hk as [_ Hk]. now apply Forall_app in Hk as [_ Hk]; inversion Hk. }
      2:{ intros child' (Hc' & Hp & Hk'). rewrite Hset. cbn [with_ch]. apply cspec_ret.
          - cbn [CrashSpec.xthings]. apply keep_perm. rewrite flat_map_app. cbn [flat_map]. perm.
          - split; [split; auto|]. rewrite xentries_inner, flat_map_app. cbn [flat_map]. split; [now apply uniq_left_frame|]. intros Hk. apply uniq_keep_frame. exact (Hk' Hk). }
      intros [[old child'] nc] (Hc' & Ho' & Hrel & Hnc) _. unfold xforget_uni, xthings_uni. cbn [fst snd] in *.
      rewrite set_nth_map, !Hset. cbn [with_ch].
      set (n1 := XNode b bid id (CInner (l1 ++ child' :: l2))).
      eapply spec_perm with (H' := (xthings n1 ++ xthings_o nc) ++ xthe old).
      { unfold n1. cbn [CrashSpec.xthings]. rewrite flat_map_app. cbn [flat_map]. perm. }
      assert (Hrel1 : uniq_rel old (flat_map xentries l1 ++ xentries child ++ flat_map xentries l2) k v (xentries n1 ++ xentries_o nc)).
      { eapply uniq_rel_perm; [|apply uniq_rel_frame; exact Hrel]. unfold n1. rewrite Hent. perm. }
      assert (Hw1' : xwf (S l) n1) by (split; auto).
      destruct nc as [[nl nn]|]; cbn [option_map].
      * assert (Hnns : ~ ns) by (intros Hk; specialize (Hnc Hk); discriminate).
        destruct Ho' as (Hnl & Hwn & Hcap). cbn [fst snd] in *. subst nl. apply spec_user.
        -- eapply spec_dbind with (H1 := xthings n1); [cbn [CrashTree.xthings_o]; rewrite <- app_assoc; reflexivity|apply dspec_set_bounds|].
           intros n' [bid' ->]. subst n1. cbn [x_id x_children].
           rewrite map_x_bounds.
           set (n2 := XNode (b_union_all (bops P) (map node_bounds (map xforget (l1 ++ child' :: l2)))) bid' id (CInner (l1 ++ child' :: l2))).
           eapply spec_bind with (H1 := xthings n2 ++ xthings_c (l, nn)) (F := xthe old); [perm| | |].
           { apply (xself_insert_spec crash bdrop gv lk ns P cfg (S l) n2 (XEInner (l, nn)) Hw1' Hwn).
             - intros Hk. apply Hlk in Hk as [Hk _]. unfold n2. cbn [x_children] in *. rewrite app_length in *. exact Hk.
             - intros Hk. now elim (Hnns Hk). }
           ++ intros [n3 sib] (H1 & H2 & H3 & H4) _. cbn [fst snd xentries_e xforget_out] in *. apply spec_ret; [reflexivity| |].
              ** split; [exact H1|]. split; [exact H2|]. cbn [fst snd]. split; [|exact H4]. eapply uniq_rel_perm; [|exact Hrel1].
                 symmetry. exact H3.
              ** unfold xthings_uni. cbn [fst snd]. perm.
           ++ intros n3 (H1 & H2 & _). apply drop_opt_then; [perm|]. split; [exact H1|]. split; [|intros Hk; now elim (Hnns Hk)].
              eapply uniq_rel_left; [exact Hrel1|]. exact H2.
        -- eapply cspec_bind with (H1 := xthings_c (l, nn)) (F := xthe old ++ xthings n1);
             [cbn [CrashTree.xthings_o]; perm|apply dspec_cspec; apply (dspec_drop_container bdrop gv cfg (l, nn) Hwn)|].
           intros u _. apply drop_opt_then; [reflexivity|]. split; [exact Hw1'|]. split; [|intros Hk; now elim (Hnns Hk)].
           eapply uniq_rel_left; [exact Hrel1|]. apply part_app_r, part_refl.
      * apply spec_user.
        -- eapply spec_dbind with (H1 := xthings n1); [cbn [CrashTree.xthings_o]; rewrite <- app_assoc; reflexivity|apply dspec_set_bounds|].
           intros n' [bid' ->]. subst n1. cbn [x_id x_children x_bounds]. apply spec_ret; [reflexivity| |].
           ++ split; [exact Hw1'|]. split; [exact Logic.I|]. split; [exact Hrel1|reflexivity].
           ++ unfold xthings_uni. cbn [fst snd]. perm.
        -- apply drop_opt_then; [cbn [CrashTree.xthings_o]; perm|]. split; [exact Hw1'|]. cbn [xentries_o] in Hrel1. rewrite app_nil_r in Hrel1.
           split; [|intros _; eapply uniq_rel_keep; exact Hrel1].
           eapply uniq_rel_left; [exact Hrel1|]. apply part_refl.
    + clear Ef. eapply spec_bind with (H1 := xthings (XNode b bid id (CInner cs)) ++ xkv_things (k, v)) (F := []);
        [rewrite app_nil_r; reflexivity| | |].
      { apply (xnode_get_mut_spec crash bdrop gv lk P cfg (self_borrow P) (S l) (XNode b bid id (CInner cs)) k _ Hwf).
        apply part_app_r, part_refl. }
      * intros [[old put]|] Hlens _; cbn [forget_lens option_map fst snd]; rewrite app_nil_r.
        -- destruct Hlens as (k0 & r & T & H1 & H2 & H3 & H4). destruct (H4 v) as (H5 & H6 & H7).
           eapply spec_dbind with (H1 := [XKey k]) (F := XVal v :: xthings (XNode b bid id (CInner cs))); [rewrite xkv_eq; perm|apply dspec_destroy|].
           intros u _. cbn [nothing app]. apply spec_ret; [reflexivity| |].
           ++ split; [exact H5|]. split; [exact Logic.I|]. split; [|reflexivity]. exists k0, r. cbn [fst snd xentries_o].
              rewrite app_nil_r. splits; auto.
           ++ unfold xthings_uni. cbn [fst snd xthe CrashTree.xthings_o]. rewrite H3, H7. perm.
        -- exact (plain_insert_spec (S l) (XNode b bid id (CInner cs)) k v Hwf Hlk Hns).
      * intros u _. rewrite app_nil_r. exact Hab.
Qed.
End XUnique.
