(** Unwinding: removal below the root. *)
From Verif Require Export CrashUnique.
Set Default Proof Using "Type".

Section XRem.
Context {B K V : Type} (crash : nat -> bool) (bdrop : bool) (gv : list (xthing K V)) (lk : Prop) (P : Params B K) (cfg : config).
Notation xnode := (xnode B K V).
Notation xcontainer := (xcontainer B K V).
Notation xentry := (xentry B K V).
Notation xcc := (xcc B K V).
Notation spec := (spec crash gv lk).
Notation cspec := (cspec gv lk).
Notation dspec := (dspec gv).
Notation cap := (max_children cfg).
Notation minc := (min_children cfg).
Notation xthings := (xthings bdrop).
Notation xthings_c := (xthings_c bdrop).
Notation xthings_e := (xthings_e bdrop).
Notation xthings_o := (xthings_o bdrop).
Notation bnd_things := (bnd_things bdrop).
Notation xwf := (xwf cfg).
Notation xwf_o := (xwf_o cfg).
Notation xentry_wf := (xentry_wf cfg).

Definition xforget_cc (c : xcc) : children_container B K V :=
  match c with XCCInner l _ cs => CCInner l (map xforget cs) | XCCLeaf _ es => CCLeaf es end.
Definition xthings_cc (c : xcc) : list (xthing K V) :=
  match c with XCCInner _ id cs => XBuf id :: flat_map xthings cs | XCCLeaf id es => XBuf id :: flat_map xkv_things es end.
Definition ccs_entries (c : xcc) : list (K * V) :=
  match c with XCCInner _ _ cs => flat_map xentries cs | XCCLeaf _ es => es end.
Definition xcc_wf (c : xcc) : Prop :=
  match c with
  | XCCInner (S l) _ cs => length cs <= cap /\ Forall (xwf l) cs
  | XCCInner 0 _ _ => False
  | XCCLeaf _ es => length es <= cap
  end.

(** The number of elements of a node; no node below this one gets underfull by losing one element. *)
Definition xlen (n : xnode) : nat := match x_children n with CInner cs => length cs | CLeaf es => length es end.
Fixpoint xspare (level : nat) (n : xnode) : Prop :=
  match level, x_children n with
  | S l, CInner cs => Forall (fun c => (minc = 0 \/ minc < xlen c) /\ xspare l c) cs
  | _, _ => True
  end.

Lemma shallow_xlen l (n : xnode) m : shallow_len l (xforget n) = Ok m -> xwf l n -> m = xlen n.
Proof.
  intros E Hwf. destruct l as [|l].
  - apply xwf_leaf in Hwf as (b & bid & id & es & -> & _). cbn in E. now injection E as <-.
  - apply xwf_inner in Hwf as (b & bid & id & cs & -> & _ & _). cbn [shallow_len xforget node_children read_inner bind] in E.
    rewrite map_length in E. now injection E as <-.
Qed.

Lemma dspec_shallow_len l (n : xnode) H : xwf l n ->
  dspec (xshallow_len l n) H (fun _ => H) (fun m => shallow_len l (xforget n) = Ok m).
Proof.
  destruct l as [|l]; intros Hwf.
  - apply xwf_leaf in Hwf as (b & bid & id & es & -> & _). apply dspec_ret; reflexivity.
  - apply xwf_inner in Hwf as (b & bid & id & cs & -> & _ & _). apply dspec_ret; [reflexivity|].
    cbn [shallow_len xforget node_children read_inner bind]. now rewrite map_length.
Qed.

Lemma dspec_container_children l (n : xnode) : xwf l n ->
  dspec (xcontainer_children bdrop (l, n)) (xthings n) xthings_cc (fun cc =>
    container_children (l, xforget n) = Ok (xforget_cc cc) /\ xcc_wf cc /\ xcc_level cc = l /\ ccs_entries cc = xentries n).
Proof.
  intros Hwf. unfold xcontainer_children. cbn [fst snd]. rewrite xthings_eq. destruct l as [|l].
  - apply xwf_leaf in Hwf as (b & bid & id & es & -> & Hl). cbn [x_children x_id x_bid xthings_ch].
    eapply dspec_bind with (H1 := []) (F := bnd_things bid ++ XBuf id :: flat_map xkv_things es) (th := fun _ => [])
      (Q := fun cc => cc = XCCLeaf id es); [reflexivity|now apply dspec_ret|].
    intros cc ->. eapply dspec_bind with (H1 := bnd_things bid); [cbn [app]; reflexivity|apply (dspec_drop_bare bdrop gv (XNode b bid id (CLeaf es)))|].
    intros u _. apply dspec_ret; [reflexivity|]. splits; auto.
  - apply xwf_inner in Hwf as (b & bid & id & cs & -> & Hl & Hcs). cbn [x_children x_id x_bid xthings_ch].
    eapply dspec_bind with (H1 := []) (F := bnd_things bid ++ XBuf id :: flat_map xthings cs) (th := fun _ => [])
      (Q := fun cc => cc = XCCInner (S l) id cs); [reflexivity|now apply dspec_ret|].
    intros cc ->. eapply dspec_bind with (H1 := bnd_things bid); [cbn [app]; reflexivity|apply (dspec_drop_bare bdrop gv (XNode b bid id (CInner cs)))|].
    intros u _. apply dspec_ret; [reflexivity|]. splits; auto; try (now split). symmetry. apply xentries_inner.
Qed.

Section R.
Context {Q : Type} (BR : Borrowed B K Q).

Definition xrem : Type := (option V * xnode * list xcc)%type.
Definition xforget_rem (r : xrem) : option V * node B K V * list (children_container B K V) :=
  (fst (fst r), xforget (snd (fst r)), map xforget_cc (snd r)).
Definition xthings_rem (r : xrem) : list (xthing K V) := xthe (fst (fst r)) ++ xthings (snd (fst r)) ++ flat_map xthings_cc (snd r).

(** The entries after removing [q] returned [old]. *)
Definition rem_rel (old : option V) (es : list (K * V)) (q : Q) (es' : list (K * V)) : Prop :=
  match old with
  | None => Permutation es' es
  | Some o => exists k0, q_eq BR (borrow BR k0) q = true /\ Permutation es ((k0, o) :: es')
  end.
Definition ccs_ok (level : nat) (ccs : list xcc) : Prop :=
  Forall xcc_wf ccs /\ NoDup (map xcc_level ccs) /\ Forall (fun cc => xcc_level cc < level) ccs.
Definition rem_ok (level : nat) (n : xnode) (q : Q) (r : xrem) : Prop :=
  xwf level (snd (fst r)) /\ ccs_ok level (snd r) /\ (fst (fst r) = None -> snd r = [] /\ snd (fst r) = n) /\
  rem_rel (fst (fst r)) (xentries n) q (xentries (snd (fst r)) ++ flat_map ccs_entries (snd r)) /\
  (lk -> snd r = [] /\ xlen n <= S (xlen (snd (fst r)))).
(** [n'] is what is left of [n]; at most one entry is lost, if nothing can get underfull. *)
Definition rem_left (level : nat) (n : xnode) (q : Q) (n' : xnode) : Prop :=
  xwf level n' /\ part_of (xentries n') (xentries n) /\ (lk -> exists old, rem_rel old (xentries n) q (xentries n')).

Lemma rem_left_same level n q : xwf level n -> rem_left level n q n.
Proof. intros Hw. split; [exact Hw|]. split; [apply part_refl|]. intros _. exists None. cbn. reflexivity. Qed.

Lemma rem_rel_part old es q es' : rem_rel old es q es' -> part_of es' es.
Proof.
  destruct old as [o|]; cbn.
  - intros (k0 & _ & H). eapply part_perm_r; [exact H|]. eapply part_perm_r; [apply (Permutation_app_comm [(k0, o)] es')|].
    apply part_app_r, part_refl.
  - intros H. now apply part_perm.
Qed.
Lemma rem_rel_frame old es q es' l1 l2 : rem_rel old es q es' -> rem_rel old (l1 ++ es ++ l2) q (l1 ++ es' ++ l2).
Proof.
  destruct old as [o|]; cbn.
  - intros (k0 & H1 & H2). exists k0. split; [exact H1|]. rewrite H2. perm.
  - intros H. now rewrite H.
Qed.
Lemma rem_rel_perm old es q es1 es2 : Permutation es1 es2 -> rem_rel old es q es1 -> rem_rel old es q es2.
Proof.
  intros Hp. destruct old as [o|]; cbn.
  - intros (k0 & H1 & H2). exists k0. split; [exact H1|]. now rewrite <- Hp.
  - intros H. now rewrite <- Hp.
Qed.
Lemma rem_rel_perm_l old es es0 q es1 : Permutation es es0 -> rem_rel old es q es1 -> rem_rel old es0 q es1.
Proof.
  intros Hp. destruct old as [o|]; cbn.
  - intros (k0 & H1 & H2). exists k0. split; [exact H1|]. now rewrite <- Hp.
  - intros H. now rewrite <- Hp.
Qed.

Lemma xnode_remove_spec level (n : xnode) q : xwf level n -> (lk -> xspare level n) ->
  spec (xnode_remove crash bdrop P cfg BR level n q) (node_remove P cfg BR level (xforget n) q) xforget_rem (xthings n)
    xthings_rem (rem_ok level n q) xthings (rem_left level n q).
Proof.
  revert n; induction level as [|l IH]; intros n Hwf Hlk; cbn [xnode_remove node_remove].
  - assert (Hwf' := Hwf). apply xwf_leaf in Hwf' as (b & bid & id & es & -> & Hl).
    assert (Hab : cspec (dret (XNode b bid id (CLeaf es))) (xthings (XNode b bid id (CLeaf es))) xthings
       (rem_left 0 (XNode b bid id (CLeaf es)) q)).
    { apply cspec_ret; [apply keep_refl|]. now apply rem_left_same. }
    eapply spec_dbind with (F := []); [rewrite app_nil_r; reflexivity| |].
    { rewrite <- (app_nil_r (xthings _)). apply dspec_read_leaf_all. }
    intros es' ->. rewrite !app_nil_r. cbn [xforget node_children read_leaf bind node_bounds].
    apply spec_user; [|exact Hab].
    assert (Hpos := position_spec (fun kv => q_eq BR (borrow BR (fst kv)) q) es).
    destruct (position _ es) as [i|].
    2:{ apply spec_ret; [reflexivity| |].
        - split; [exact Hwf|]. split; [split; [constructor|split; constructor]|]. split; [auto|]. cbn [fst snd flat_map rem_rel].
          split; [now rewrite app_nil_r|]. intros _. split; [reflexivity|lia].
        - unfold xthings_rem. cbn [fst snd xthe flat_map]. perm. }
    destruct Hpos as ([k v] & Hi & Hq & _).
    destruct (swap_remove_spec i es) as (y & es' & E & Hy & Hp & _); [now apply nth_error_lt in Hi|].
    rewrite Hi in Hy. injection Hy as <-. rewrite E, dlift_ok. cbn [bind fst snd with_ch] in *.
    assert (Hlen := Permutation_length Hp). cbn [length] in Hlen.
    assert (Hw' : forall (b' : B) bid', xwf 0 (XNode b' bid' id (CLeaf es'))) by (intros; cbn; lia).
    eapply spec_dbind with (H1 := [XKey k]) (F := XVal v :: xthings (XNode b bid id (CLeaf es'))); [|apply dspec_destroy|].
    { cbn [CrashSpec.xthings]. rewrite (Permutation_flat_map_ xkv_things _ _ Hp). cbn [flat_map]. rewrite xkv_eq. perm. }
    intros u _. cbn [nothing app]. apply spec_user.
    + eapply spec_dbind with (H1 := xthings (XNode b bid id (CLeaf es'))) (F := [XVal v]); [perm|apply dspec_set_bounds|].
      intros n' [bid' ->]. cbn [x_id x_children]. apply spec_ret; [reflexivity| |].
      * split; [apply Hw'|]. split; [split; [constructor|split; constructor]|]. split; [discriminate|].
        cbn [fst snd flat_map rem_rel]. rewrite app_nil_r, !xentries_leaf. split; [exists k; split; [exact Hq|exact Hp]|].
        intros _. split; [reflexivity|]. unfold xlen. cbn [x_children]. lia.
      * unfold xthings_rem. cbn [fst snd xthe flat_map]. perm.
    + eapply cspec_then with (H1 := [XVal v]) (F := xthings (XNode b bid id (CLeaf es'))); [reflexivity|apply dspec_destroy|apply keep_refl|].
      split; [apply Hw'|]. rewrite !xentries_leaf. split; [|intros _; exists (Some v), k; split; [exact Hq|exact Hp]].
      eapply part_perm_r; [exact Hp|].
      eapply part_perm_r; [apply (Permutation_app_comm [(k, v)] es')|]. apply part_app_r, part_refl.
  - apply xwf_inner in Hwf as (b & bid & id & cs & -> & Hl & Hcs).
    eapply spec_dbind with (F := []); [rewrite app_nil_r; reflexivity| |].
    { rewrite <- (app_nil_r (xthings _)). apply dspec_read_inner_all. }
    intros cs' ->. rewrite !app_nil_r. cbn [xforget node_children read_inner bind node_bounds]. rewrite map_length.
    cbn [xspare x_children] in Hlk. generalize (length cs) as i. intros i. revert cs Hl Hcs Hlk.
    induction i as [|i IHi]; intros cs Hl Hcs Hlk.
    { cbn [with_ch]. apply spec_ret; [reflexivity| |].
      - split; [now split|]. split; [split; [constructor|split; constructor]|]. split; [auto|]. cbn [fst snd flat_map rem_rel].
        split; [now rewrite app_nil_r|]. intros _. split; [reflexivity|lia].
      - unfold xthings_rem. cbn [fst snd xthe flat_map]. perm. }
    cbn [with_ch] in *.
    assert (Hab : cspec (dret (XNode b bid id (CInner cs))) (xthings (XNode b bid id (CInner cs))) xthings
       (rem_left (S l) (XNode b bid id (CInner cs)) q)).
    { apply cspec_ret; [apply keep_refl|]. apply rem_left_same. now split. }
    apply (spec_lift crash gv lk xforget); [|apply unwrap_not_ub|apply unwrap_not_oof| |exact Hab].
    { rewrite nth_error_map_, unwrap_map. reflexivity. }
    intros child Ec. destruct (nth_error cs i) as [c|] eqn:En; [|discriminate]. injection Ec as ->.
    apply spec_user; [|exact Hab].
    rewrite <- x_bounds_forget. destruct (b_intersects _ _ _).
    2:{ exact (IHi cs Hl Hcs Hlk). }
    assert (Hi := nth_error_lt _ _ _ En).
    assert (Hsp := En). apply nth_split_mid in Hsp as (l1 & l2 & Ecs & Hset).
    assert (Hwc : xwf l child) by (rewrite Forall_forall in Hcs; apply Hcs; eapply nth_error_In; exact En).
    assert (Hsp1 : lk -> (minc = 0 \/ minc < xlen child) /\ xspare l child).
    { intros Hk. specialize (Hlk Hk). rewrite Forall_forall in Hlk. apply Hlk. eapply nth_error_In; exact En. }
    assert (Hsame : forall c', xwf l c' -> Forall (xwf l) (set_nth i c' cs)) by (intros c' Hc'; now apply Forall_set_nth).
    assert (Hlen : forall c', length (set_nth i c' cs) <= cap) by (intros c'; now rewrite set_nth_length).
    assert (Hth : forall c', Permutation (xthings (XNode b bid id (CInner (set_nth i c' cs))))
        (xthings c' ++ bnd_things bid ++ XBuf id :: flat_map xthings l1 ++ flat_map xthings l2)).
    { intros c'. rewrite Hset. cbn [CrashSpec.xthings]. rewrite flat_map_app. cbn [flat_map]. perm. }
    assert (Hen : forall c', xentries (XNode b bid id (CInner (set_nth i c' cs))) = flat_map xentries l1 ++ xentries c' ++ flat_map xentries l2).
    { intros c'. rewrite xentries_inner, Hset, flat_map_app. reflexivity. }
    assert (Hen0 : xentries (XNode b bid id (CInner cs)) = flat_map xentries l1 ++ xentries child ++ flat_map xentries l2).
    { rewrite <- Hen. now rewrite set_nth_same. }
    assert (Hth0 : Permutation (xthings (XNode b bid id (CInner cs)))
        (xthings child ++ bnd_things bid ++ XBuf id :: flat_map xthings l1 ++ flat_map xthings l2)).
    { rewrite <- Hth. now rewrite set_nth_same. }
    eapply spec_bind; [exact Hth0|exact (IH child Hwc (fun Hk => proj2 (Hsp1 Hk)))| |].
    2:{ intros child' (Hc' & Hp & Hk'). apply cspec_ret; [apply keep_perm; apply Hth|]. split; [split; auto|].
        rewrite Hen, Hen0. split; [now apply part_middle|]. intros Hk. destruct (Hk' Hk) as [old Hr']. exists old. now apply rem_rel_frame. }
    intros [[value child'] unders] (Hc' & (Hcc1 & Hcc2 & Hcc3) & Hn & Hrel & Hun) _. unfold xforget_rem at 1. cbn [fst snd] in *.
    rewrite set_nth_map.
    set (cs1 := set_nth i child' cs) in *.
    eapply spec_perm with (H' := xthings (XNode b bid id (CInner cs1)) ++ xthe value ++ flat_map xthings_cc unders).
    { unfold xthings_rem. cbn [fst snd]. unfold cs1. rewrite Hth. perm. }
    assert (Hrel1 : rem_rel value (xentries (XNode b bid id (CInner cs))) q (xentries (XNode b bid id (CInner cs1)) ++ flat_map ccs_entries unders)).
    { unfold cs1. rewrite Hen, Hen0. eapply rem_rel_perm; [|apply rem_rel_frame; exact Hrel]. perm. }
    destruct value as [value|].
    2:{ destruct (Hn eq_refl) as [-> ->]. cbn [xthe flat_map app]. rewrite app_nil_r.
        assert (Ecs1 : cs1 = cs) by (unfold cs1; now rewrite set_nth_same).
        rewrite Ecs1. exact (IHi cs Hl Hcs Hlk). }
    eapply spec_dbind with (F := []); [rewrite app_nil_r; reflexivity|apply (dspec_shallow_len l child' _ Hc')|].
    intros len Elen. rewrite app_nil_r, Elen. cbn [bind]. apply (shallow_xlen l child' len) in Elen; [|exact Hc'].
    eapply spec_bind with (F := [])
      (fg := fun r : list xnode * list xcc => (map xforget (fst r), map xforget_cc (snd r)))
      (th := fun r => xthings (XNode b bid id (CInner (fst r))) ++ [XVal value] ++ flat_map xthings_cc (snd r))
      (QA := fun r => length (fst r) <= cap /\ Forall (xwf l) (fst r) /\ ccs_ok (S l) (snd r) /\
         Permutation (xentries (XNode b bid id (CInner (fst r))) ++ flat_map ccs_entries (snd r))
                     (xentries (XNode b bid id (CInner cs1)) ++ flat_map ccs_entries unders) /\
         (lk -> snd r = [] /\ length cs <= length (fst r)))
      (te := xthings) (QE := rem_left (S l) (XNode b bid id (CInner cs)) q); [rewrite app_nil_r; reflexivity| | |].
    + destruct (Nat.ltb_spec len minc) as [Hlt|Hge].
      * assert (Hnlk : ~ lk).
        { intros Hk. destruct (Hun Hk) as [_ Hle]. destruct (Hsp1 Hk) as [[H0|H0] _]; lia. }
        rewrite swap_remove_map.
        destruct (swap_remove_spec i cs1) as (x & cs2 & Es & Hx & Hpx & _).
        { unfold cs1. now rewrite set_nth_length. }
        assert (x = child').
        { unfold cs1 in Hx. rewrite nth_error_set_nth, Nat.eqb_refl in Hx. destruct (Nat.ltb_spec i (length cs)); [congruence|lia]. }
        subst x. rewrite Es, dlift_ok. cbn [res_map bind fst snd].
        assert (Hl2 : length cs2 <= cap).
        { apply Permutation_length in Hpx. unfold cs1 in Hpx. rewrite set_nth_length in Hpx. cbn in Hpx. lia. }
        assert (Hw2 : Forall (xwf l) cs2).
        { assert (HF : Forall (xwf l) (child' :: cs2)) by (apply (Forall_perm _ _ _ Hpx); unfold cs1; auto). now inversion HF. }
        eapply spec_dbind with (H1 := xthings child') (F := xthings (XNode b bid id (CInner cs2)) ++ [XVal value] ++ flat_map xthings_cc unders).
        { cbn [CrashSpec.xthings]. rewrite (Permutation_flat_map_ xthings _ _ Hpx). cbn [flat_map xthe]. perm. }
        { apply (dspec_container_children l child' Hc'). }
        intros cc (Ecc & Hwcc & Hlcc & Hecc). rewrite Ecc. cbn [bind]. apply spec_ret.
        -- cbn [fst snd]. now rewrite map_app.
        -- cbn [fst snd]. split; [exact Hl2|]. split; [exact Hw2|]. split; [split; [|split]|split; [|intros Hk; now elim (Hnlk Hk)]].
           ++ apply Forall_app. auto.
           ++ rewrite map_app. cbn [map]. rewrite Hlcc.
              eapply Permutation_NoDup; [apply Permutation_cons_append|].
              constructor; [|exact Hcc2]. intros Hin. apply in_map_iff in Hin as (cc2 & E2 & Hin).
              rewrite Forall_forall in Hcc3. specialize (Hcc3 _ Hin). cbn in Hcc3. lia.
           ++ apply Forall_app. split; [eapply Forall_impl; [|exact Hcc3]; cbn; lia|].
              constructor; [lia|constructor].
           ++ rewrite flat_map_app. cbn [flat_map]. rewrite Hecc, !xentries_inner.
              rewrite (Permutation_flat_map_ xentries _ _ Hpx). cbn [flat_map]. perm.
        -- cbn [fst snd]. rewrite flat_map_app. cbn [flat_map]. perm.
      * apply spec_ret; [reflexivity| |reflexivity]. cbn [fst snd]. split; [unfold cs1; auto|]. split; [unfold cs1; auto|].
        split; [|split; [reflexivity|]].
        -- split; [exact Hcc1|]. split; [exact Hcc2|]. eapply Forall_impl; [|exact Hcc3]; cbn; lia.
        -- intros Hk. split; [exact (proj1 (Hun Hk))|]. unfold cs1. now rewrite set_nth_length.
    + intros [cs2 u2] (H1 & H2 & H3 & H4 & H5) _. cbn [fst snd with_ch] in *. rewrite app_nil_r.
      assert (Hrel2 : rem_rel (Some value) (xentries (XNode b bid id (CInner cs))) q (xentries (XNode b bid id (CInner cs2)) ++ flat_map ccs_entries u2)).
      { eapply rem_rel_perm; [symmetry; exact H4|exact Hrel1]. }
      apply spec_user.
      * eapply spec_dbind; [reflexivity|apply dspec_set_bounds|]. intros n' [bid' ->]. cbn [x_id x_children]. apply spec_ret.
        -- unfold xforget_rem. cbn [fst snd xforget]. now rewrite map_x_bounds.
        -- split; [now split|]. split; [exact H3|]. split; [discriminate|]. split; [exact Hrel2|].
           intros Hk. destruct (H5 Hk) as [E5 L5]. cbn [fst snd] in *. split; [exact E5|]. unfold xlen. cbn [x_children]. lia.
        -- unfold xthings_rem. cbn [fst snd xthe]. perm.
      * eapply cspec_then with (H1 := [XVal value]) (F := xthings (XNode b bid id (CInner cs2)) ++ flat_map xthings_cc u2);
          [perm|apply dspec_destroy| |].
        { apply keep_app_r. intros Hk. now rewrite (proj1 (H5 Hk)). }
        split; [now split|]. split.
        -- apply rem_rel_part in Hrel2. eapply part_cut. exact Hrel2.
        -- intros Hk. exists (Some value). rewrite (proj1 (H5 Hk)) in Hrel2. cbn [flat_map] in Hrel2. rewrite app_nil_r in Hrel2. exact Hrel2.
    + intros n' Hn'. rewrite app_nil_r. apply cspec_ret; [apply keep_refl|exact Hn'].
Qed.
End R.
End XRem.
