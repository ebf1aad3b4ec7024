(** Unwinding: whole programs. *)
From Verif Require Export CrashOps ForestProof.
Set Default Proof Using "Type".

Lemma bind_bind {A C E} (r : res A) (f : A -> res C) (g : C -> res E) : bind (bind r f) g = bind r (fun a => bind (f a) g).
Proof. now destruct r. Qed.

Section XClone.
Context {B K V : Type} (crash : nat -> bool) (bdrop : bool) (gv : list (xthing K V)) (lk : Prop) (P : Params B K) (cfg : config).
Notation xnode := (xnode B K V).
Notation xcontainer := (xcontainer B K V).
Notation spec := (spec crash gv lk).
Notation cspec := (cspec gv lk).
Notation dspec := (dspec gv).
Notation cap := (max_children cfg).
Notation xthings := (xthings bdrop).
Notation xthings_c := (xthings_c bdrop).
Notation bnd_things := (bnd_things bdrop).
Notation xwf := (xwf cfg).

Lemma dspec_make (x : xthing K V) : is_obj x = false -> dspec (fun s => Some (tt, make x s)) [] (fun _ => [x]) any.
Proof. intros Hx s L Ho. exists tt, (make x s). splits; auto; [exact Logic.I|]. cbn [app]. now apply xown_make_kv. Qed.

Lemma xclone_kv_spec (kv : K * V) :
  spec (xclone_kv crash kv) (Ok kv) (fun x => x) [] xkv_things (fun x => x = kv) nothing any.
Proof.
  unfold xclone_kv. apply spec_user; [|apply cspec_ret; [apply keep_refl|exact Logic.I]].
  eapply spec_dbind with (H1 := []) (F := []); [reflexivity|apply (dspec_make (XKey (fst kv))); reflexivity|].
  intros u _. apply spec_user.
  - eapply spec_dbind with (H1 := []); [cbn [app]; reflexivity|apply (dspec_make (XVal (snd kv))); reflexivity|].
    intros v _. apply spec_ret; [reflexivity|reflexivity|]. unfold xkv_things. perm.
  - apply dspec_cspec. cbn [app]. apply dspec_destroy.
Qed.

Lemma xclone_vec_spec id (vec new : list (K * V)) : length new + length vec <= cap ->
  spec (xclone_vec crash cfg id vec new) (clone_vec cfg vec new) (fun l => l) (XBuf id :: flat_map xkv_things new)
    (fun l => XBuf id :: flat_map xkv_things l) (fun l => l = new ++ vec) nothing any.
Proof.
  revert new; induction vec as [|x vec IH]; intros new Hl; cbn [xclone_vec clone_vec].
  - apply spec_ret; [reflexivity|now rewrite app_nil_r|reflexivity].
  - cbn [length] in Hl.
    assert (Hdv : forall H, Permutation H (XBuf id :: flat_map xkv_things new) -> cspec (drop_vec drop_kv id new) H nothing any).
    { intros H Hp. eapply cspec_perm; [exact Hp|]. apply dspec_cspec, dspec_drop_vec, dspec_drop_kv. }
    replace (let* new0 := push cap new x in clone_vec cfg vec new0) with (bind (Ok x) (fun x => let* new0 := push cap new x in clone_vec cfg vec new0)) by reflexivity.
    eapply spec_bind with (H1 := []); [cbn [app]; reflexivity|apply xclone_kv_spec| |].
    2:{ intros u _. now apply Hdv. }
    intros y -> _.
    eapply spec_bind with (F := []); [rewrite app_nil_r; reflexivity|apply xtry_push_spec; lia| |].
    + intros l [-> Hle] _. rewrite app_nil_r. eapply spec_perm; [|eapply spec_mono; [| |apply (IH (new ++ [x]))]].
      * rewrite flat_map_app. cbn [flat_map]. perm.
      * intros l ->. now rewrite <- app_assoc.
      * intros e He. exact He.
      * rewrite app_length. cbn. lia.
    + intros y ->. rewrite app_nil_r.
      eapply cspec_bind with (H1 := xkv_things x); [reflexivity|apply dspec_cspec, dspec_drop_kv|]. intros u _. now apply Hdv.
Qed.

Lemma xclone_node_spec level (n : xnode) H : xwf level n -> part_of (xthings n) H -> (lk -> level = 0) ->
  spec (xclone_node crash bdrop cfg level n) (clone_node cfg level (xforget n)) xforget H (fun n' => xthings n' ++ H)
    (fun n' => xwf level n' /\ xentries n' = xentries n) (fun _ => H) any.
Proof.
  revert n H; induction level as [|l IH]; intros n H Hwf HH Hlk; cbn [xclone_node clone_node].
  - apply spec_user; [|apply cspec_ret; [apply keep_refl|exact Logic.I]].
    apply xwf_leaf in Hwf as (b & bid & id & es & -> & Hl). cbn [xforget node_children read_leaf bind node_bounds].
    eapply spec_dbind with (F := []); [rewrite app_nil_r; reflexivity|apply dspec_read_leaf|].
    { destruct HH as [r HH]. rewrite HH. cbn [CrashSpec.xthings]. rewrite <- app_assoc. apply in_or_app. right. now left. }
    intros es' ->. rewrite app_nil_r. destruct (Nat.ltb_spec cap (length es)); [lia|].
    eapply spec_dbind with (H1 := []); [cbn [app]; reflexivity|apply dspec_new_buf|]. intros id2 _.
    eapply spec_bind with (H1 := XBuf id2 :: flat_map xkv_things []) (F := H); [reflexivity|apply xclone_vec_spec; cbn; lia| |].
    + intros es' -> _. cbn [app]. eapply spec_dbind with (H1 := []); [cbn [app]; reflexivity|apply dspec_new_bnd|].
      intros bid2 _. apply spec_ret; [reflexivity| |cbn [CrashSpec.xthings]; perm]. split; [exact Hl|reflexivity].
    + intros u _. apply cspec_ret; [apply keep_refl|exact Logic.I].
  - assert (Hnlk : ~ lk) by (intros Hk; specialize (Hlk Hk); discriminate).
    apply spec_user; [|apply cspec_ret; [apply keep_refl|exact Logic.I]].
    apply xwf_inner in Hwf as (b & bid & id & cs & -> & Hl & Hcs). cbn [xforget node_children read_inner bind node_bounds].
    eapply spec_dbind with (F := []); [rewrite app_nil_r; reflexivity|apply dspec_read_inner|].
    { eapply part_trans; [|exact HH]. cbn [CrashSpec.xthings]. eapply part_perm_r; [apply Permutation_app_comm|]. apply part_app_r, part_refl. }
    intros cs' ->. rewrite app_nil_r.
    assert (Hpc : part_of (flat_map xthings cs) H).
    { eapply part_trans; [|exact HH]. cbn [CrashSpec.xthings]. eapply part_perm_r with (l2' := flat_map xthings cs ++ bnd_things bid ++ [XBuf id]); [perm|].
      apply part_app_r, part_refl. }
    eapply spec_dbind with (H1 := []); [cbn [app]; reflexivity|apply dspec_new_buf|]. intros id2 _.
    eapply spec_bind with (F := []) (fg := map xforget) (th := fun cs' => XBuf id2 :: flat_map xthings cs' ++ H) (te := fun _ => H) (QE := any)
      (QA := fun cs' => length cs' <= cap /\ Forall (xwf l) cs' /\ flat_map xentries cs' = flat_map xentries cs); [rewrite app_nil_r; reflexivity| | |].
    { assert (G : forall new : list xnode, length new + length cs <= cap -> Forall (xwf l) new ->
        spec ((fix loop (cs new : list xnode) : X K V (list xnode) unit :=
                 match cs with
                 | [] => dret (inl new)
                 | c :: r =>
                   try! c := xclone_node crash bdrop cfg l c catch _ => drop_vec (drop_bare bdrop) id2 new in
                   try! new' := xtry_push cap new c catch c => (let$ _ := drop_bare bdrop c in drop_vec (drop_bare bdrop) id2 new) in
                   loop r new'
                 end) cs new)
          ((fix loop (cs new : list (node B K V)) : res (list (node B K V)) :=
              match cs with
              | [] => Ok new
              | c :: r =>
                let* c := clone_node cfg l c in
                let* new := push cap new c in
                loop r new
              end) (map xforget cs) (map xforget new)) (map xforget)
          (XBuf id2 :: flat_map xthings new ++ H) (fun cs' => XBuf id2 :: flat_map xthings cs' ++ H)
          (fun cs' => length cs' <= cap /\ Forall (xwf l) cs' /\ flat_map xentries cs' = flat_map xentries new ++ flat_map xentries cs) (fun _ => H) any).
      { clear HH Hl. induction cs as [|c r IHr]; intros new Hl Hnew; cbn [map].
        - apply spec_ret; [reflexivity| |reflexivity]. splits; auto; [cbn in Hl; lia|]. cbn [flat_map]. now rewrite app_nil_r.
        - cbn [length] in Hl. inversion Hcs as [|? ? Hc Hr]; subst.
          assert (Hpc1 : part_of (xthings c) H) by (eapply part_cut; exact Hpc).
          assert (Hpc2 : part_of (flat_map xthings r) H).
          { eapply part_cut. eapply part_perm_l; [apply Permutation_app_comm|exact Hpc]. }
          assert (Hdv : forall H', Permutation H' (XBuf id2 :: flat_map xthings new ++ H) -> cspec (drop_vec (drop_bare bdrop) id2 new) H' (fun _ => H) any).
          { intros H' Hp s L Ho. destruct (cspec_drop_vec gv lk (drop_bare bdrop) xthings id2 new (fun c => cspec_drop_bare bdrop gv lk c Hnlk) s (H ++ L)) as (u & s' & E & Ec & HQ & lost & Ho' & Hl0).
            { eapply xown_perm; [|exact Ho]. rewrite Hp. perm. }
            exists u, s'. splits; auto. exists lost. split; [|exact Hl0]. eapply xown_perm; [|exact Ho']. unfold nothing. perm. }
          eapply spec_bind with (F := XBuf id2 :: flat_map xthings new); [|exact (IH c H Hc Hpc1 (fun Hk => False_ind _ (Hnlk Hk)))| |].
          { perm. }
          2:{ intros u _. apply Hdv. perm. }
          intros c' [Hc' Hec] _.
          rewrite push_map. replace (res_map (map xforget) (push cap new c')) with (bind (push cap new c') (fun l => Ok (map xforget l))) by (now destruct (push cap new c')).
          rewrite bind_bind.
          eapply spec_bind with (F := []); [rewrite app_nil_r; reflexivity|apply xtry_push_spec; lia| |].
          + intros new' [-> Hle] _. rewrite app_nil_r. cbn [bind].
            eapply spec_perm; [|eapply spec_mono; [| |apply (IHr Hr Hpc2 (new ++ [c']))]].
            * rewrite flat_map_app. cbn [flat_map]. perm.
            * intros cs' (H1 & H2 & H3). splits; auto. rewrite H3, flat_map_app. cbn [flat_map]. rewrite Hec, app_nil_r. now rewrite <- app_assoc.
            * intros e He. exact He.
            * rewrite app_length. cbn. lia.
            * apply Forall_app. auto.
          + intros y ->. rewrite app_nil_r.
            eapply cspec_bind with (H1 := xthings c') (F := XBuf id2 :: flat_map xthings new ++ H); [perm|apply cspec_drop_bare; exact Hnlk|].
            intros u _. apply Hdv. reflexivity. }
      specialize (G []). cbn [map flat_map app length] in G. apply G; [exact Hl|constructor]. }
    + intros cs' (H1 & H2 & H3) _. rewrite app_nil_r. eapply spec_dbind with (H1 := []); [cbn [app]; reflexivity|apply dspec_new_bnd|].
      intros bid2 _. apply spec_ret; [reflexivity| |cbn [CrashSpec.xthings]; perm]. split; [split; auto|]. now rewrite !xentries_inner.
    + intros u _. rewrite app_nil_r. apply cspec_ret; [apply keep_refl|exact Logic.I].
Qed.

Lemma xtree_clone_spec (t : xcontainer) H : cwf cfg t -> part_of (xthings_c t) H -> (lk -> fst t = 0) ->
  spec (xtree_clone crash bdrop cfg t) (rtree_clone cfg (xforget_c t)) xforget_c H (fun t' => xthings_c t' ++ H)
    (fun t' => cwf cfg t' /\ centries t' = centries t) (fun _ => H) any.
Proof.
  intros Hwf HH Hlk. unfold xtree_clone, rtree_clone. cbn [xforget_c fst snd].
  eapply spec_bind with (F := []); [rewrite app_nil_r; reflexivity|apply (xclone_node_spec (fst t) (snd t) H Hwf HH Hlk)| |].
  - intros n' [H1 H2] _. apply spec_ret; [reflexivity|split; [exact H1|exact H2]|]. unfold CrashSpec.xthings_c. cbn [snd]. perm.
  - intros u _. apply cspec_ret; [rewrite app_nil_r; apply keep_refl|exact Logic.I].
Qed.

Lemma xnew_leaf_spec :
  spec (xnew_leaf crash bdrop P) (Ok (rtree_new P)) xforget_c [] xthings_c (fun t => cwf cfg t /\ centries t = []) nothing any.
Proof.
  unfold xnew_leaf. apply spec_user; [|apply cspec_ret; [apply keep_refl|exact Logic.I]].
  eapply spec_dbind with (H1 := []) (F := []); [reflexivity|apply dspec_new_buf|]. intros id _.
  eapply spec_dbind with (H1 := []); [cbn [app]; reflexivity|apply dspec_new_bnd|]. intros bid _.
  apply spec_ret; [reflexivity|split; [cbn; lia|reflexivity]|]. unfold CrashSpec.xthings_c. cbn [snd CrashSpec.xthings flat_map]. perm.
Qed.

Lemma drop_node_wf level (n : xnode) : xwf level n -> exists ds, drop_node level (xforget n) = Ok ds.
Proof.
  revert n; induction level as [|l IH]; intros n Hwf; cbn [drop_node].
  - apply xwf_leaf in Hwf as (b & bid & id & es & -> & _). now exists (rev es).
  - apply xwf_inner in Hwf as (b & bid & id & cs & -> & _ & Hcs). cbn [xforget node_children read_inner bind].
    induction cs as [|c cs IHcs]; cbn [map]; [now exists []|]. inversion Hcs as [|? ? Hc Hr]; subst.
    destruct (IH c Hc) as [d ->]. cbn [bind]. destruct (IHcs Hr) as [ds ->]. cbn [bind]. now exists (d ++ ds).
Qed.
End XClone.

Section XForestProof.
Context {B K V : Type} (crash : nat -> bool) (bdrop : bool) (gv : list (xthing K V)) (lk ns : Prop) (P : Params B K).
Notation xforest := (xforest B K V).
Notation xcontainer := (xcontainer B K V).
Notation mop := (mop B K V).
Notation spec := (spec crash gv lk).
Notation cspec := (cspec gv lk).
Notation dspec := (dspec gv).
Notation xthings_c := (xthings_c bdrop).
Notation xforest_things := (xforest_things bdrop).

Definition xslot_wf (o : option (config * xcontainer)) : Prop :=
  match o with Some (cfg, t) => cwf cfg t /\ (bdrop = false \/ max_children cfg <> 1) | None => True end.
Definition fwf (F : xforest) : Prop := Forall xslot_wf F.

Lemma xtree_at_forget (F : xforest) i :
  ptree_at (xforget_forest F) i = option_map (fun ct => (fst ct, xforget_c (snd ct))) (xtree_at F i).
Proof.
  unfold ptree_at, xtree_at, xforget_forest. rewrite nth_error_map_.
  destruct (nth_error F i) as [[[c t]|]|]; reflexivity.
Qed.

Lemma xforest_at (F : xforest) i c t : xtree_at F i = Some (c, t) -> exists rest,
  Permutation (xforest_things F) (xthings_c t ++ rest) /\
  (forall c' t', Permutation (xforest_things (set_nth i (Some (c', t')) F)) (xthings_c t' ++ rest)) /\
  Permutation (xforest_things (set_nth i None F)) rest.
Proof.
  unfold xtree_at. destruct (nth_error F i) as [[ct|]|] eqn:E; intros [= ->].
  assert (E' := E). apply nth_error_split in E' as (l1 & l2 & -> & <-).
  exists (xforest_things l1 ++ xforest_things l2). unfold CrashSpec.xforest_things.
  split; [rewrite flat_map_app; cbn [flat_map]; perm|]. split.
  - intros c' t'. rewrite set_nth_middle, flat_map_app. cbn [flat_map]. perm.
  - rewrite set_nth_middle, flat_map_app. cbn [flat_map]. perm.
Qed.

Lemma xforget_set i (c : config) (t : xcontainer) F :
  xforget_forest (set_nth i (Some (c, t)) F) = set_nth i (Some (c, xforget_c t)) (xforget_forest F).
Proof.
  symmetry. unfold xforget_forest.
  change (Some (c, xforget_c t)) with (option_map (fun ct : config * xcontainer => (fst ct, xforget_c (snd ct))) (Some (c, t))).
  apply set_nth_map.
Qed.
Lemma xforget_unset i (F : xforest) : xforget_forest (set_nth i None F) = set_nth i None (xforget_forest F).
Proof.
  symmetry. unfold xforget_forest. change None with (option_map (fun ct : config * xcontainer => (fst ct, xforget_c (snd ct))) None) at 1.
  apply set_nth_map.
Qed.
Lemma xforget_app (F : xforest) c t : xforget_forest (F ++ [Some (c, t)]) = xforget_forest F ++ [Some (c, xforget_c t)].
Proof. unfold xforget_forest. now rewrite map_app. Qed.

Lemma fwf_at (F : xforest) i c t : fwf F -> xtree_at F i = Some (c, t) -> cwf c t /\ (bdrop = false \/ max_children c <> 1).
Proof.
  intros HF. unfold xtree_at. destruct (nth_error F i) as [[ct|]|] eqn:E; intros [= ->].
  apply nth_error_In in E. unfold fwf in HF. rewrite Forall_forall in HF. exact (HF _ E).
Qed.

Lemma changed_at i (N : Prop) (R : list (K * V) -> list (K * V) -> Prop) (F : xforest) c t (t' : xcontainer) : xtree_at F i = Some (c, t) -> R (centries t) (centries t') ->
  changed i N R (xforget_forest F) (xforget_forest (set_nth i (Some (c, t')) F)).
Proof.
  intros Et HR. unfold changed. rewrite xtree_at_forget, Et. cbn [option_map fst snd]. rewrite xforget_set. now exists (xforget_c t').
Qed.
Lemma changed_none i (N : Prop) R (F : xforest) : xtree_at F i = None -> N -> changed i N R (xforget_forest F) (xforget_forest F).
Proof. intros Et HN. unfold changed. rewrite xtree_at_forget, Et. now split. Qed.

Definition xout (r : list (xthing K V) * xforest) : list (thing K V) * pforest B K V := (map thing_of (fst r), xforget_forest (snd r)).

Lemma thing_of_xthe (v : option V) : map (@thing_of K V) (xthe v) = the v.
Proof. destruct v; reflexivity. Qed.

(** *** The conditions of CrashSpec.v on numbered nodes *)
Lemma fanout_xlen (n : xnode B K V) : fanout (xforget n) = xlen n.
Proof. destruct n as [b bid id [cs|es]]; cbn; [apply map_length|reflexivity]. Qed.

Lemma node_at_child l b (cs : list (node B K V)) c i m : In c cs -> node_at (l, c) i m -> node_at (S l, Node b (CInner cs)) i m.
Proof.
  intros Hin H. remember (l, c) as t eqn:Et. induction H as [|i b' cs' c' H IH Hc']; subst.
  - cbn [fst snd]. apply (at_child (S l, Node b (CInner cs)) l b cs c); [apply (at_root (S l, Node b (CInner cs)))|exact Hin].
  - eapply at_child; [exact IH|exact Hc'].
Qed.
Lemma node_at_le (t : rtree B K V) i m : node_at t i m -> i <= fst t.
Proof. induction 1; lia. Qed.

Lemma inner_roomy_xroom cfg level (n : xnode B K V) : inner_roomy cfg (level, xforget n) -> xroom cfg level n.
Proof.
  revert n; induction level as [|l IH]; intros [b bid id [cs|es]] H; cbn; auto. split.
  - rewrite <- (map_length xforget). apply (H l _ (at_root (S l, xforget (XNode b bid id (CInner cs))))).
  - apply Forall_forall. intros c Hc. apply IH. intros i m Hm. apply (H i). cbn [xforget].
    apply node_at_child with (c := xforget c); [now apply in_map|exact Hm].
Qed.
Lemma roomy_xroom_all cfg level (n : xnode B K V) : roomy cfg (level, xforget n) -> xroom_all cfg level n.
Proof.
  revert n; induction level as [|l IH]; intros [b bid id [cs|es]] H; cbn; auto.
  - apply (H 0 _ (at_root (0, xforget (XNode b bid id (CLeaf es))))).
  - split.
    + rewrite <- (map_length xforget). apply (H (S l) _ (at_root (S l, xforget (XNode b bid id (CInner cs))))).
    + apply Forall_forall. intros c Hc. apply IH. intros i m Hm. apply (H i). cbn [xforget].
      apply node_at_child with (c := xforget c); [now apply in_map|exact Hm].
Qed.
Lemma spare_xspare cfg level (n : xnode B K V) : spare cfg (level, xforget n) -> xspare cfg level n.
Proof.
  revert n; induction level as [|l IH]; intros [b bid id [cs|es]] H; cbn; auto.
  apply Forall_forall. intros c Hc. destruct H as [H|H].
  - split; [now left|]. apply IH. now left.
  - split; [right|apply IH; right].
    + rewrite <- fanout_xlen. apply (H l); [|cbn; lia]. apply node_at_child with (c := xforget c); [now apply in_map|].
      apply (at_root (l, xforget c)).
    + intros i m Hm Hi. apply (H i); [|cbn [fst] in *; lia]. cbn [xforget].
      apply node_at_child with (c := xforget c); [now apply in_map|exact Hm].
Qed.

Lemma xstep_spec (F : xforest) (o : mop) : fwf F -> unwind_ok bdrop o -> (lk -> leak_free o (xforget_forest F)) -> (ns -> calm o (xforget_forest F)) ->
  spec (xstep crash bdrop P F o) (pstep P (xforget_forest F) o) xout
    (xforest_things F ++ xgiven o) (fun r => fst r ++ xforest_things (snd r))
    (fun r => fwf (snd r) /\ done_as P o (fst r) (xforget_forest F) (xforget_forest (snd r)))
    xforest_things (fun F' => fwf F' /\ left_behind P o (xforget_forest F) (xforget_forest F') /\
      (ns -> match o with MRemove _ _ _ _ => lk | _ => True end -> kept P o (xforget_forest F) (xforget_forest F'))).
Proof.
  intros HF Hu Hlk Hns. destruct o as [cfg|i k v|i k v|i Q BR q|i Q BR q v|i|i]; cbn [xstep pstep done_as left_behind unwind_ok leak_free calm kept] in *;
    rewrite ?xtree_at_forget in *.
  - change (xgiven (MNew cfg)) with (@nil (xthing K V)).
    change (Ok ([], xforget_forest F ++ [Some (cfg, rtree_new P)])) with
      (bind (Ok (rtree_new P)) (fun t => Ok (@nil (thing K V), xforget_forest F ++ [Some (cfg, t)]))).
    eapply spec_bind with (H1 := []) (F := xforest_things F); [now rewrite app_nil_r|apply xnew_leaf_spec with (cfg := cfg)| |].
    + intros t [H1 H2] _. apply spec_ret.
      * unfold xout. cbn [fst snd map]. now rewrite xforget_app.
      * cbn [fst snd]. split; [apply Forall_app; split; [exact HF|]; constructor; [now split|constructor]|].
        split; [reflexivity|]. exists (xforget_c t). now rewrite xforget_app.
      * cbn [fst snd app]. unfold CrashSpec.xforest_things at 2. rewrite flat_map_app. fold (xforest_things F). cbn [flat_map]. perm.
    + intros u _. apply cspec_ret; [apply keep_refl|now splits].
  - change (xgiven (MInsert i k v)) with [XKey k; @XVal K V v].
    destruct (xtree_at F i) as [[cfg t]|] eqn:Et; cbn [option_map fst snd].
    2:{ apply spec_ret; [reflexivity| |cbn [fst snd]; perm]. cbn [fst snd]. split; [exact HF|]. now apply changed_none. }
    destruct (fwf_at F i cfg t HF Et) as [Hw Hc]. destruct (xforest_at F i cfg t Et) as (rest & Hp & Hp' & _).
    eapply spec_bind with (F := rest); [|apply (xinsert_entry_spec crash bdrop gv lk ns P cfg t (XELeaf (k, v)) Hc Hw Logic.I)| |].
    + rewrite Hp. cbn [CrashTree.xthings_e]. rewrite xkv_eq. perm.
    + intros Hk. destruct (Hlk Hk cfg (xforget_c t) eq_refl) as [H1 H2]. split; [exact H1|]. now apply inner_roomy_xroom.
    + intros Hk. apply roomy_xroom_all. exact (Hns Hk cfg (xforget_c t) eq_refl).
    + intros t' [H1 H2] _. apply spec_ret.
      * unfold xout. cbn [fst snd map]. now rewrite xforget_set.
      * cbn [fst snd]. split; [apply Forall_set; [exact HF|now split]|]. apply (changed_at i _ _ F cfg t t' Et). now split.
      * cbn [fst snd app]. rewrite Hp'. reflexivity.
    + intros t' (H1 & H2 & H3). apply cspec_ret; [apply keep_perm; rewrite Hp'; reflexivity|].
      split; [apply Forall_set; [exact HF|now split]|]. split; [now apply (changed_at i _ _ F cfg t t' Et)|].
      intros Hk _. apply (changed_at i _ _ F cfg t t' Et). exact (H3 Hk).
  - change (xgiven (MInsertUnique i k v)) with [XKey k; @XVal K V v].
    destruct (xtree_at F i) as [[cfg t]|] eqn:Et; cbn [option_map fst snd].
    2:{ apply spec_ret; [reflexivity| |cbn [fst snd]; perm]. cbn [fst snd]. split; [exact HF|]. now apply changed_none. }
    destruct (fwf_at F i cfg t HF Et) as [Hw Hc]. destruct (xforest_at F i cfg t Et) as (rest & Hp & Hp' & _).
    eapply spec_bind with (F := rest); [|apply (xcontainer_insert_unique_spec crash bdrop gv lk ns P cfg t k v Hc Hw)| |].
    + rewrite Hp. rewrite xkv_eq. perm.
    + intros Hk. destruct (Hlk Hk cfg (xforget_c t) eq_refl) as [H1 H2]. split; [exact H1|]. now apply inner_roomy_xroom.
    + intros Hk. apply roomy_xroom_all. exact (Hns Hk cfg (xforget_c t) eq_refl).
    + intros [old t'] [H1 H2] _. cbn [fst snd] in *. apply spec_ret.
      * unfold xout. cbn [fst snd]. now rewrite xforget_set, thing_of_xthe.
      * cbn [fst snd]. split; [apply Forall_set; [exact HF|now split]|]. apply (changed_at i _ _ F cfg t t' Et).
        destruct old as [old|]; cbn [uniq_rel xthe] in *; [right|left; now split].
        destruct H2 as (k0 & r & E & H3 & H4). exists old. split; [reflexivity|]. now exists k0, r.
      * cbn [fst snd]. rewrite Hp'. perm.
    + intros t' (H1 & H2 & H5). apply cspec_ret; [apply keep_perm; rewrite Hp'; reflexivity|].
      split; [apply Forall_set; [exact HF|now split]|]. split.
      2:{ intros Hk _. apply (changed_at i _ _ F cfg t t' Et). destruct (H5 Hk) as [H6|(k0 & old & r & E & H6 & H7)]; [now left|right].
          exists old. exists k0, r. now splits. }
      apply (changed_at i _ _ F cfg t t' Et).
      destruct H2 as [H2|(k0 & old & r & E & H3 & H4)]; [now left|right]. exists old, ((k0, v) :: r). split; [|exact H4]. now exists k0, r.
  - change (xgiven (MRemove i Q BR q)) with (@nil (xthing K V)).
    destruct (xtree_at F i) as [[cfg t]|] eqn:Et; cbn [option_map fst snd].
    2:{ apply spec_ret; [reflexivity| |cbn [fst snd]; perm]. cbn [fst snd]. split; [exact HF|]. now apply changed_none. }
    destruct (fwf_at F i cfg t HF Et) as [Hw Hc]. destruct (xforest_at F i cfg t Et) as (rest & Hp & Hp' & _).
    eapply spec_bind with (F := rest); [|apply (xcontainer_remove_spec crash bdrop gv lk P cfg BR t q Hc Hw)| |].
    + rewrite Hp. perm.
    + intros Hk. apply spare_xspare. exact (Hlk Hk cfg (xforget_c t) eq_refl).
    + intros [old t'] [H1 H2] _. cbn [fst snd] in *. apply spec_ret.
      * unfold xout. cbn [fst snd]. now rewrite xforget_set, thing_of_xthe.
      * cbn [fst snd]. split; [apply Forall_set; [exact HF|now split]|]. apply (changed_at i _ _ F cfg t t' Et).
        destruct old as [old|]; cbn [rem_rel xthe] in *; [right|left; now split].
        destruct H2 as (k0 & E & H3). now exists k0, old.
      * cbn [fst snd]. rewrite Hp'. perm.
    + intros t' [[H1 H2] H3]. apply cspec_ret; [apply keep_perm; rewrite Hp'; reflexivity|].
      split; [apply Forall_set; [exact HF|now split]|]. split; [now apply (changed_at i _ _ F cfg t t' Et)|].
      intros _ Hk. apply (changed_at i _ _ F cfg t t' Et). destruct (H3 Hk) as [[old|] Hr]; [right|now left].
      destruct Hr as (k0 & E & Hr). now exists k0, old.
  - change (xgiven (MReplace i Q BR q v)) with [@XVal K V v].
    destruct (xtree_at F i) as [[cfg t]|] eqn:Et; cbn [option_map fst snd].
    2:{ apply spec_ret; [reflexivity| |cbn [fst snd]; perm]. cbn [fst snd]. split; [exact HF|]. now apply changed_none. }
    destruct (fwf_at F i cfg t HF Et) as [Hw Hc]. destruct (xforest_at F i cfg t Et) as (rest & Hp & Hp' & _).
    unfold rtree_get_mut. rewrite bind_bind. cbn [xforget_c fst snd].
    assert (Hpt : part_of (xthings bdrop (snd t)) (xforest_things F)) by (exists rest; rewrite Hp; reflexivity).
    eapply spec_bind with (F := [XVal v]); [reflexivity|exact (xnode_get_mut_spec crash bdrop gv lk P cfg BR (fst t) (snd t) q (xforest_things F) Hw Hpt)| |].
    + intros [[old put]|] Hl _; cbn [forget_lens option_map bind fst snd].
      * destruct Hl as (k0 & r & T & H1 & H2 & H3 & H4). destruct (H4 v) as (H5 & H6 & H7). apply spec_ret.
        -- unfold xout. cbn [fst snd map thing_of]. now rewrite xforget_set.
        -- cbn [fst snd]. split; [apply Forall_set; [exact HF|now split]|]. apply (changed_at i _ _ F cfg t _ Et).
           right. exists old. split; [reflexivity|]. exists k0, r. now splits.
        -- cbn [fst snd]. rewrite Hp', Hp. unfold CrashSpec.xthings_c. cbn [snd]. rewrite H7, H3. perm.
      * apply spec_ret; [reflexivity| |cbn [fst snd]; perm]. cbn [fst snd]. split; [exact HF|].
        unfold changed. rewrite xtree_at_forget, Et. cbn [option_map fst snd]. exists (xforget_c t). split; [|now left].
        rewrite <- xforget_set. f_equal. unfold xtree_at in Et. destruct (nth_error F i) as [[ct|]|] eqn:E; [|discriminate|discriminate].
        injection Et as ->. clear - E. revert i E; induction F as [|x F IH]; intros [|i] E; cbn in *; try discriminate.
        -- now injection E as ->.
        -- now rewrite <- IH.
    + intros u _. eapply cspec_then with (H1 := [XVal v]) (F := xforest_things F); [perm|apply dspec_destroy|apply keep_refl|now splits].
  - change (xgiven (MClone i)) with (@nil (xthing K V)).
    destruct (xtree_at F i) as [[cfg t]|] eqn:Et; cbn [option_map fst snd].
    2:{ apply spec_ret; [reflexivity| |cbn [fst snd]; perm]. cbn [fst snd]. now splits. }
    destruct (fwf_at F i cfg t HF Et) as [Hw Hc]. destruct (xforest_at F i cfg t Et) as (rest & Hp & Hp' & _).
    assert (Hpt : part_of (xthings_c t) (xforest_things F)) by (exists rest; rewrite Hp; reflexivity).
    eapply spec_bind with (F := []); [reflexivity|apply (xtree_clone_spec crash bdrop gv lk cfg t (xforest_things F) Hw Hpt)| |].
    { intros Hk. exact (Hlk Hk cfg (xforget_c t) eq_refl). }
    + intros t' [H1 H2] _. apply spec_ret.
      * unfold xout. cbn [fst snd map]. now rewrite xforget_app.
      * cbn [fst snd]. split; [apply Forall_app; split; [exact HF|]; constructor; [now split|constructor]|].
        split; [reflexivity|]. exists (xforget_c t'). now rewrite xforget_app.
      * cbn [fst snd app]. unfold CrashSpec.xforest_things at 2. rewrite flat_map_app. fold (xforest_things F). cbn [flat_map]. perm.
    + intros u _. rewrite app_nil_r. apply cspec_ret; [apply keep_refl|now splits].
  - change (xgiven (MDrop i)) with (@nil (xthing K V)).
    destruct (xtree_at F i) as [[cfg t]|] eqn:Et; cbn [option_map fst snd].
    2:{ apply spec_ret; [reflexivity| |cbn [fst snd]; perm]. cbn [fst snd]. now splits. }
    destruct (fwf_at F i cfg t HF Et) as [Hw Hc]. destruct (xforest_at F i cfg t Et) as (rest & Hp & _ & Hp').
    eapply spec_dbind with (H1 := xthings_c t) (F := rest); [rewrite Hp; perm|exact (dspec_drop_container bdrop gv cfg t Hw)|].
    intros u _. destruct (drop_node_wf cfg (fst t) (snd t) Hw) as [ds Ed]. unfold rtree_drop. cbn [xforget_c fst snd]. rewrite Ed. cbn [bind].
    apply spec_ret.
    + unfold xout. cbn [fst snd map]. now rewrite xforget_unset.
    + cbn [fst snd]. split; [now apply Forall_set|]. split; [reflexivity|]. now rewrite xforget_unset.
    + cbn [fst snd app]. now rewrite Hp'.
Qed.

End XForestProof.

Section XForestRun.
Context {B K V : Type} (crash : nat -> bool) (bdrop : bool) (gv : list (xthing K V)) (P : Params B K).
Notation xforest := (xforest B K V).
Notation mop := (mop B K V).
Notation fwf := (fwf bdrop).
Notation xforest_things := (xforest_things bdrop).

(** Whatever the state of the trees. *)
Lemma xstep_spec0 (F : xforest) (o : mop) : fwf F -> unwind_ok bdrop o ->
  spec crash gv False (xstep crash bdrop P F o) (pstep P (xforget_forest F) o) xout
    (xforest_things F ++ xgiven o) (fun r => fst r ++ xforest_things (snd r))
    (fun r => fwf (snd r) /\ done_as P o (fst r) (xforget_forest F) (xforget_forest (snd r)))
    xforest_things (fun F' => fwf F' /\ left_behind P o (xforget_forest F) (xforget_forest F')).
Proof.
  intros HF Hu. eapply spec_mono; [| |apply (xstep_spec crash bdrop gv False False P F o HF Hu)].
  - intros r H. exact H.
  - intros F' (H1 & H2 & _). now split.
  - intros [].
  - intros [].
Qed.

Lemma got_back_cons (x : option (list (xthing K V))) xs :
  got_back (x :: xs) = match x with Some x => x | None => [] end ++ got_back xs.
Proof. reflexivity. Qed.

Lemma xrun_spec (os : list mop) (F : xforest) s L : fwf F -> Forall (unwind_ok bdrop) os ->
  xown gv s (xforest_things F ++ flat_map xgiven os ++ L) ->
  exists outs F' s' lost, xrun crash bdrop P F os s = Some ((outs, F'), s') /\ fwf F' /\ length outs = length os /\
    x_calls s <= x_calls s' /\
    xown gv s' (got_back outs ++ xforest_things F' ++ lost ++ L) /\ (Forall (fun o => o <> None) outs -> lost = []).
Proof.
  revert F s L; induction os as [|o os IH]; intros F s L HF Hu Ho; cbn [xrun flat_map].
  - exists [], F, s, []. splits; auto.
  - inversion Hu as [|? ? Hu1 Hu2]; subst. cbn [flat_map] in Ho.
    destruct (xstep_spec0 F o HF Hu1 s (flat_map xgiven os ++ L)) as (r & s1 & E & Ec & HR).
    { eapply xown_perm; [|exact Ho]. perm. }
    unfold dbind. rewrite E. destruct r as [[x F1]|F1].
    + destruct HR as (_ & [HF1 _] & Ho1). cbn [fst snd] in *.
      destruct (IH F1 s1 (x ++ L) HF1 Hu2) as (outs & F' & s' & lost & E' & HF' & Hl & Ec' & Ho' & Hlost).
      { eapply xown_perm; [|exact Ho1]. perm. }
      unfold dbind. rewrite E'. exists (Some x :: outs), F', s', lost. splits; auto; [cbn; lia|lia| |].
      * eapply xown_perm; [|exact Ho']. rewrite got_back_cons. perm.
      * inversion 1; auto.
    + destruct HR as (_ & [HF1 _] & leak & Ho1 & _).
      destruct (IH F1 s1 (leak ++ L) HF1 Hu2) as (outs & F' & s' & lost & E' & HF' & Hl & Ec' & Ho' & Hlost).
      { eapply xown_perm; [|exact Ho1]. perm. }
      unfold dbind. rewrite E'. exists (None :: outs), F', s', (lost ++ leak). splits; auto; [cbn; lia|lia| |].
      * eapply xown_perm; [|exact Ho']. rewrite got_back_cons. cbn [app]. perm.
      * inversion 1; congruence.
Qed.

Lemma xrun_app os1 os2 (F : xforest) s outs F' s' : xrun crash bdrop P F (os1 ++ os2) s = Some ((outs, F'), s') ->
  exists outs1 outs2 F1 s1, outs = outs1 ++ outs2 /\ xrun crash bdrop P F os1 s = Some ((outs1, F1), s1) /\
    xrun crash bdrop P F1 os2 s1 = Some ((outs2, F'), s').
Proof.
  revert F s outs; induction os1 as [|o os1 IH]; intros F s outs; cbn [app xrun].
  - intros E. now exists [], outs, F, s.
  - unfold dbind. destruct (xstep crash bdrop P F o s) as [[[[x F1]|F1] s1]|] eqn:E1; [| |discriminate].
    + destruct (xrun crash bdrop P F1 (os1 ++ os2) s1) as [[[xs F2] s2]|] eqn:E2; [|discriminate]. intros [= <- <- <-].
      destruct (IH F1 s1 xs E2) as (outs1 & outs2 & F3 & s3 & -> & E3 & E4). rewrite E3.
      exists (Some x :: outs1), outs2, F3, s3. splits; auto.
    + destruct (xrun crash bdrop P F1 (os1 ++ os2) s1) as [[[xs F2] s2]|] eqn:E2; [|discriminate]. intros [= <- <- <-].
      destruct (IH F1 s1 xs E2) as (outs1 & outs2 & F3 & s3 & -> & E3 & E4). rewrite E3.
      exists (None :: outs1), outs2, F3, s3. splits; auto.
Qed.
End XForestRun.

(** Keys and values handed over are not objects. *)
Lemma xgiven_not_obj {B K V} (os : list (mop B K V)) : Forall (fun x => is_obj x = false) (flat_map xgiven os).
Proof.
  induction os as [|o os IH]; cbn [flat_map]; [constructor|]. apply Forall_app. split; [|exact IH].
  destruct o; repeat constructor.
Qed.

Lemma xown_init {K V} (gv : list (xthing K V)) : Forall (fun x => is_obj x = false) gv -> xown gv (@xinit K V) gv.
Proof. intros H. split; cbn; auto; [constructor|contradiction]. Qed.

(** A state reached by a program. *)
Lemma xrun_init {B K V} crash bdrop (P : Params B K) (os os' : list (mop B K V)) : Forall (unwind_ok bdrop) os ->
  exists outs F s lost, xrun crash bdrop P [] os xinit = Some ((outs, F), s) /\ fwf bdrop F /\ length outs = length os /\
    xown (flat_map xgiven (os ++ os')) s (got_back outs ++ xforest_things bdrop F ++ lost ++ flat_map xgiven os') /\
    (Forall (fun o => o <> None) outs -> lost = []).
Proof.
  intros Hu. destruct (xrun_spec crash bdrop (flat_map xgiven (os ++ os')) P os [] xinit (flat_map xgiven os') ltac:(constructor) Hu)
    as (outs & F & s & lost & E & HF & Hl & _ & Ho & Hn).
  - eapply xown_perm; [|apply xown_init, xgiven_not_obj]. rewrite flat_map_app. reflexivity.
  - now exists outs, F, s, lost.
Qed.

(** *** The trees are still well formed but for their bounds *)
Lemma xwf_wf {B K V} cfg level (n : xnode B K V) : xwf cfg level n -> wf cfg any_key rel_any 0 False level (xforget n).
Proof.
  revert n; induction level as [|l IH]; intros n Hw.
  - apply xwf_leaf in Hw as (b & bid & id & es & -> & Hl). cbn [xforget]. apply wf_leaf. splits; auto; [exact Logic.I|].
    apply Forall_forall. intros; exact Logic.I.
  - apply xwf_inner in Hw as (b & bid & id & cs & -> & Hl & Hcs). cbn [xforget]. apply wf_inner. rewrite map_length. splits; auto; [exact Logic.I|].
    apply Forall_map. eapply Forall_impl; [|exact Hcs]. intros c Hc. split; [now apply IH|tauto].
Qed.

Lemma fwf_wf {B K V} bdrop (F : xforest B K V) i cfg t : fwf bdrop F -> ptree_at (xforget_forest F) i = Some (cfg, t) ->
  wf cfg any_key rel_any 0 False (fst t) (snd t).
Proof.
  intros HF. rewrite xtree_at_forget. destruct (xtree_at F i) as [[c t']|] eqn:E; cbn [option_map]; [|discriminate].
  intros [= <- <-]. apply xwf_wf. exact (proj1 (fwf_at bdrop F i c t' HF E)).
Qed.

