(** User code that answers as it likes: cloning, whole programs. *)
From Verif Require Export WildOps CrashForest.
Set Default Proof Using "Type".

Lemma Forall2_mono {A C} (R S : A -> C -> Prop) l l' : (forall x y, R x y -> S x y) -> Forall2 R l l' -> Forall2 S l l'.
Proof. intros H. induction 1; constructor; auto. Qed.

Lemma Forall2_len {A C} (R : A -> C -> Prop) l l' : Forall2 R l l' -> length l = length l'.
Proof. induction 1; cbn; auto. Qed.

Section WClones.
Context {B K V N : Type} (crash : nat -> bool) (bdrop : bool) (gv : list (xthing K V)) (np : Prop)
  (Hnc : np -> forall i, crash i = false) (O : nat -> nat -> answers B K V N) (cfg : config) (lo : nat).
Notation xnode := (xnode B K V).
Notation xcontainer := (xcontainer B K V).
Notation wspec := (wspec gv np).
Notation cspec := (cspec gv False).
Notation dspec := (dspec gv).
Notation cap := (max_children cfg).
Notation xthings := (xthings bdrop).
Notation xthings_c := (xthings_c bdrop).
Notation bnd_things := (bnd_things bdrop).
Notation ywf := (ywf np cfg lo).
Notation ychild := (ychild np cfg lo).
Notation yroot := (yroot np cfg lo).
Notation cloned := (cloned O).
Ltac ask := apply (wspec_ask crash gv np Hnc).

Lemma cloned_le a b a' b' kv kv' : a' <= a -> b <= b' -> cloned a b kv kv' -> cloned a' b' kv kv'.
Proof. intros H1 H2 [(n & H3 & H4) (m & H5 & H6)]. split; [exists n|exists m]; (split; [lia|assumption]). Qed.

Lemma wclone_kv_spec c (kv : K * V) :
  wspec c (wclone_kv crash O kv) [] xkv_things (fun c' => cloned c c' kv) nothing (fun _ => any).
Proof using Hnc.
  unfold wclone_kv. ask; [|intros _; apply cspec_ret; [apply keep_refl|exact Logic.I]].
  eapply wspec_dbind with (H1 := []) (F := []); [reflexivity|apply (dspec_make gv (XKey (w_clone_k (O c 0) (fst kv)))); reflexivity|].
  intros u _. ask.
  - eapply wspec_dbind with (H1 := []); [cbn [app]; reflexivity|apply (dspec_make gv (XVal (w_clone_v (O (S c) 0) (snd kv)))); reflexivity|].
    intros v _. apply wspec_ret; [|unfold xkv_things; cbn [fst snd]; perm]. split; [exists c|exists (S c)]; (split; [lia|reflexivity]).
  - intros _. apply dspec_cspec. cbn [app]. apply dspec_destroy.
Qed.

Lemma wclone_vec_spec c id (vec new : list (K * V)) : length new + length vec <= cap ->
  wspec c (wclone_vec crash O cfg id vec new) (XBuf id :: flat_map xkv_things new)
    (fun l => XBuf id :: flat_map xkv_things l) (fun c' l => exists l', l = new ++ l' /\ Forall2 (cloned c c') vec l') nothing (fun _ => any).
Proof using Hnc.
  revert c new; induction vec as [|x vec IH]; intros c new Hl; cbn [wclone_vec].
  - apply wspec_ret; [exists []; split; [now rewrite app_nil_r|constructor]|reflexivity].
  - cbn [length] in Hl.
    assert (Hdv : forall H, Permutation H (XBuf id :: flat_map xkv_things new) -> cspec (drop_vec drop_kv id new) H nothing any).
    { intros H Hp. eapply cspec_perm; [exact Hp|]. apply dspec_cspec, dspec_drop_vec, dspec_drop_kv. }
    eapply wspec_bind with (H1 := []); [cbn [app]; reflexivity|apply wclone_kv_spec| |].
    2:{ intros _ c' u _ _. now apply Hdv. }
    intros c1 y Hc1 Hy.
    apply wspec_push; [lia|].
    eapply wspec_perm; [|eapply wspec_mono; [| |apply (IH c1 (new ++ [y]))]].
    + rewrite flat_map_app. cbn [flat_map]. perm.
    + intros c3 l Hc3 (l' & -> & Hl'). exists (y :: l'). split; [now rewrite <- app_assoc|]. constructor.
      * eapply cloned_le; [| |exact Hy]; lia.
      * eapply Forall2_mono; [|exact Hl']. intros u v. apply cloned_le; lia.
    + intros _ c3 e _ He. exact He.
    + rewrite app_length. cbn. lia.
Qed.

Lemma wclone_node_spec level c (n : xnode) H : ywf level n -> part_of (xthings n) H ->
  wspec c (wclone_node crash bdrop O cfg level n) H (fun n' => xthings n' ++ H)
    (fun c' n' => ywf level n' /\ xlen n' = xlen n /\ Forall2 (cloned c c') (xentries n) (xentries n')) (fun _ => H) (fun _ => any).
Proof using Hnc.
  revert c n H; induction level as [|l IH]; intros c n H Hwf HH; cbn [wclone_node];
    (ask; [|intros _; apply cspec_ret; [apply keep_refl|exact Logic.I]]).
  - apply ywf_leaf in Hwf as (b & bid & id & es & -> & Hl).
    eapply wspec_dbind with (F := []); [rewrite app_nil_r; reflexivity|apply dspec_read_leaf|].
    { destruct HH as [r HH]. rewrite HH. cbn [CrashSpec.xthings]. rewrite <- app_assoc. apply in_or_app. right. now left. }
    intros es' ->. rewrite app_nil_r. destruct (Nat.ltb_spec cap (length es)); [lia|].
    eapply wspec_dbind with (H1 := []); [cbn [app]; reflexivity|apply dspec_new_buf|]. intros id2 _.
    eapply wspec_bind with (H1 := XBuf id2 :: flat_map xkv_things []) (F := H); [reflexivity|apply wclone_vec_spec; cbn; lia| |].
    + intros c' es' Hc' (l' & -> & Hl'). cbn [app]. assert (Hlen := Forall2_len _ _ _ Hl').
      eapply wspec_dbind with (H1 := []); [cbn [app]; reflexivity|apply dspec_new_bnd|].
      intros bid2 _. apply wspec_ret; [|cbn [CrashSpec.xthings]; perm]. split; [cbn; lia|]. split; [cbn; lia|].
      rewrite !xentries_leaf. eapply Forall2_mono; [|exact Hl']. intros u v. apply cloned_le; lia.
    + intros _ c' u _ _. apply cspec_ret; [apply keep_refl|exact Logic.I].
  - apply ywf_inner in Hwf as (b & bid & id & cs & -> & Hl & Hcs).
    eapply wspec_dbind with (F := []); [rewrite app_nil_r; reflexivity|apply dspec_read_inner|].
    { eapply part_trans; [|exact HH]. cbn [CrashSpec.xthings]. eapply part_perm_r; [apply Permutation_app_comm|]. apply part_app_r, part_refl. }
    intros cs' ->. rewrite app_nil_r.
    assert (Hpc : part_of (flat_map xthings cs) H).
    { eapply part_trans; [|exact HH]. cbn [CrashSpec.xthings]. eapply part_perm_r with (l2' := flat_map xthings cs ++ bnd_things bid ++ [XBuf id]); [perm|].
      apply part_app_r, part_refl. }
    eapply wspec_dbind with (H1 := []); [cbn [app]; reflexivity|apply dspec_new_buf|]. intros id2 _.
    eapply wspec_bind with (F := []) (th := fun cs' => XBuf id2 :: flat_map xthings cs' ++ H) (te := fun _ => H) (QE := fun _ => any)
      (QA := fun c' cs' => length cs' = length cs /\ Forall (ychild l) cs' /\ Forall2 (cloned c c') (flat_map xentries cs) (flat_map xentries cs'));
      [rewrite app_nil_r; reflexivity| | |].
    { assert (G : forall c1 (new : list xnode), c <= c1 -> length new + length cs <= cap -> Forall (ychild l) new ->
        wspec c1 ((fix loop (cs new : list xnode) : X K V (list xnode) unit :=
                 match cs with
                 | [] => dret (inl new)
                 | x :: r =>
                   try! x := wclone_node crash bdrop O cfg l x catch _ => drop_vec (drop_bare bdrop) id2 new in
                   try! new' := xtry_push cap new x catch x => (let$ _ := drop_bare bdrop x in drop_vec (drop_bare bdrop) id2 new) in
                   loop r new'
                 end) cs new)
          (XBuf id2 :: flat_map xthings new ++ H) (fun cs' => XBuf id2 :: flat_map xthings cs' ++ H)
          (fun c' cs' => length cs' = length new + length cs /\ Forall (ychild l) cs' /\
             exists e', flat_map xentries cs' = flat_map xentries new ++ e' /\ Forall2 (cloned c c') (flat_map xentries cs) e') (fun _ => H) (fun _ => any)).
      { clear HH Hl. induction cs as [|x r IHr]; intros c1 new Hc1 Hl Hnew.
        - apply wspec_ret; [|reflexivity]. cbn [length flat_map]. split; [lia|]. split; [exact Hnew|]. exists []. split; [now rewrite app_nil_r|constructor].
        - cbn [length] in Hl. inversion Hcs as [|? ? [Hc Hcl] Hr]; subst.
          assert (Hpc1 : part_of (xthings x) H) by (eapply part_cut; exact Hpc).
          assert (Hpc2 : part_of (flat_map xthings r) H).
          { eapply part_cut. eapply part_perm_l; [apply Permutation_app_comm|exact Hpc]. }
          assert (Hdv : forall H', Permutation H' (XBuf id2 :: flat_map xthings new ++ H) -> cspec (drop_vec (drop_bare bdrop) id2 new) H' (fun _ => H) any).
          { intros H' Hp s L Ho. destruct (cspec_drop_vec gv False (drop_bare bdrop) xthings id2 new (fun c => cspec_drop_bare bdrop gv False c (fun f => f)) s (H ++ L)) as (u & s' & E & Ec & HQ & lost & Ho' & Hl0).
            { eapply xown_perm; [|exact Ho]. rewrite Hp. perm. }
            exists u, s'. splits; auto. exists lost. split; [|exact Hl0]. eapply xown_perm; [|exact Ho']. unfold nothing. perm. }
          eapply wspec_bind with (F := XBuf id2 :: flat_map xthings new); [|exact (IH c1 x H Hc Hpc1)| |].
          { perm. }
          2:{ intros _ c2 u _ _. apply Hdv. perm. }
          intros c2 x' Hc2 (Hx' & Hxl & Hec). apply wspec_push; [lia|].
          eapply wspec_perm; [|eapply wspec_mono; [| |apply (IHr Hr Hpc2 c2 (new ++ [x']))]].
          + rewrite flat_map_app. cbn [flat_map]. perm.
          + intros c3 cs' Hc3 (H1 & H2 & e' & H3 & H4). rewrite app_length in H1. cbn [length] in *. splits; auto; [lia|].
            exists (xentries x' ++ e'). split.
            * rewrite H3, flat_map_app. cbn [flat_map]. rewrite app_nil_r. now rewrite <- app_assoc.
            * cbn [flat_map]. apply Forall2_app; [|exact H4]. eapply Forall2_mono; [|exact Hec]. intros u v. apply cloned_le; lia.
          + intros _ c3 e _ He. exact He.
          + lia.
          + rewrite app_length. cbn. lia.
          + apply Forall_app. split; [exact Hnew|]. constructor; [|constructor]. split; [exact Hx'|]. intros Hnp. rewrite Hxl. now apply Hcl. }
      eapply wspec_mono; [| |exact (G (S c) [] ltac:(lia) Hl ltac:(constructor))].
      - intros c' cs' Hc' (H1 & H2 & e' & H3 & H4). cbn [length flat_map app] in *. splits; auto. now rewrite H3.
      - intros _ c' e _ He. exact He. }
    + intros c' cs' Hc' (H1 & H2 & H3). rewrite app_nil_r. eapply wspec_dbind with (H1 := []); [cbn [app]; reflexivity|apply dspec_new_bnd|].
      intros bid2 _. apply wspec_ret; [|cbn [CrashSpec.xthings]; perm]. split; [split; [cbn; lia|exact H2]|]. split; [exact H1|]. now rewrite !xentries_inner.
    + intros _ c' u _ _. rewrite app_nil_r. apply cspec_ret; [apply keep_refl|exact Logic.I].
Qed.

Lemma wtree_clone_spec c (t : xcontainer) H : yroot t -> part_of (xthings_c t) H ->
  wspec c (wtree_clone crash bdrop O cfg t) H (fun t' => xthings_c t' ++ H)
    (fun c' t' => yroot t' /\ Forall2 (cloned c c') (centries t) (centries t')) (fun _ => H) (fun _ => any).
Proof using Hnc.
  intros [Hwf Hr] HH. unfold wtree_clone.
  eapply wspec_bind with (F := []); [rewrite app_nil_r; reflexivity|apply (wclone_node_spec (fst t) c (snd t) H Hwf HH)| |].
  - intros c' n' _ (H1 & H2 & H3). apply wspec_ret; [|unfold CrashSpec.xthings_c; cbn [snd]; perm]. split; [split; [exact H1|]|exact H3].
    cbn [fst snd]. rewrite H2. exact Hr.
  - intros _ c' u _ _. apply cspec_ret; [rewrite app_nil_r; apply keep_refl|exact Logic.I].
Qed.

Lemma wnew_leaf_spec c :
  wspec c (wnew_leaf crash bdrop O) [] xthings_c (fun _ t => yroot t /\ centries t = []) nothing (fun _ => any).
Proof using Hnc.
  unfold wnew_leaf. ask; [|intros _; apply cspec_ret; [apply keep_refl|exact Logic.I]].
  eapply wspec_dbind with (H1 := []) (F := []); [reflexivity|apply dspec_new_buf|]. intros id _.
  eapply wspec_dbind with (H1 := []); [cbn [app]; reflexivity|apply dspec_new_bnd|]. intros bid _.
  apply wspec_ret; [split; [split; [cbn; lia|cbn; congruence]|reflexivity]|]. unfold CrashSpec.xthings_c. cbn [snd CrashSpec.xthings flat_map]. perm.
Qed.
End WClones.

Section WForestProof.
Context {B K V N : Type} (crash : nat -> bool) (bdrop : bool) (gv : list (xthing K V)) (np : Prop)
  (Hnc : np -> forall i, crash i = false) (O : nat -> nat -> answers B K V N) (U : numops N).
Notation xforest := (xforest B K V).
Notation xcontainer := (xcontainer B K V).
Notation wop := (wop B K V).
Notation wspec := (wspec gv np).
Notation cspec := (cspec gv False).
Notation dspec := (dspec gv).
Notation xthings_c := (xthings_c bdrop).
Notation xforest_things := (xforest_things bdrop).

Definition ylot (o : option (config * xcontainer)) : Prop :=
  match o with
  | Some (cfg, t) => yroot np cfg (guaranteed_fill cfg) t /\ (bdrop = false \/ max_children cfg <> 1) /\ (np -> modest cfg)
  | None => True
  end.
Definition yforest (F : xforest) : Prop := Forall ylot F.

Lemma yforest_at (F : xforest) i c t : yforest F -> xtree_at F i = Some (c, t) ->
  yroot np c (guaranteed_fill c) t /\ (bdrop = false \/ max_children c <> 1) /\ (np -> modest c).
Proof.
  intros HF. unfold xtree_at. destruct (nth_error F i) as [[ct|]|] eqn:E; intros [= ->].
  apply nth_error_In in E. unfold yforest in HF. rewrite Forall_forall in HF. exact (HF _ E).
Qed.

Lemma same_at (F : xforest) i cfg t : xtree_at F i = Some (cfg, t) -> set_nth i (Some (cfg, t)) F = F.
Proof.
  unfold xtree_at. intros Et. destruct (nth_error F i) as [[ct|]|] eqn:E; [|discriminate|discriminate].
  injection Et as ->. clear - E. revert i E; induction F as [|x F IH]; intros [|i] E; cbn in *; try discriminate.
  - now injection E as ->.
  - now rewrite IH.
Qed.

Lemma modest_conds cfg : (np -> modest cfg) ->
  (np -> 2 <= max_children cfg) /\
  (np -> guaranteed_fill cfg <= 1 \/ guaranteed_fill cfg <= Nat.min (min_children cfg) (max_children cfg - min_children cfg)) /\
  (np -> guaranteed_fill cfg <= min_children cfg) /\
  (np -> min_children cfg = 0 \/ 2 <= guaranteed_fill cfg).
Proof. unfold modest, guaranteed_fill. intros H. splits; intros Hnp; specialize (H Hnp); lia. Qed.

Lemma wstep_spec c (F : xforest) (o : wop) : yforest F -> wunwind_ok bdrop o -> (np -> modest_op o) ->
  wspec c (wstep crash bdrop O U F o)
    (xforest_things F ++ wgiven o) (fun r => fst r ++ xforest_things (snd r))
    (fun c' r => yforest (snd r) /\ wdone_as O c c' o (fst r) (xforget_forest F) (xforget_forest (snd r)))
    xforest_things (fun c' F' => yforest F' /\ wleft_behind O c c' o (xforget_forest F) (xforget_forest F')).
Proof using Hnc.
  intros HF Hu Hm. destruct o as [cfg|i k v|i k v|i Q OQ q|i Q OQ q v|i|i]; cbn [wstep wdone_as wleft_behind wunwind_ok modest_op wgiven] in *;
    rewrite ?xtree_at_forget in *.
  - eapply wspec_bind with (H1 := []) (F := xforest_things F); [now rewrite app_nil_r|apply wnew_leaf_spec with (cfg := cfg) (lo := guaranteed_fill cfg); exact Hnc| |].
    + intros c' t Hc' [H1 H2]. apply wspec_ret.
      * cbn [fst snd]. split; [apply Forall_app; split; [exact HF|]; constructor; [split; [exact H1|now split]|constructor]|].
        split; [reflexivity|]. exists (xforget_c t). now rewrite xforget_app.
      * cbn [fst snd app]. unfold CrashSpec.xforest_things at 2. rewrite flat_map_app. fold (xforest_things F). cbn [flat_map]. perm.
    + intros _ c' u _ _. apply cspec_ret; [apply keep_refl|now split].
  - destruct (xtree_at F i) as [[cfg t]|] eqn:Et.
    2:{ apply wspec_ret; [|cbn [fst snd]; perm]. cbn [fst snd]. split; [exact HF|]. now apply changed_none. }
    destruct (yforest_at F i cfg t HF Et) as (Hw & Hc & Hmo). destruct (xforest_at bdrop F i cfg t Et) as (rest & Hp & Hp' & _).
    destruct (modest_conds cfg Hmo) as (M1 & M2 & M3 & M4).
    eapply wspec_bind with (F := rest); [|apply (winsert_entry_spec crash bdrop gv np Hnc O U cfg (guaranteed_fill cfg) M1 M2 Hc c t (XELeaf (k, v)) Hw Logic.I)| |].
    + rewrite Hp. cbn [CrashTree.xthings_e]. rewrite xkv_eq. perm.
    + intros _. cbn. lia.
    + intros c' t' Hc' (H1 & H2 & _). apply wspec_ret.
      * cbn [fst snd]. split; [apply Forall_set; [exact HF|now split]|]. apply (changed_at i _ _ F cfg t t' Et). now split.
      * cbn [fst snd app]. rewrite Hp'. reflexivity.
    + intros _ c' t' _ (H1 & H2). apply cspec_ret; [apply keep_perm; rewrite Hp'; reflexivity|].
      split; [apply Forall_set; [exact HF|now split]|]. now apply (changed_at i _ _ F cfg t t' Et).
  - destruct (xtree_at F i) as [[cfg t]|] eqn:Et.
    2:{ apply wspec_ret; [|cbn [fst snd]; perm]. cbn [fst snd]. split; [exact HF|]. now apply changed_none. }
    destruct (yforest_at F i cfg t HF Et) as (Hw & Hc & Hmo). destruct (xforest_at bdrop F i cfg t Et) as (rest & Hp & Hp' & _).
    destruct (modest_conds cfg Hmo) as (M1 & M2 & M3 & M4).
    eapply wspec_bind with (F := rest); [|apply (wcontainer_insert_unique_spec crash bdrop gv np Hnc O U cfg (guaranteed_fill cfg) M1 M2 Hc c t k v Hw)| |].
    + rewrite Hp. rewrite xkv_eq. perm.
    + intros c' [old t'] Hc' (H1 & H2). cbn [fst snd] in *. apply wspec_ret.
      * cbn [fst snd]. split; [apply Forall_set; [exact HF|now split]|]. apply (changed_at i _ _ F cfg t t' Et).
        destruct old as [old|]; cbn [urel xthe] in *; [right|left; now split].
        destruct H2 as (k0 & r & E & H3 & H4). exists old. split; [reflexivity|]. now exists k0, r.
      * cbn [fst snd]. rewrite Hp'. perm.
    + intros _ c' t' _ (H1 & H2). apply cspec_ret; [apply keep_perm; rewrite Hp'; reflexivity|].
      split; [apply Forall_set; [exact HF|now split]|]. apply (changed_at i _ _ F cfg t t' Et).
      destruct H2 as [H2|(k0 & old & r & E & H3 & H4)]; [now left|right]. exists old, ((k0, v) :: r). split; [|exact H4]. now exists k0, r.
  - destruct (xtree_at F i) as [[cfg t]|] eqn:Et.
    2:{ apply wspec_ret; [|cbn [fst snd]; perm]. cbn [fst snd]. split; [exact HF|]. now apply changed_none. }
    destruct (yforest_at F i cfg t HF Et) as (Hw & Hc & Hmo). destruct (xforest_at bdrop F i cfg t Et) as (rest & Hp & Hp' & _).
    destruct (modest_conds cfg Hmo) as (M1 & M2 & M3 & M4).
    eapply wspec_bind with (F := rest); [|apply (wcontainer_remove_spec crash bdrop gv np Hnc O U cfg (guaranteed_fill cfg) M1 M2 M3 M4 Hc c OQ t q Hw)| |].
    + rewrite Hp. perm.
    + intros c' [old t'] Hc' (H1 & H2 & H3). cbn [fst snd] in *. apply wspec_ret.
      * cbn [fst snd]. split; [apply Forall_set; [exact HF|now split]|]. apply (changed_at i _ _ F cfg t t' Et).
        destruct old as [old|]; cbn [rrel xthe] in *; [right|left; split; [reflexivity|now rewrite (H3 eq_refl)]].
        destruct H2 as (k0 & E & H4). now exists k0, old.
      * cbn [fst snd]. rewrite Hp'. perm.
    + intros _ c' t' _ [H1 H2]. apply cspec_ret; [apply keep_perm; rewrite Hp'; reflexivity|].
      split; [apply Forall_set; [exact HF|now split]|]. now apply (changed_at i _ _ F cfg t t' Et).
  - destruct (xtree_at F i) as [[cfg t]|] eqn:Et.
    2:{ apply wspec_ret; [|cbn [fst snd]; perm]. cbn [fst snd]. split; [exact HF|]. now apply changed_none. }
    destruct (yforest_at F i cfg t HF Et) as (Hw & Hc & Hmo). destruct (xforest_at bdrop F i cfg t Et) as (rest & Hp & Hp' & _).
    assert (Hpt : part_of (xthings bdrop (snd t)) (xforest_things F)) by (exists rest; rewrite Hp; reflexivity).
    eapply wspec_bind with (F := [XVal v]); [reflexivity|exact (wnode_get_mut_spec crash bdrop gv np Hnc O cfg (guaranteed_fill cfg) OQ (fst t) c (snd t) q (xforest_things F) (proj1 Hw) Hpt)| |].
    + intros c' [[old put]|] Hc' Hl.
      * destruct Hl as (k0 & r & T & H1 & H2 & H3 & H4). destruct (H4 v) as ((H5 & H8) & H6 & H7). apply wspec_ret.
        -- cbn [fst snd]. split; [apply Forall_set; [exact HF|]|].
           { split; [|now split]. split; [exact H5|]. cbn [fst snd]. rewrite H8. exact (proj2 Hw). }
           apply (changed_at i _ _ F cfg t _ Et). right. exists old. split; [reflexivity|]. exists k0, r. now splits.
        -- cbn [fst snd]. rewrite Hp', Hp. unfold CrashSpec.xthings_c. cbn [snd]. rewrite H7, H3. perm.
      * apply wspec_ret; [|cbn [fst snd]; perm]. cbn [fst snd]. split; [exact HF|].
        rewrite <- (same_at F i cfg t Et) at 2. apply (changed_at i _ _ F cfg t t Et). now left.
    + intros _ c' u _ _. eapply cspec_then with (H1 := [XVal v]) (F := xforest_things F); [perm|apply dspec_destroy|apply keep_refl|now split].
  - destruct (xtree_at F i) as [[cfg t]|] eqn:Et; cbn [option_map fst snd].
    2:{ apply wspec_ret; [|cbn [fst snd]; perm]. cbn [fst snd]. now splits. }
    destruct (yforest_at F i cfg t HF Et) as (Hw & Hc & Hmo). destruct (xforest_at bdrop F i cfg t Et) as (rest & Hp & Hp' & _).
    assert (Hpt : part_of (xthings_c t) (xforest_things F)) by (exists rest; rewrite Hp; reflexivity).
    eapply wspec_bind with (F := []); [reflexivity|apply (wtree_clone_spec crash bdrop gv np Hnc O cfg (guaranteed_fill cfg) c t (xforest_things F) Hw Hpt)| |].
    + intros c' t' Hc' [H1 H2]. apply wspec_ret.
      * cbn [fst snd]. split; [apply Forall_app; split; [exact HF|]; constructor; [now split|constructor]|].
        split; [reflexivity|]. exists (xforget_c t'). now rewrite xforget_app.
      * cbn [fst snd app]. unfold CrashSpec.xforest_things at 2. rewrite flat_map_app. fold (xforest_things F). cbn [flat_map]. perm.
    + intros _ c' u _ _. rewrite app_nil_r. apply cspec_ret; [apply keep_refl|now split].
  - destruct (xtree_at F i) as [[cfg t]|] eqn:Et; cbn [option_map fst snd].
    2:{ apply wspec_ret; [|cbn [fst snd]; perm]. cbn [fst snd]. now splits. }
    destruct (yforest_at F i cfg t HF Et) as (Hw & Hc & Hmo). destruct (xforest_at bdrop F i cfg t Et) as (rest & Hp & _ & Hp').
    eapply wspec_dbind with (H1 := xthings_c t) (F := rest); [rewrite Hp; perm|apply (dspec_drop_container bdrop gv cfg t)|].
    { exact (ywf_xwf _ _ _ _ _ (proj1 Hw)). }
    intros u _. apply wspec_ret.
    + cbn [fst snd]. split; [now apply Forall_set|]. split; [reflexivity|]. now rewrite xforget_unset.
    + cbn [fst snd app]. now rewrite Hp'.
Qed.

Lemma wrun_spec (os : list wop) (F : xforest) s L : yforest F -> Forall (wunwind_ok bdrop) os -> (np -> Forall modest_op os) ->
  xown gv s (xforest_things F ++ flat_map wgiven os ++ L) ->
  exists outs F' s' lost, wrun crash bdrop O U F os s = Some ((outs, F'), s') /\ yforest F' /\ length outs = length os /\
    x_calls s <= x_calls s' /\
    xown gv s' (got_back outs ++ xforest_things F' ++ lost ++ L) /\ (Forall (fun o => o <> None) outs -> lost = []) /\
    (np -> Forall (fun o => o <> None) outs).
Proof using Hnc.
  revert F s L; induction os as [|o os IH]; intros F s L HF Hu Hm Ho; cbn [wrun flat_map].
  - exists [], F, s, []. splits; auto.
  - inversion Hu as [|? ? Hu1 Hu2]; subst. cbn [flat_map] in Ho.
    assert (Hm1 : np -> modest_op o) by (intros Hnp; specialize (Hm Hnp); now inversion Hm).
    assert (Hm2 : np -> Forall modest_op os) by (intros Hnp; specialize (Hm Hnp); now inversion Hm).
    destruct (wstep_spec (x_calls s) F o HF Hu1 Hm1 s (flat_map wgiven os ++ L) eq_refl) as (r & s1 & E & Ec & HR).
    { eapply xown_perm; [|exact Ho]. perm. }
    unfold dbind. rewrite E. destruct r as [[x F1]|F1].
    + destruct HR as ([HF1 _] & Ho1). cbn [fst snd] in *.
      destruct (IH F1 s1 (x ++ L) HF1 Hu2 Hm2) as (outs & F' & s' & lost & E' & HF' & Hl & Ec' & Ho' & Hlost & Hall).
      { eapply xown_perm; [|exact Ho1]. perm. }
      unfold dbind. rewrite E'. exists (Some x :: outs), F', s', lost. splits; auto; [cbn; lia|lia| | |].
      * eapply xown_perm; [|exact Ho']. rewrite got_back_cons. perm.
      * inversion 1; auto.
      * intros Hnp. constructor; [discriminate|auto].
    + destruct HR as (Hn & [HF1 _] & leak & Ho1).
      destruct (IH F1 s1 (leak ++ L) HF1 Hu2 Hm2) as (outs & F' & s' & lost & E' & HF' & Hl & Ec' & Ho' & Hlost & Hall).
      { eapply xown_perm; [|exact Ho1]. perm. }
      unfold dbind. rewrite E'. exists (None :: outs), F', s', (lost ++ leak). splits; [reflexivity|exact HF'|cbn; lia|lia| | |].
      * eapply xown_perm; [|exact Ho']. rewrite got_back_cons. cbn [app]. perm.
      * inversion 1; congruence.
      * tauto.
Qed.
End WForestProof.

Lemma wgiven_not_obj {B K V} (os : list (wop B K V)) : Forall (fun x => is_obj x = false) (flat_map wgiven os).
Proof.
  induction os as [|o os IH]; cbn [flat_map]; [constructor|]. apply Forall_app. split; [|exact IH].
  destruct o; repeat constructor.
Qed.

Lemma wrun_init {B K V N} crash bdrop (np : Prop) (O : nat -> nat -> answers B K V N) U (os os' : list (wop B K V)) :
  (np -> forall i, crash i = false) -> Forall (wunwind_ok bdrop) os -> (np -> Forall modest_op os) ->
  exists outs F s lost, wrun crash bdrop O U [] os xinit = Some ((outs, F), s) /\ yforest bdrop np F /\ length outs = length os /\
    xown (flat_map wgiven (os ++ os')) s (got_back outs ++ xforest_things bdrop F ++ lost ++ flat_map wgiven os') /\
    (Forall (fun o => o <> None) outs -> lost = []) /\ (np -> Forall (fun o => o <> None) outs).
Proof.
  intros Hnc Hu Hm. destruct (wrun_spec crash bdrop (flat_map wgiven (os ++ os')) np Hnc O U os [] xinit (flat_map wgiven os') ltac:(constructor) Hu Hm)
    as (outs & F & s & lost & E & HF & Hl & _ & Ho & Hn & Ha).
  - eapply xown_perm; [|apply xown_init, wgiven_not_obj]. rewrite flat_map_app. reflexivity.
  - now exists outs, F, s, lost.
Qed.

Lemma yforest_fwf {B K V} bdrop np (F : xforest B K V) : yforest bdrop np F -> fwf bdrop F.
Proof.
  intros HF. eapply Forall_impl; [|exact HF]. intros [[cfg t]|]; [|auto]. intros (H1 & H2 & _). split; [|exact H2].
  exact (ywf_xwf _ _ _ _ _ (proj1 H1)).
Qed.

(** The nodes of a well formed tree. *)
Lemma ywf_fill {B K V} (np : Prop) cfg lo level (n : xnode B K V) i m : np -> ywf np cfg lo level n -> node_at (level, xforget n) i m ->
  i <= level /\ exists x, m = xforget x /\ ywf np cfg lo i x /\ ((i = level /\ x = n) \/ (i < level /\ lo_at lo i <= xlen x)).
Proof.
  intros Hnp Hw H. remember (level, xforget n) as t eqn:Et. induction H as [|i b cs c H IH Hin]; subst.
  - cbn [fst snd]. split; [lia|]. exists n. splits; auto.
  - destruct IH as (Hi & x & Ex & Hx & _). apply ywf_inner in Hx as (b' & bid & id & ys & -> & Hl & Hys).
    cbn [xforget] in Ex. injection Ex as -> ->. apply in_map_iff in Hin as (y & <- & Hy). rewrite Forall_forall in Hys.
    destruct (Hys y Hy) as [H1 H2]. split; [lia|]. exists y. split; [reflexivity|]. split; [exact H1|]. right. split; [lia|now apply H2].
Qed.
Lemma ywf_xlen {B K V} np cfg lo level (n : xnode B K V) : ywf np cfg lo level n -> xlen n <= max_children cfg.
Proof. destruct n as [b bid id [cs|es]], level; cbn; tauto. Qed.

Lemma yforest_filled {B K V} bdrop (np : Prop) (F : xforest B K V) i cfg t : np -> yforest bdrop np F ->
  ptree_at (xforget_forest F) i = Some (cfg, t) -> well_filled cfg t.
Proof.
  intros Hnp HF. rewrite xtree_at_forget. destruct (xtree_at F i) as [[c t']|] eqn:E; cbn [option_map]; [|discriminate].
  intros [= <- <-] j m Hm. destruct (yforest_at bdrop np F i c t' HF E) as ([Hw Hr] & _ & _).
  destruct (ywf_fill np c _ (fst t') (snd t') j m Hnp Hw Hm) as (Hj & x & -> & Hx & Hcase). rewrite fanout_xlen. cbn [fst xforget_c].
  split; [eapply ywf_xlen; exact Hx|]. split.
  - intros Hlt. destruct Hcase as [[-> _]|[_ Hlo]]; [lia|]. unfold lo_at in Hlo. destruct j; lia.
  - intros -> Hne. destruct Hcase as [[_ ->]|[Hlt _]]; [now apply Hr|lia].
Qed.
