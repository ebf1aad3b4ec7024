(** User code that answers as it likes: [insert_unique] and removal below the root. *)
From Verif Require Export WildTree.
Set Default Proof Using "Type".

(** The entries after [insert_unique] of [(k, v)] returned [old]; [m] holds for a key taken to equal [k]. *)
Section URel.
Context {K V : Type}.
Definition urel (m : K -> Prop) (old : option V) (es : list (K * V)) (k : K) (v : V) (es' : list (K * V)) : Prop :=
  match old with
  | None => Permutation es' (es ++ [(k, v)])
  | Some o => exists k0 r, m k0 /\ Permutation es ((k0, o) :: r) /\ Permutation es' ((k0, v) :: r)
  end.
(** The entries after it unwound. *)
Definition uleft (m : K -> Prop) (es : list (K * V)) (k : K) (v : V) (es' : list (K * V)) : Prop :=
  part_of es' (es ++ [(k, v)]) \/ exists k0 o r, m k0 /\ Permutation es ((k0, o) :: r) /\ part_of es' ((k0, v) :: r).
(** The entries after a removal returned [old]. *)
Definition rrel (m : K -> Prop) (old : option V) (es es' : list (K * V)) : Prop :=
  match old with
  | None => Permutation es' es
  | Some o => exists k0, m k0 /\ Permutation es ((k0, o) :: es')
  end.

Lemma uleft_same m es k v : uleft m es k v es.
Proof. left. apply part_app_r, part_refl. Qed.
Lemma urel_left m old es k v es1 es' : urel m old es k v es1 -> part_of es' es1 -> uleft m es k v es'.
Proof.
  destruct old as [o|]; cbn.
  - intros (k0 & r & H1 & H2 & H3) Hp. right. exists k0, o, r. splits; auto. eapply part_perm_r; [symmetry; exact H3|exact Hp].
  - intros H Hp. left. eapply part_perm_r; [symmetry; exact H|exact Hp].
Qed.
Lemma urel_perm m old es k v es1 es2 : Permutation es1 es2 -> urel m old es k v es1 -> urel m old es k v es2.
Proof.
  intros Hp. destruct old as [o|]; cbn.
  - intros (k0 & r & H1 & H2 & H3). exists k0, r. splits; auto. now rewrite <- Hp.
  - intros H. now rewrite <- Hp.
Qed.
Lemma urel_frame m old es k v es1 l1 l2 : urel m old es k v es1 -> urel m old (l1 ++ es ++ l2) k v (l1 ++ es1 ++ l2).
Proof.
  destruct old as [o|]; cbn.
  - intros (k0 & r & H1 & H2 & H3). exists k0, (l1 ++ r ++ l2). splits; auto; [rewrite H2; perm|rewrite H3; perm].
  - intros H. rewrite H. perm.
Qed.
Lemma uleft_frame m es k v es1 l1 l2 : uleft m es k v es1 -> uleft m (l1 ++ es ++ l2) k v (l1 ++ es1 ++ l2).
Proof.
  intros [H|(k0 & o & r & H1 & H2 & H3)].
  - left. eapply part_perm_r with (l2' := l1 ++ (es ++ [(k, v)]) ++ l2); [perm|]. now apply part_middle.
  - right. exists k0, o, (l1 ++ r ++ l2). splits; auto; [rewrite H2; perm|].
    eapply part_perm_r with (l2' := l1 ++ ((k0, v) :: r) ++ l2); [perm|]. now apply part_middle.
Qed.
Lemma urel_mono (m m' : K -> Prop) old es k v es' : (forall x, m x -> m' x) -> urel m old es k v es' -> urel m' old es k v es'.
Proof. intros Hm. destruct old as [o|]; cbn; [|auto]. intros (k0 & r & H1 & H2 & H3). exists k0, r. splits; auto. Qed.
Lemma uleft_mono (m m' : K -> Prop) es k v es' : (forall x, m x -> m' x) -> uleft m es k v es' -> uleft m' es k v es'.
Proof. intros Hm [H|(k0 & o & r & H1 & H2 & H3)]; [now left|]. right. exists k0, o, r. splits; auto. Qed.

Lemma rrel_part m old es es' : rrel m old es es' -> part_of es' es.
Proof.
  destruct old as [o|]; cbn.
  - intros (k0 & _ & H). eapply part_perm_r; [exact H|]. eapply part_perm_r; [apply (Permutation_app_comm [(k0, o)] es')|].
    apply part_app_r, part_refl.
  - intros H. now apply part_perm.
Qed.
Lemma rrel_frame m old es es' l1 l2 : rrel m old es es' -> rrel m old (l1 ++ es ++ l2) (l1 ++ es' ++ l2).
Proof.
  destruct old as [o|]; cbn.
  - intros (k0 & H1 & H2). exists k0. split; [exact H1|]. rewrite H2. perm.
  - intros H. now rewrite H.
Qed.
Lemma rrel_perm m old es es1 es2 : Permutation es1 es2 -> rrel m old es es1 -> rrel m old es es2.
Proof.
  intros Hp. destruct old as [o|]; cbn.
  - intros (k0 & H1 & H2). exists k0. split; [exact H1|]. now rewrite <- Hp.
  - intros H. now rewrite <- Hp.
Qed.
Lemma rrel_mono (m m' : K -> Prop) old es es' : (forall x, m x -> m' x) -> rrel m old es es' -> rrel m' old es es'.
Proof. intros Hm. destruct old as [o|]; cbn; [|auto]. intros (k0 & H1 & H2). exists k0. split; auto. Qed.
End URel.

Section WUnique.
Context {B K V N : Type} (crash : nat -> bool) (bdrop : bool) (gv : list (xthing K V)) (np : Prop)
  (Hnc : np -> forall i, crash i = false) (O : nat -> nat -> answers B K V N) (U : numops N) (cfg : config).
Notation xnode := (xnode B K V).
Notation xcontainer := (xcontainer B K V).
Notation xentry := (xentry B K V).
Notation xcc := (xcc B K V).
Notation wspec := (wspec gv np).
Notation cspec := (cspec gv False).
Notation dspec := (dspec gv).
Notation cap := (max_children cfg).
Notation minc := (min_children cfg).
Notation xthings := (xthings bdrop).
Notation xthings_c := (xthings_c bdrop).
Notation xthings_e := (xthings_e bdrop).
Notation xthings_o := (xthings_o bdrop).
Notation xthings_cc := (xthings_cc bdrop).
Notation bnd_things := (bnd_things bdrop).
Notation xwf := (xwf cfg).
Context (lo : nat) (Hcap : np -> 2 <= cap) (Hlo : np -> lo <= 1 \/ lo <= Nat.min minc (cap - minc)).
Notation ywf := (ywf np cfg lo).
Notation ychild := (ychild np cfg lo).
Notation yo := (yo np cfg lo).
Ltac ask := apply (wspec_ask crash gv np Hnc).

Notation xuni := (option V * xnode * option xcontainer)%type.
Definition wthings_uni (r : xuni) : list (xthing K V) := xthe (fst (fst r)) ++ xthings (snd (fst r)) ++ xthings_o (snd r).
Definition wuni_ok (level c : nat) (n : xnode) (k : K) (v : V) (c' : nat) (r : xuni) : Prop :=
  ywf level (snd (fst r)) /\ yo level (snd r) /\
  urel (fun k0 => matched (wself O) c c' k0 k) (fst (fst r)) (xentries n) k v (xentries (snd (fst r)) ++ xentries_o (snd r)) /\
  match snd r with None => xlen n <= xlen (snd (fst r)) | Some _ => np -> lo_at lo level <= xlen (snd (fst r)) end.
Definition wuni_left (level c : nat) (es : list (K * V)) (k : K) (v : V) (c' : nat) (n : xnode) : Prop :=
  ywf level n /\ uleft (fun k0 => matched (wself O) c c' k0 k) es k v (xentries n).
Definition wuni level c (m : X K V xuni xnode) (n : xnode) (k : K) (v : V) c0 : Prop :=
  wspec c m (xthings n ++ xkv_things (k, v)) wthings_uni (wuni_ok level c0 n k v) xthings (wuni_left level c0 (xentries n) k v).

Lemma wplain_insert_spec level c c0 (n : xnode) k v : ywf level n -> (np -> level <> 0 -> 1 <= xlen n) ->
  wuni level c (try! (n, sibling) := wnode_insert crash bdrop O U cfg level n (XELeaf (k, v)) catch n => dret n in dret (inl (None, n, sibling))) n k v c0.
Proof using Hnc Hcap Hlo.
  intros Hwf Hne. unfold wuni. eapply wspec_bind with (F := []).
  - rewrite app_nil_r. reflexivity.
  - apply (wnode_insert_spec crash bdrop gv np Hnc O U cfg lo Hcap Hlo level c n (XELeaf (k, v)) Hwf); [exact Logic.I|cbn; lia|].
    intros Hnp Hn. apply (Hne Hnp). cbn in Hn. lia.
  - intros c' [n' sib] _ (H1 & H2 & H3 & H4). cbn [fst snd xentries_e] in *. rewrite app_nil_r. apply wspec_ret.
    + split; [exact H1|]. split; [exact H2|]. split; [exact H3|exact H4].
    + reflexivity.
  - intros _ c' n' _ (H1 & H2). apply cspec_ret; [rewrite app_nil_r; apply keep_refl|]. split; [exact H1|]. now left.
Qed.

(** Unwinding after the child was changed. *)
Lemma wdrop_opt_then old (n : xnode) H (R : xnode -> Prop) : Permutation H (xthe old ++ xthings n) -> R n ->
  cspec (let$ _ := drop_opt old in dret n) H xthings R.
Proof.
  intros Hp HQ. eapply cspec_then with (F := xthings n); [exact Hp|apply dspec_drop_opt|apply keep_refl|exact HQ].
Qed.

Lemma wnode_insert_unique_spec level c c0 (n : xnode) k v : c0 <= c -> ywf level n -> (np -> level <> 0 -> 1 <= xlen n) ->
  wuni level c (wnode_insert_unique crash bdrop O U cfg level n k v) n k v c0.
Proof using Hnc Hcap Hlo.
  revert c n; induction level as [|l IH]; intros c n Hc0 Hwf Hne; unfold wuni.
  all: assert (Hab : forall c' lv, ywf lv n -> cspec (let$ _ := drop_kv (k, v) in dret n) (xthings n ++ xkv_things (k, v)) xthings
      (wuni_left lv c0 (xentries n) k v c')) by
    (intros c' lv Hlv; eapply cspec_then with (F := xthings n); [|apply dspec_drop_kv|apply keep_refl|]; [perm|];
     split; [exact Hlv|apply uleft_same]).
  all: specialize (fun c' => Hab c' _ Hwf); cbn [wnode_insert_unique]; ask; [|intros _; apply Hab].
  - assert (Hwf' := Hwf). apply ywf_leaf in Hwf' as (b & bid & id & es & -> & Hl).
    eapply wspec_dbind with (F := []); [rewrite app_nil_r; reflexivity|apply dspec_read_leaf_all|].
    intros es' ->. rewrite app_nil_r. ask; [|intros _; apply Hab].
    assert (Hlens := wentries_lens_ok (wself O) (S c) 0 es k c0 (S (S c))). specialize (Hlens ltac:(lia)).
    destruct (wentries_get_mut (wself O) (S c) 0 es k) as [[old put]|].
    + destruct Hlens as (k0 & r & T & H1 & H2 & H3 & H4). destruct (H4 v) as (H5 & H6 & H7). cbn [with_ch].
      eapply wspec_dbind with (H1 := [XKey k]); [|apply dspec_destroy|].
      { rewrite xkv_eq. transitivity ([XKey k] ++ XVal v :: xthings (XNode b bid id (CLeaf es))); [perm|reflexivity]. }
      intros u _. cbn [nothing app]. apply wspec_ret.
      * split; [cbn; lia|]. split; [exact Logic.I|]. split; [|cbn; lia]. exists k0, r. rewrite xentries_leaf. cbn [fst snd xentries_o].
        rewrite app_nil_r. splits; auto.
      * unfold wthings_uni. cbn [fst snd xthe CrashTree.xthings_o CrashSpec.xthings]. rewrite H3, H7. perm.
    + exact (wplain_insert_spec 0 _ c0 (XNode b bid id (CLeaf es)) k v Hwf Hne).
  - assert (Hwf' := Hwf). apply ywf_inner in Hwf' as (b & bid & id & cs & -> & Hl & Hcs).
    eapply wspec_dbind with (F := []); [rewrite app_nil_r; reflexivity|apply dspec_read_inner_all|].
    intros cs' ->. rewrite app_nil_r. ask; [|intros _; apply Hab].
    destruct (filter _ (enumerate cs)) as [|[i child] [|x y]] eqn:Ef; cbn [map fst snd].
    + exact (wplain_insert_spec (S l) _ c0 (XNode b bid id (CInner cs)) k v Hwf Hne).
    + assert (En : nth_error cs i = Some child).
      { apply in_enumerate. assert (Hin : In (i, child) [(i, child)]) by now left. rewrite <- Ef in Hin.
        now apply filter_In in Hin. }
      clear Ef Hab Hwf. apply nth_split_mid in En as (l1 & l2 & -> & Hset).
      assert (Hcs' := Hcs). apply Forall_app in Hcs' as [Hw1 Hw2]. inversion Hw2 as [|? ? Hwc Hw3]; subst. destruct Hwc as [Hwc Hlc].
      assert (Hsame : forall c', ychild l c' -> Forall (ychild l) (l1 ++ c' :: l2)) by (intros c' Hc'; apply Forall_app; auto).
      assert (Hlen : forall c', length (l1 ++ c' :: l2) = length (l1 ++ child :: l2)) by (intros c'; rewrite !app_length; reflexivity).
      assert (Hent : forall b bid c', Permutation (xentries (XNode b bid id (CInner (l1 ++ c' :: l2))))
                       (flat_map xentries l1 ++ xentries c' ++ flat_map xentries l2)).
      { intros b' bid' c'. rewrite xentries_inner, flat_map_app. reflexivity. }
      assert (Heq : xentries (XNode b bid id (CInner (l1 ++ child :: l2))) = flat_map xentries l1 ++ xentries child ++ flat_map xentries l2).
      { rewrite xentries_inner, flat_map_app. reflexivity. }
      eapply wspec_bind with (H1 := xthings child ++ xkv_things (k, v)) (F := bnd_things bid ++ XBuf id :: flat_map xthings l1 ++ flat_map xthings l2).
      { cbn [CrashSpec.xthings]. rewrite flat_map_app. cbn [flat_map]. perm. }
      { apply (IH (S (S c)) child ltac:(lia) Hwc). intros Hnp Hl0. specialize (Hlc Hnp). destruct l as [|l']; cbn [lo_at] in Hlc; lia. }
      2:{ intros Hn c' child' _ (Hc' & Hp). rewrite Hset. cbn [with_ch]. apply cspec_ret.
          - cbn [CrashSpec.xthings]. apply keep_perm. rewrite flat_map_app. cbn [flat_map]. perm.
          - split; [split; [rewrite Hlen; exact Hl|]|].
            + apply Hsame. split; [exact Hc'|]. intros Hnp. now elim Hn.
            + rewrite Heq, xentries_inner, flat_map_app. cbn [flat_map]. now apply uleft_frame. }
      intros c' [[old child'] nc] Hcc (Hc' & Ho' & Hrel & Hf). unfold wthings_uni at 1. cbn [fst snd] in *.
      rewrite !Hset. cbn [with_ch].
      assert (Hch : ychild l child').
      { split; [exact Hc'|]. intros Hnp. destruct nc as [nc|]; [exact (Hf Hnp)|]. specialize (Hlc Hnp). lia. }
      set (n1 := XNode b bid id (CInner (l1 ++ child' :: l2))).
      eapply wspec_perm with (H' := (xthings n1 ++ xthings_o nc) ++ xthe old).
      { unfold n1. cbn [CrashSpec.xthings]. rewrite flat_map_app. cbn [flat_map]. perm. }
      assert (Hrel1 : forall b bid c2, c' <= c2 -> urel (fun k0 => matched (wself O) c0 c2 k0 k) old (xentries (XNode b bid id (CInner (l1 ++ child :: l2)))) k v
          (xentries (XNode b bid id (CInner (l1 ++ child' :: l2))) ++ xentries_o nc)).
      { intros b' bid' c2 Hc2. eapply urel_mono; [|eapply urel_perm; [|rewrite xentries_inner, flat_map_app; apply urel_frame; exact Hrel]].
        - intros x. apply matched_le; lia.
        - rewrite Hent. perm. }
      assert (Hw1' : forall b bid, ywf (S l) (XNode b bid id (CInner (l1 ++ child' :: l2)))).
      { intros b' bid'. split; [rewrite Hlen; exact Hl|]. now apply Hsame. }
      destruct nc as [[nl nn]|].
      * destruct Ho' as (Hnl & Hwn & Hcp). cbn [fst snd] in *. subst nl. ask.
        -- eapply wspec_dbind with (H1 := xthings n1); [cbn [CrashTree.xthings_o]; rewrite <- app_assoc; reflexivity|apply dspec_set_bounds|].
           intros n' [bid' ->]. subst n1. cbn [x_id x_children].
           eapply wspec_bind with (F := xthe old); [|apply (wself_insert_spec crash bdrop gv np Hnc O U cfg lo Hcap Hlo (S l) (S c') (XNode _ bid' id (CInner (l1 ++ child' :: l2))) (XEInner (l, nn)))| |];
             [cbn [CrashTree.xthings_o CrashTree.xthings_e]; perm|apply Hw1'|exact Hwn|cbn; lia| |].
           ++ intros c2 [n3 sib] Hc2 (H1 & H2 & H3 & H4). cbn [fst snd xentries_e] in *. apply wspec_ret.
              ** split; [exact H1|]. split; [exact H2|]. cbn [fst snd]. split.
                 --- eapply urel_perm; [|rewrite Heq, <- Heq; apply (Hrel1 b bid c2); lia]. symmetry. rewrite H3. rewrite !xentries_inner. reflexivity.
                 --- destruct sib; [exact H4|]. cbn [xlen x_children] in *. rewrite (Hlen child') in H4. exact H4.
              ** unfold wthings_uni. cbn [fst snd]. perm.
           ++ intros _ c2 n3 Hc2 (H1 & H2). apply wdrop_opt_then; [perm|]. split; [exact H1|].
              eapply urel_left; [apply (Hrel1 b bid c2); lia|]. eapply part_perm_r; [|exact H2]. rewrite !xentries_inner. reflexivity.
        -- intros _. eapply cspec_bind with (H1 := xthings_c (l, nn)) (F := xthe old ++ xthings n1);
             [cbn [CrashTree.xthings_o]; perm|apply dspec_cspec; apply (dspec_drop_container bdrop gv cfg (l, nn)); apply (ywf_xwf np cfg lo); exact (proj1 Hwn)|].
           intros u _. apply wdrop_opt_then; [reflexivity|]. split; [apply Hw1'|].
           eapply urel_left; [apply (Hrel1 b bid (S c')); lia|]. apply part_app_r, part_refl.
      * ask.
        -- eapply wspec_dbind with (H1 := xthings n1); [cbn [CrashTree.xthings_o]; rewrite <- app_assoc; reflexivity|apply dspec_set_bounds|].
           intros n' [bid' ->]. subst n1. cbn [x_id x_children x_bounds]. apply wspec_ret.
           ++ split; [apply Hw1'|]. split; [exact Logic.I|]. split.
              ** cbn [fst snd]. eapply urel_perm; [|apply (Hrel1 b bid (S c')); lia]. rewrite !xentries_inner. reflexivity.
              ** cbn [fst snd xlen x_children]. rewrite (Hlen child'). lia.
           ++ unfold wthings_uni. cbn [fst snd]. perm.
        -- intros _. apply wdrop_opt_then; [cbn [CrashTree.xthings_o]; perm|]. split; [apply Hw1'|].
           eapply urel_left; [apply (Hrel1 b bid (S c')); lia|]. apply part_app_r, part_refl.
    + clear Ef. eapply wspec_bind with (H1 := xthings (XNode b bid id (CInner cs)) ++ xkv_things (k, v)) (F := []);
        [rewrite app_nil_r; reflexivity| | |].
      { apply (wnode_get_mut_spec crash bdrop gv np Hnc O cfg lo (wself O) (S l) (S (S c)) (XNode b bid id (CInner cs)) k _ Hwf).
        apply part_app_r, part_refl. }
      * intros c' [[old put]|] Hc' Hlens; rewrite app_nil_r.
        -- destruct Hlens as (k0 & r & T & H1 & H2 & H3 & H4). destruct (H4 v) as ((H5 & H8) & H6 & H7).
           eapply wspec_dbind with (H1 := [XKey k]); [|apply dspec_destroy|].
           { rewrite xkv_eq. transitivity ([XKey k] ++ XVal v :: xthings (XNode b bid id (CInner cs))); [perm|reflexivity]. }
           intros u _. cbn [nothing app]. apply wspec_ret.
           ++ split; [exact H5|]. split; [exact Logic.I|]. split; [|cbn [fst snd]; lia]. exists k0, r. cbn [fst snd xentries_o]. rewrite app_nil_r.
              splits; auto. eapply matched_le; [| |exact H1]; lia.
           ++ unfold wthings_uni. cbn [fst snd xthe CrashTree.xthings_o]. rewrite H3, H7. perm.
        -- eapply wspec_mono; [| |exact (wplain_insert_spec (S l) c' c0 (XNode b bid id (CInner cs)) k v Hwf Hne)]; auto.
      * intros _ c' u _ _. rewrite app_nil_r. apply Hab.
Qed.

(** *** Removal *)
Context (Hrem : np -> lo <= minc).
Definition ycc (c : xcc) : Prop :=
  match c with
  | XCCInner (S l) _ cs => length cs <= cap /\ Forall (ychild l) cs
  | XCCInner 0 _ _ => False
  | XCCLeaf _ es => length es <= cap
  end.

Lemma dspec_ychildren l (n : xnode) : ywf l n ->
  dspec (xcontainer_children bdrop (l, n)) (xthings n) xthings_cc (fun cc => ycc cc /\ xcc_level cc = l /\ ccs_entries cc = xentries n).
Proof.
  intros Hwf. unfold xcontainer_children. cbn [fst snd]. rewrite xthings_eq. destruct l as [|l].
  - apply ywf_leaf in Hwf as (b & bid & id & es & -> & Hl). cbn [x_children x_id x_bid xthings_ch].
    eapply dspec_bind with (H1 := []) (F := bnd_things bid ++ XBuf id :: flat_map xkv_things es) (th := fun _ => [])
      (Q := fun cc => cc = XCCLeaf id es); [reflexivity|now apply dspec_ret|].
    intros cc ->. eapply dspec_bind with (H1 := bnd_things bid); [cbn [app]; reflexivity|apply (dspec_drop_bare bdrop gv (XNode b bid id (CLeaf es)))|].
    intros u _. apply dspec_ret; [reflexivity|]. splits; auto.
  - apply ywf_inner in Hwf as (b & bid & id & cs & -> & Hl & Hcs). cbn [x_children x_id x_bid xthings_ch].
    eapply dspec_bind with (H1 := []) (F := bnd_things bid ++ XBuf id :: flat_map xthings cs) (th := fun _ => [])
      (Q := fun cc => cc = XCCInner (S l) id cs); [reflexivity|now apply dspec_ret|].
    intros cc ->. eapply dspec_bind with (H1 := bnd_things bid); [cbn [app]; reflexivity|apply (dspec_drop_bare bdrop gv (XNode b bid id (CInner cs)))|].
    intros u _. apply dspec_ret; [reflexivity|]. splits; auto; try (now split). symmetry. apply xentries_inner.
Qed.

Section WRem.
Context {Q : Type} (OQ : nat -> nat -> qanswers B K Q).
Notation xrem := (option V * xnode * list xcc)%type.
Definition wthings_rem (r : xrem) : list (xthing K V) := xthe (fst (fst r)) ++ xthings (snd (fst r)) ++ flat_map xthings_cc (snd r).
Definition yccs (level : nat) (ccs : list xcc) : Prop :=
  Forall ycc ccs /\ NoDup (map xcc_level ccs) /\ Forall (fun cc => xcc_level cc < level) ccs.
Definition wrem_ok (level c0 : nat) (n : xnode) (q : Q) (c' : nat) (r : xrem) : Prop :=
  ywf level (snd (fst r)) /\ yccs level (snd r) /\ (fst (fst r) = None -> snd r = [] /\ snd (fst r) = n) /\
  rrel (fun k => matched OQ c0 c' k q) (fst (fst r)) (xentries n) (xentries (snd (fst r)) ++ flat_map ccs_entries (snd r)) /\
  xlen n <= S (xlen (snd (fst r))) /\ (minc = 0 -> level <> 0 -> xlen (snd (fst r)) = xlen n).
Definition wrem_left (level : nat) (n : xnode) (_ : nat) (n' : xnode) : Prop := ywf level n' /\ part_of (xentries n') (xentries n).

Lemma wposition_spec t i (es : list (K * V)) q :
  match wposition OQ t i es q with
  | Some j => i <= j /\ exists x, nth_error es (j - i) = Some x /\ w_same OQ t j (fst x) q = true
  | None => True
  end.
Proof.
  clear Hcap Hlo Hrem. revert i; induction es as [|[k v] es IH]; intros i; cbn [wposition]; [exact Logic.I|]. destruct (w_same OQ t i k q) eqn:E.
  - split; [lia|]. exists (k, v). rewrite Nat.sub_diag. now split.
  - specialize (IH (S i)). destruct (wposition OQ t (S i) es q) as [j|]; [|exact Logic.I]. destruct IH as (H1 & x & H2 & H3).
    split; [lia|]. exists x. replace (j - i) with (S (j - S i)) by lia. now split.
Qed.

Lemma yccs_nil level : yccs level [].
Proof. split; [constructor|split; constructor]. Qed.

Lemma wnode_remove_spec level c c0 (n : xnode) q : c0 <= c -> ywf level n ->
  wspec c (wnode_remove crash bdrop O cfg OQ level n q) (xthings n)
    wthings_rem (wrem_ok level c0 n q) xthings (wrem_left level n).
Proof using Hnc Hrem.
  clear Hcap Hlo. revert c n; induction level as [|l IH]; intros c n Hc0 Hwf; cbn [wnode_remove].
  - assert (Hwf' := Hwf). apply ywf_leaf in Hwf' as (b & bid & id & es & -> & Hl).
    assert (Hab : forall c, cspec (dret (XNode b bid id (CLeaf es))) (xthings (XNode b bid id (CLeaf es))) xthings
       (wrem_left 0 (XNode b bid id (CLeaf es)) c)).
    { intros c'. apply cspec_ret; [apply keep_refl|]. split; [exact Hwf|apply part_refl]. }
    eapply wspec_dbind with (F := []); [rewrite app_nil_r; reflexivity| |].
    { rewrite <- (app_nil_r (xthings _)). apply dspec_read_leaf_all. }
    intros es' ->. rewrite !app_nil_r. ask; [|intros _; apply Hab].
    assert (Hpos := wposition_spec c 0 es q). destruct (wposition OQ c 0 es q) as [i|].
    2:{ apply wspec_ret.
        - split; [exact Hwf|]. split; [apply yccs_nil|]. split; [auto|]. cbn [fst snd flat_map rrel].
          split; [now rewrite app_nil_r|]. split; [lia|congruence].
        - unfold wthings_rem. cbn [fst snd xthe flat_map]. perm. }
    destruct Hpos as (_ & [k v] & Hi & Hq). rewrite Nat.sub_0_r in Hi.
    destruct (swap_remove_spec i es) as (y & es' & E & Hy & Hp & _); [now apply nth_error_lt in Hi|].
    rewrite Hi in Hy. injection Hy as <-. eapply wspec_lift_ok; [exact E|]. cbn [fst snd with_ch] in *.
    assert (Hlen := Permutation_length Hp). cbn [length] in Hlen.
    assert (Hw' : forall (b' : B) bid', ywf 0 (XNode b' bid' id (CLeaf es'))) by (intros; cbn; lia).
    eapply wspec_dbind with (H1 := [XKey k]) (F := XVal v :: xthings (XNode b bid id (CLeaf es'))); [|apply dspec_destroy|].
    { cbn [CrashSpec.xthings]. rewrite (Permutation_flat_map_ xkv_things _ _ Hp). cbn [flat_map]. rewrite xkv_eq. perm. }
    intros u _. cbn [nothing app]. ask.
    + eapply wspec_dbind with (H1 := xthings (XNode b bid id (CLeaf es'))) (F := [XVal v]); [perm|apply dspec_set_bounds|].
      intros n' [bid' ->]. cbn [x_id x_children]. apply wspec_ret.
      * split; [apply Hw'|]. split; [apply yccs_nil|]. split; [discriminate|].
        cbn [fst snd flat_map rrel]. rewrite app_nil_r, !xentries_leaf. split; [|split; [cbn; lia|congruence]].
        exists k. split; [|exact Hp]. exists c, i. split; [lia|exact Hq].
      * unfold wthings_rem. cbn [fst snd xthe flat_map]. perm.
    + intros _. eapply cspec_then with (H1 := [XVal v]) (F := xthings (XNode b bid id (CLeaf es'))); [reflexivity|apply dspec_destroy|apply keep_refl|].
      split; [apply Hw'|]. rewrite !xentries_leaf.
      eapply part_perm_r; [exact Hp|].
      eapply part_perm_r; [apply (Permutation_app_comm [(k, v)] es')|]. apply part_app_r, part_refl.
  - apply ywf_inner in Hwf as (b & bid & id & cs & -> & Hl & Hcs).
    eapply wspec_dbind with (F := []); [rewrite app_nil_r; reflexivity| |].
    { rewrite <- (app_nil_r (xthings _)). apply dspec_read_inner_all. }
    intros cs' ->. rewrite !app_nil_r.
    match goal with |- ?W _ (?L _ cs) ?x1 ?x2 ?x3 ?x4 ?x5 =>
      enough (Hgen : forall i c, c0 <= c -> i <= length cs -> W c (L i cs) x1 x2 x3 x4 x5) by (apply Hgen; auto) end.
    clear c Hc0. intros i. induction i as [|i IHi]; intros c Hc0 Hil.
    { cbn [with_ch]. apply wspec_ret.
      - split; [now split|]. split; [apply yccs_nil|]. split; [auto|]. cbn [fst snd flat_map rrel].
        split; [now rewrite app_nil_r|]. split; [lia|congruence].
      - unfold wthings_rem. cbn [fst snd xthe flat_map]. perm. }
    cbn [with_ch] in *.
    assert (Hab : forall c, cspec (dret (XNode b bid id (CInner cs))) (xthings (XNode b bid id (CInner cs))) xthings
       (wrem_left (S l) (XNode b bid id (CInner cs)) c)).
    { intros c'. apply cspec_ret; [apply keep_refl|]. split; [now split|apply part_refl]. }
    destruct (nth_error_exists i cs) as [child En]; [lia|].
    eapply wspec_lift_ok; [rewrite En; reflexivity|]. ask; [|intros _; apply Hab].
    destruct (w_intersects _ _ _).
    2:{ apply IHi; lia. }
    assert (Hi := nth_error_lt _ _ _ En).
    assert (Hsp := En). apply nth_split_mid in Hsp as (l1 & l2 & Ecs & Hset).
    assert (Hwc : ychild l child) by (rewrite Forall_forall in Hcs; apply Hcs; eapply nth_error_In; exact En).
    destruct Hwc as [Hwc Hlc].
    assert (Hth : forall c', Permutation (xthings (XNode b bid id (CInner (set_nth i c' cs))))
        (xthings c' ++ bnd_things bid ++ XBuf id :: flat_map xthings l1 ++ flat_map xthings l2)).
    { intros c'. rewrite Hset. cbn [CrashSpec.xthings]. rewrite flat_map_app. cbn [flat_map]. perm. }
    assert (Hen : forall c', xentries (XNode b bid id (CInner (set_nth i c' cs))) = flat_map xentries l1 ++ xentries c' ++ flat_map xentries l2).
    { intros c'. rewrite xentries_inner, Hset, flat_map_app. reflexivity. }
    assert (Hen0 : xentries (XNode b bid id (CInner cs)) = flat_map xentries l1 ++ xentries child ++ flat_map xentries l2).
    { rewrite <- Hen. now rewrite set_nth_same. }
    assert (Hth0 : Permutation (xthings (XNode b bid id (CInner cs)))
        (xthings child ++ bnd_things bid ++ XBuf id :: flat_map xthings l1 ++ flat_map xthings l2)).
    { rewrite <- Hth. now rewrite set_nth_same. }
    eapply wspec_bind; [exact Hth0|exact (IH (S c) child ltac:(lia) Hwc)| |].
    2:{ intros Hn c' child' _ (Hc' & Hp). apply cspec_ret; [apply keep_perm; apply Hth|]. split.
        - split; [now rewrite set_nth_length|]. apply Forall_set_nth; [exact Hcs|]. split; [exact Hc'|]. intros Hnp. now elim Hn.
        - rewrite Hen, Hen0. now apply part_middle. }
    intros c' [[value child'] unders] Hcc (Hc' & (Hcc1 & Hcc2 & Hcc3) & Hn & Hrel & Hf1 & Hf2). cbn [fst snd] in *.
    set (cs1 := set_nth i child' cs) in *.
    eapply wspec_perm with (H' := xthings (XNode b bid id (CInner cs1)) ++ xthe value ++ flat_map xthings_cc unders).
    { unfold wthings_rem. cbn [fst snd]. unfold cs1. rewrite Hth. perm. }
    assert (Hrel1 : forall c2, c' <= c2 -> rrel (fun k => matched OQ c0 c2 k q) value (xentries (XNode b bid id (CInner cs)))
        (xentries (XNode b bid id (CInner cs1)) ++ flat_map ccs_entries unders)).
    { intros c2 Hc2. unfold cs1. rewrite Hen, Hen0. eapply rrel_mono; [|eapply rrel_perm; [|apply rrel_frame; exact Hrel]].
      - intros x. now apply matched_le.
      - perm. }
    destruct value as [value|].
    2:{ destruct (Hn eq_refl) as [-> ->]. cbn [xthe flat_map app]. rewrite app_nil_r.
        assert (Ecs1 : cs1 = cs) by (unfold cs1; now rewrite set_nth_same).
        rewrite Ecs1. apply IHi; lia. }
    assert (Hl1 : length cs1 = length cs) by (unfold cs1; apply set_nth_length).
    eapply wspec_dbind with (F := []); [rewrite app_nil_r; reflexivity|apply (dspec_shallow_len gv cfg l child' _ (ywf_xwf np cfg lo l child' Hc'))|].
    intros len Elen. rewrite app_nil_r. apply (shallow_xlen cfg l child' len) in Elen; [|now apply (ywf_xwf np cfg lo)]. subst len.
    eapply wspec_bind with (F := [])
      (th := fun r : list xnode * list xcc => xthings (XNode b bid id (CInner (fst r))) ++ [XVal value] ++ flat_map xthings_cc (snd r))
      (QA := fun _ r => length (fst r) <= cap /\ Forall (ychild l) (fst r) /\ yccs (S l) (snd r) /\
         Permutation (xentries (XNode b bid id (CInner (fst r))) ++ flat_map ccs_entries (snd r))
                     (xentries (XNode b bid id (CInner cs1)) ++ flat_map ccs_entries unders) /\
         length cs <= S (length (fst r)) /\ (minc = 0 -> length (fst r) = length cs))
      (te := xthings) (QE := wrem_left (S l) (XNode b bid id (CInner cs))); [rewrite app_nil_r; reflexivity| | |].
    + destruct (Nat.ltb_spec (xlen child') minc) as [Hlt|Hge].
      * destruct (swap_remove_spec i cs1) as (x & cs2 & Es & Hx & Hpx & _); [lia|].
        assert (x = child').
        { unfold cs1 in Hx. rewrite nth_error_set_nth, Nat.eqb_refl in Hx. destruct (Nat.ltb_spec i (length cs)); [congruence|lia]. }
        subst x. eapply wspec_lift_ok; [exact Es|]. cbv beta iota.
        assert (Hl2 : length cs1 = S (length cs2)) by (apply Permutation_length in Hpx; exact Hpx).
        assert (Hw2 : Forall (ychild l) cs2).
        { assert (Hpl : Permutation cs2 (l1 ++ l2)).
          { unfold cs1 in Hpx. rewrite Hset in Hpx. apply (Permutation_cons_inv (a := child')). rewrite <- Hpx. perm. }
          apply (Forall_perm _ _ _ (Permutation_sym Hpl)). rewrite Ecs in Hcs. apply Forall_app in Hcs as [Ha Hb]. inversion Hb; subst. apply Forall_app. auto. }
        eapply wspec_dbind with (H1 := xthings child') (F := xthings (XNode b bid id (CInner cs2)) ++ [XVal value] ++ flat_map xthings_cc unders).
        { cbn [CrashSpec.xthings]. rewrite (Permutation_flat_map_ xthings _ _ Hpx). cbn [flat_map xthe]. perm. }
        { apply (dspec_ychildren l child' Hc'). }
        intros cc (Hwcc & Hlcc & Hecc). apply wspec_ret.
        -- cbn [fst snd]. split; [lia|]. split; [exact Hw2|]. split; [split; [|split]|split; [|split; [lia|lia]]].
           ++ apply Forall_app. auto.
           ++ rewrite map_app. cbn [map]. rewrite Hlcc.
              eapply Permutation_NoDup; [apply Permutation_cons_append|].
              constructor; [|exact Hcc2]. intros Hin. apply in_map_iff in Hin as (cc2 & E2 & Hin).
              rewrite Forall_forall in Hcc3. specialize (Hcc3 _ Hin). cbn in Hcc3. lia.
           ++ apply Forall_app. split; [eapply Forall_impl; [|exact Hcc3]; cbn; lia|].
              constructor; [lia|constructor].
           ++ rewrite flat_map_app. cbn [flat_map]. rewrite Hecc, !xentries_inner.
              rewrite (Permutation_flat_map_ xentries _ _ Hpx). cbn [flat_map]. perm.
        -- cbn [fst snd]. rewrite flat_map_app. cbn [flat_map]. perm.
      * apply wspec_ret; [|reflexivity]. cbn [fst snd]. split; [lia|]. split; [|split; [|split; [reflexivity|split; lia]]].
        -- unfold cs1. apply Forall_set_nth; [exact Hcs|]. split; [exact Hc'|]. intros Hnp. specialize (Hlc Hnp). specialize (Hrem Hnp).
           destruct l as [|l']; cbn [lo_at] in *; [lia|]. destruct (Nat.eq_dec minc 0) as [E0|E0]; [|lia]. specialize (Hf2 E0 ltac:(lia)). lia.
        -- split; [exact Hcc1|]. split; [exact Hcc2|]. eapply Forall_impl; [|exact Hcc3]; cbn; lia.
    + intros c2 [cs2 u2] Hc2 (H1 & H2 & H3 & H4 & H5 & H6). cbn [fst snd with_ch] in *. rewrite app_nil_r.
      assert (Hrel2 : rrel (fun k => matched OQ c0 (S c2) k q) (Some value) (xentries (XNode b bid id (CInner cs)))
          (xentries (XNode b bid id (CInner cs2)) ++ flat_map ccs_entries u2)).
      { eapply rrel_perm; [symmetry; exact H4|]. apply Hrel1. lia. }
      ask.
      * eapply wspec_dbind; [reflexivity|apply dspec_set_bounds|]. intros n' [bid' ->]. cbn [x_id x_children]. apply wspec_ret.
        -- split; [now split|]. split; [exact H3|]. split; [discriminate|]. split; [|cbn [fst snd xlen x_children]; split; [exact H5|auto]].
           cbn [fst snd]. rewrite xentries_inner in *. exact Hrel2.
        -- unfold wthings_rem. cbn [fst snd xthe]. perm.
      * intros _. eapply cspec_then with (H1 := [XVal value]) (F := xthings (XNode b bid id (CInner cs2)) ++ flat_map xthings_cc u2);
          [perm|apply dspec_destroy| |].
        { apply keep_app_r. tauto. }
        split; [now split|]. apply rrel_part in Hrel2. eapply part_cut. exact Hrel2.
    + intros _ c2 n' _ Hn'. rewrite app_nil_r. apply cspec_ret; [apply keep_refl|exact Hn'].
Qed.
End WRem.
End WUnique.
