(** User code that answers as it likes: insertion and lookup below the root. *)
From Verif Require Export WildProof.
Set Default Proof Using "Type".

Section WNodes.
Context {B K V N : Type} (crash : nat -> bool) (bdrop : bool) (gv : list (xthing K V)) (np : Prop)
  (Hnc : np -> forall i, crash i = false) (O : nat -> nat -> answers B K V N) (U : numops N) (cfg : config).
Notation xnode := (xnode B K V).
Notation xcontainer := (xcontainer B K V).
Notation xentry := (xentry B K V).
Notation wspec := (wspec gv np).
Notation cspec := (cspec gv False).
Notation dspec := (dspec gv).
Notation cap := (max_children cfg).
Notation minc := (min_children cfg).
Notation xthings := (xthings bdrop).
Notation xthings_c := (xthings_c bdrop).
Notation xthings_e := (xthings_e bdrop).
Notation xthings_o := (xthings_o bdrop).
Notation bnd_things := (bnd_things bdrop).
Notation xwf := (xwf cfg).
(** [lo]: how many children nodes below the root have at least, if nothing panics. *)
Context (lo : nat) (Hcap : np -> 2 <= cap) (Hlo : np -> lo <= 1 \/ lo <= Nat.min minc (cap - minc)).

Fixpoint ywf (level : nat) (n : xnode) : Prop :=
  match level, x_children n with
  | 0, CLeaf es => length es <= cap
  | S l, CInner cs => length cs <= cap /\ Forall (fun c => ywf l c /\ (np -> lo_at lo l <= xlen c)) cs
  | _, _ => False
  end.
Definition ychild (l : nat) (c : xnode) : Prop := ywf l c /\ (np -> lo_at lo l <= xlen c).
Definition yentry (e : xentry) : Prop := match e with XEInner c => ychild (fst c) (snd c) | XELeaf _ => True end.
Definition yo (level : nat) (o : option xcontainer) : Prop :=
  match o with Some c => fst c = level /\ ychild level (snd c) /\ 1 <= cap | None => True end.

Lemma ywf_leaf n : ywf 0 n -> exists b bid id es, n = XNode b bid id (CLeaf es) /\ length es <= cap.
Proof. destruct n as [b bid id [cs|es]]; cbn; [intros []|]. intros H. exists b, bid, id, es. auto. Qed.
Lemma ywf_inner l n : ywf (S l) n -> exists b bid id cs, n = XNode b bid id (CInner cs) /\ length cs <= cap /\ Forall (ychild l) cs.
Proof. destruct n as [b bid id [cs|es]]; cbn; [|intros []]. intros H. exists b, bid, id, cs. auto. Qed.
Lemma ywf_xwf level n : ywf level n -> xwf level n.
Proof.
  revert n; induction level as [|l IH]; intros n Hw.
  - apply ywf_leaf in Hw as (b & bid & id & es & -> & Hl). exact Hl.
  - apply ywf_inner in Hw as (b & bid & id & cs & -> & Hl & Hcs). split; [exact Hl|]. eapply Forall_impl; [|exact Hcs].
    intros c [Hc _]. now apply IH.
Qed.
Lemma yentry_wf e : yentry e -> xentry_wf cfg e.
Proof. destruct e as [c|kv]; [intros [H _]; now apply ywf_xwf|intros _; exact Logic.I]. Qed.

Definition ins_ok (level : nat) (n : xnode) (es : list (K * V)) (_ : nat) (r : xnode * option xcontainer) : Prop :=
  ywf level (fst r) /\ yo level (snd r) /\ Permutation (xentries (fst r) ++ xentries_o (snd r)) es /\
  match snd r with None => xlen n <= xlen (fst r) | Some _ => np -> lo_at lo level <= xlen (fst r) end.
Definition ins_left (level : nat) (es : list (K * V)) (_ : nat) (n : xnode) : Prop := ywf level n /\ part_of (xentries n) es.
Definition wins (level c : nat) (m : X K V (xnode * option xcontainer) xnode) (n : xnode) (e : xentry) : Prop :=
  wspec c m (xthings n ++ xthings_e e) (fun r => xthings (fst r) ++ xthings_o (snd r))
    (ins_ok level n (xentries n ++ xentries_e e)) xthings (ins_left level (xentries n ++ xentries_e e)).

Ltac ask := apply (wspec_ask crash gv np Hnc).

Lemma abort_entry level c (n : xnode) (e : xentry) : ywf level n -> yentry e ->
  cspec (let$ _ := xdrop_entry bdrop e in dret n) (xthings n ++ xthings_e e) xthings (ins_left level (xentries n ++ xentries_e e) c).
Proof.
  intros Hwf He. eapply cspec_then with (F := xthings n); [|apply (dspec_drop_entry bdrop gv cfg); apply yentry_wf; exact He|apply keep_refl|]; [perm|].
  split; [exact Hwf|]. apply part_app_r, part_refl.
Qed.

Lemma wself_insert_spec level c (n : xnode) (e : xentry) : ywf level n -> yentry e -> (np -> x_target_level e = level) ->
  wins level c (wself_insert crash bdrop O U cfg level n e) n e.
Proof using Hnc Hcap Hlo.
  intros Hwf He Ht. unfold wins, wself_insert.
  assert (Hab := fun c => abort_entry level c n e Hwf He).
  ask; [|intros _; apply Hab].
  destruct level as [|l]; cbn [xchildren_at].
  - apply ywf_leaf in Hwf as (b & bid & id & es & -> & Hl).
    eapply wspec_dbind with (F := []) (th := fun _ => xthings (XNode b bid id (CLeaf es)) ++ xthings_e e)
      (Q := fun ch => ch = CLeaf es); [rewrite app_nil_r; reflexivity| |].
    { eapply dspec_bind with (F := []); [rewrite app_nil_r; reflexivity|apply dspec_read_leaf_all|].
      intros es' ->. apply dspec_ret; [now rewrite app_nil_r|reflexivity]. }
    intros ch ->. rewrite app_nil_r. destruct e as [c0|kv].
    + apply wspec_unwind1; [|apply Hab]. intros Hnp. specialize (Ht Hnp). cbn in Ht. lia.
    + apply wspec_try_push; [exact Hl|]. unfold try_push. destruct (Nat.eqb_spec (length es) cap) as [Ee|Hne].
      * eapply wspec_bind with (H1 := flat_map xkv_things es ++ xkv_things kv) (F := bnd_things bid ++ [XBuf id]).
        { cbn [CrashSpec.xthings CrashTree.xthings_e]. perm. }
        { apply (wsplit_spec crash gv np Hnc O U cfg (w_kv_bounds O) drop_kv xkv_things); [|exact Ee|intros Hnp; specialize (Hcap Hnp); lia].
          intros x. apply dspec_cspec, dspec_drop_kv. }
        -- intros c' [[[b1 b2] g1] [id2 g2]] _ (Hp & Hg1 & Hg2 & Hs & Hm1 & Hm2). cbn [with_ch].
           eapply wspec_dbind with (H1 := xthings (XNode b bid id (CLeaf g1))) (F := XBuf id2 :: flat_map xkv_things g2);
             [cbn [CrashSpec.xthings]; perm|apply dspec_set_bounds|].
           intros n' [bid' ->]. cbn [x_id x_children]. eapply wspec_dbind with (H1 := []); [cbn [app]; reflexivity|apply dspec_new_bnd|].
           intros bid2 _. apply wspec_ret.
           ++ split; [cbn; lia|]. split; [|split].
              ** cbn [yo fst snd]. split; [reflexivity|]. split; [|lia]. split; [cbn; lia|]. intros Hnp. specialize (Hlo Hnp). cbn. lia.
              ** cbn [fst snd xentries_o xentries_e]. rewrite !xentries_leaf, <- Hp. perm.
              ** cbn [fst snd]. intros Hnp. specialize (Hlo Hnp). cbn. lia.
           ++ cbn [fst snd CrashTree.xthings_o CrashSpec.xthings_c CrashSpec.xthings]. perm.
        -- intros _ c' es' _ (Hp & Hl'). cbn [with_ch]. apply cspec_ret; [cbn [CrashSpec.xthings]; apply keep_perm; perm|].
           split; [exact Hl'|]. cbn [xentries_e]. rewrite !xentries_leaf. eapply part_perm_r; [|exact Hp]. perm.
      * cbn [with_ch x_bounds].
        assert (Hw : forall b bid, ywf 0 (XNode b bid id (CLeaf (es ++ [kv])))) by (intros; cbn; rewrite app_length; cbn; lia).
        ask.
        -- eapply wspec_dbind with (H1 := xthings (XNode b bid id (CLeaf (es ++ [kv])))) (F := []); [|apply dspec_set_bounds|].
           { cbn [CrashSpec.xthings CrashTree.xthings_e]. rewrite flat_map_app. cbn [flat_map]. perm. }
           intros n' [bid' ->]. cbn [x_id x_children]. apply wspec_ret.
           ++ split; [apply Hw|]. split; [exact Logic.I|]. split; [|cbn; rewrite app_length; cbn; lia]. cbn [fst snd xentries_o xentries_e].
              rewrite !xentries_leaf. perm.
           ++ cbn [fst snd CrashTree.xthings_o]. perm.
        -- intros _. apply cspec_ret.
           ++ cbn [CrashSpec.xthings CrashTree.xthings_e]. apply keep_perm. rewrite flat_map_app. cbn [flat_map]. perm.
           ++ split; [apply Hw|]. cbn [xentries_e]. rewrite !xentries_leaf. apply part_refl.
  - apply ywf_inner in Hwf as (b & bid & id & cs & -> & Hl & Hcs).
    eapply wspec_dbind with (F := []) (th := fun _ => xthings (XNode b bid id (CInner cs)) ++ xthings_e e)
      (Q := fun ch => ch = CInner cs); [rewrite app_nil_r; reflexivity| |].
    { eapply dspec_bind with (F := []); [rewrite app_nil_r; reflexivity|apply dspec_read_inner_all|].
      intros cs' ->. apply dspec_ret; [now rewrite app_nil_r|reflexivity]. }
    intros ch ->. rewrite app_nil_r. destruct e as [[el en]|kv].
    2:{ apply wspec_unwind1; [|apply Hab]. intros Hnp. specialize (Ht Hnp). cbn in Ht. lia. }
    destruct (Nat.eqb_spec (S l - 1) el) as [<-|Hne]; cbn [negb].
    2:{ apply wspec_unwind1; [|apply Hab]. intros Hnp. specialize (Ht Hnp). cbn in Ht. lia. }
    replace (S l - 1) with l in * by lia. cbn [yentry fst snd] in He.
    apply wspec_try_push; [exact Hl|]. unfold try_push. destruct (Nat.eqb_spec (length cs) cap) as [Ee|Hne].
    + eapply wspec_bind with (H1 := flat_map xthings cs ++ xthings en) (F := bnd_things bid ++ [XBuf id]).
      { cbn [CrashSpec.xthings CrashTree.xthings_e CrashSpec.xthings_c snd]. perm. }
      { apply (wsplit_spec crash gv np Hnc O U cfg (w_node_bounds O) (drop_bare bdrop) xthings); [|exact Ee|intros Hnp; specialize (Hcap Hnp); lia].
        intros x. apply cspec_drop_bare. tauto. }
      * intros c' [[[b1 b2] g1] [id2 g2]] _ (Hp & Hg1 & Hg2 & Hs & Hm1 & Hm2). cbn [with_ch].
        assert (Hall : Forall (ychild l) (g1 ++ g2)) by (apply (Forall_perm _ _ _ Hp); now constructor).
        apply Forall_app in Hall as [Hw1 Hw2].
        eapply wspec_dbind with (H1 := xthings (XNode b bid id (CInner g1))) (F := XBuf id2 :: flat_map xthings g2);
          [cbn [CrashSpec.xthings]; perm|apply dspec_set_bounds|].
        intros n' [bid' ->]. cbn [x_id x_children]. eapply wspec_dbind with (H1 := []); [cbn [app]; reflexivity|apply dspec_new_bnd|].
        intros bid2 _. apply wspec_ret.
        -- split; [split; [lia|exact Hw1]|]. split; [|split].
           ++ cbn [yo fst snd]. split; [reflexivity|]. split; [|lia]. split; [split; [lia|exact Hw2]|]. intros Hnp. specialize (Hlo Hnp). cbn [lo_at xlen x_children]. lia.
           ++ cbn [fst snd xentries_o xentries_e]. rewrite !xentries_inner, <- flat_map_app. rewrite <- (Permutation_flat_map_ xentries _ _ Hp). cbn [flat_map]. perm.
           ++ cbn [fst snd]. intros Hnp. specialize (Hlo Hnp). cbn [lo_at xlen x_children]. lia.
        -- cbn [fst snd CrashTree.xthings_o CrashSpec.xthings_c CrashSpec.xthings]. perm.
      * intros Hn c' cs' _ (Hp & Hl'). cbn [with_ch]. apply cspec_ret; [cbn [CrashSpec.xthings]; apply keep_perm; perm|].
        split; [split; [exact Hl'|]|].
        -- eapply part_Forall; [exact Hp|]. now constructor.
        -- cbn [xentries_e snd]. rewrite !xentries_inner. eapply part_perm_r; [|apply part_flat_map; exact Hp]. cbn [flat_map]. perm.
    + cbn [with_ch x_bounds].
      assert (Hw : forall b bid, ywf (S l) (XNode b bid id (CInner (cs ++ [en])))).
      { intros b0 bid0. split; [rewrite app_length; cbn; lia|]. apply Forall_app. auto. }
      ask.
      * eapply wspec_dbind with (H1 := xthings (XNode b bid id (CInner (cs ++ [en])))) (F := []); [|apply dspec_set_bounds|].
        { cbn [CrashSpec.xthings CrashTree.xthings_e CrashSpec.xthings_c snd]. rewrite flat_map_app. cbn [flat_map]. perm. }
        intros n' [bid' ->]. cbn [x_id x_children]. apply wspec_ret.
        -- split; [apply Hw|]. split; [exact Logic.I|]. split; [|cbn; rewrite app_length; cbn; lia]. cbn [fst snd xentries_o xentries_e].
           rewrite !xentries_inner, flat_map_app. cbn [flat_map]. perm.
        -- cbn [fst snd CrashTree.xthings_o]. perm.
      * intros _. apply cspec_ret.
        -- cbn [CrashSpec.xthings CrashTree.xthings_e CrashSpec.xthings_c snd]. apply keep_perm. rewrite flat_map_app. cbn [flat_map]. perm.
        -- split; [apply Hw|]. cbn [xentries_e snd]. rewrite !xentries_inner, flat_map_app. cbn [flat_map].
           rewrite app_nil_r. apply part_refl.
Qed.

Lemma wnode_insert_spec level c (n : xnode) (e : xentry) : ywf level n -> yentry e ->
  (np -> x_target_level e <= level) -> (np -> x_target_level e <> level -> 1 <= xlen n) ->
  wins level c (wnode_insert crash bdrop O U cfg level n e) n e.
Proof using Hnc Hcap Hlo.
  revert c n; induction level as [|l IH]; intros c n Hwf He Ht Hne; cbn [wnode_insert].
  - unfold wins. assert (Hab := fun c => abort_entry 0 c n e Hwf He).
    ask; [|intros _; apply Hab]. destruct (Nat.eqb_spec (x_target_level e) 0) as [E|E]; cbn [negb].
    + now apply wself_insert_spec.
    + apply wspec_unwind; [|apply Hab]. intros Hnp. specialize (Ht Hnp). lia.
  - unfold wins. assert (Hab := fun c => abort_entry (S l) c n e Hwf He).
    ask; [|intros _; apply Hab]. destruct (Nat.eqb_spec (x_target_level e) (S l)) as [E|E]; cbn [negb].
    { now apply wself_insert_spec. }
    apply ywf_inner in Hwf as (b & bid & id & cs & -> & Hl & Hcs).
    eapply wspec_dbind with (F := []); [rewrite app_nil_r; reflexivity|apply dspec_read_inner_all|].
    intros cs' ->. rewrite app_nil_r. ask; [|intros _; apply Hab].
    apply wspec_lift; [apply unwrap_not_ub|apply unwrap_not_oof| | |intros _; apply Hab].
    { intros Hnp. specialize (Hne Hnp E). cbn [xlen x_children] in Hne.
      destruct (wselect_spec O U (S c) (map x_bounds cs) (w_entry_bounds O c 0 e)) as (i & Ei & _).
      - destruct cs; [cbn in Hne; lia|discriminate].
      - rewrite Ei. discriminate. }
    intros i Ei. destruct (wselect O U (S c) (map x_bounds cs) (w_entry_bounds O c 0 e)) as [i'|] eqn:Es; [|discriminate]. injection Ei as ->.
    destruct (nth_error_exists i cs) as [child En].
    { destruct (wselect_spec O U (S c) (map x_bounds cs) (w_entry_bounds O c 0 e)) as (j & Ej & Hj).
      - destruct cs; [discriminate|discriminate].
      - rewrite Es in Ej. injection Ej as <-. now rewrite map_length in Hj. }
    eapply wspec_lift_ok; [rewrite En; reflexivity|]. clear Es.
    apply nth_split_mid in En as (l1 & l2 & -> & Hset).
    assert (Hcs' := Hcs). apply Forall_app in Hcs' as [Hw1 Hw2]. inversion Hw2 as [|? ? Hwc Hw3]; subst. destruct Hwc as [Hwc Hlc].
    assert (Hsame : forall c', ychild l c' -> Forall (ychild l) (l1 ++ c' :: l2)) by (intros c' Hc'; apply Forall_app; auto).
    assert (Hlen : forall c', length (l1 ++ c' :: l2) = length (l1 ++ child :: l2)) by (intros c'; rewrite !app_length; reflexivity).
    eapply wspec_bind with (H1 := xthings child ++ xthings_e e) (F := bnd_things bid ++ XBuf id :: flat_map xthings l1 ++ flat_map xthings l2).
    { cbn [CrashSpec.xthings]. rewrite flat_map_app. cbn [flat_map]. perm. }
    { apply (IH (S (S c)) child Hwc He).
      - intros Hnp. specialize (Ht Hnp). lia.
      - intros Hnp Hn2. specialize (Hlc Hnp). specialize (Ht Hnp). destruct l as [|l']; cbn [lo_at] in Hlc; lia. }
    + intros c' [child' nc] _ (Hc' & Ho' & Hp & Hf). cbn [fst snd] in *. rewrite !Hset. cbn [with_ch].
      assert (Hch : ychild l child').
      { split; [exact Hc'|]. intros Hnp. destruct nc as [nc|]; [exact (Hf Hnp)|]. specialize (Hlc Hnp). lia. }
      eapply wspec_perm with (H' := xthings (XNode b bid id (CInner (l1 ++ child' :: l2))) ++ xthings_o nc).
      { cbn [CrashSpec.xthings]. rewrite flat_map_app. cbn [flat_map]. perm. }
      assert (Hpe : forall b' bid', Permutation (xentries (XNode b' bid' id (CInner (l1 ++ child' :: l2))) ++ xentries_o nc)
                     (xentries (XNode b bid id (CInner (l1 ++ child :: l2))) ++ xentries_e e)).
      { intros b' bid'. rewrite !xentries_inner, !flat_map_app. cbn [flat_map].
        transitivity ((xentries child' ++ xentries_o nc) ++ flat_map xentries l1 ++ flat_map xentries l2); [perm|]. rewrite Hp. perm. }
      assert (Hwn : forall b' bid', ywf (S l) (XNode b' bid' id (CInner (l1 ++ child' :: l2)))).
      { intros b' bid'. split; [rewrite Hlen; exact Hl|]. now apply Hsame. }
      destruct nc as [[nl nn]|].
      * destruct Ho' as (Hnl & Hw & Hc). cbn [fst snd] in *. subst nl. ask.
        -- eapply wspec_dbind; [reflexivity|apply dspec_set_bounds|]. intros n' [bid' ->]. cbn [x_id x_children].
           eapply wspec_mono; [| |apply (wself_insert_spec (S l) (S c') (XNode _ bid' id (CInner (l1 ++ child' :: l2))) (XEInner (l, nn)))].
           ++ intros c2 r _ (H1 & H2 & H3 & H4). split; [exact H1|]. split; [exact H2|]. split; [rewrite H3; apply Hpe|].
              destruct (snd r); [exact H4|]. cbn [xlen x_children] in *. rewrite (Hlen child') in H4. exact H4.
           ++ intros _ c2 r _ (H1 & H2). split; [exact H1|]. eapply part_perm_r; [symmetry; apply Hpe|exact H2].
           ++ apply Hwn.
           ++ exact Hw.
           ++ intros _. cbn. lia.
        -- intros _. eapply cspec_then with (F := xthings (XNode b bid id (CInner (l1 ++ child' :: l2))));
             [|apply (dspec_drop_container bdrop gv cfg (l, nn)); apply ywf_xwf; exact (proj1 Hw)|apply keep_refl|]; [cbn [CrashTree.xthings_o]; perm|].
           split; [apply Hwn|]. eapply part_cut. apply part_perm. apply Hpe.
      * ask.
        -- eapply wspec_dbind; [reflexivity|apply dspec_set_bounds|]. intros n' [bid' ->]. cbn [x_id x_children].
           apply wspec_ret; [|reflexivity]. split; [apply Hwn|]. split; [exact Logic.I|]. split; [apply Hpe|].
           cbn [fst snd xlen x_children]. rewrite (Hlen child'). lia.
        -- intros _. apply cspec_ret; [cbn; rewrite app_nil_r; apply keep_refl|]. split; [apply Hwn|]. eapply part_cut. apply part_perm. apply Hpe.
    + intros Hn c' child' _ (Hc' & Hp). rewrite Hset. cbn [with_ch]. apply cspec_ret.
      * cbn [CrashSpec.xthings]. apply keep_perm. rewrite flat_map_app. cbn [flat_map]. perm.
      * split; [split; [rewrite Hlen; exact Hl|]|].
        { apply Hsame. split; [exact Hc'|]. intros Hnp. now elim Hn. }
        rewrite !xentries_inner, !flat_map_app. cbn [flat_map].
        eapply part_perm_l with (l1' := flat_map xentries l1 ++ xentries child' ++ flat_map xentries l2); [perm|].
        eapply part_perm_r with (l2' := flat_map xentries l1 ++ (xentries child ++ xentries_e e) ++ flat_map xentries l2); [perm|].
        apply part_middle. exact Hp.
Qed.

(** *** Lookup *)
(** Some comparison of [k] with [q] made by the calls numbered from [c] up to [c'] answered true. *)
Lemma matched_le {Q} (OQ : nat -> nat -> qanswers B K Q) c c' d d' k q : d <= c -> c' <= d' -> matched OQ c c' k q -> matched OQ d d' k q.
Proof. intros H1 H2 (n & i & H3 & H4). exists n, i. split; [|exact H4]. clear Hcap Hlo. lia. Qed.

Section Lens.
Context {Q : Type} (OQ : nat -> nat -> qanswers B K Q).

Definition wlens_ok {C} (ent : C -> list (K * V)) (thg : C -> list (xthing K V)) (good : C -> Prop) (c0 : C) (q : Q) (c c' : nat)
  (found : option (V * (V -> C))) : Prop :=
  match found with
  | None => True
  | Some (o, put) => exists k0 r T, matched OQ c c' k0 q /\
      Permutation (ent c0) ((k0, o) :: r) /\ Permutation (thg c0) (XVal o :: T) /\
      forall v, good (put v) /\ Permutation (ent (put v)) ((k0, v) :: r) /\ Permutation (thg (put v)) (XVal v :: T)
  end.

Lemma wentries_lens_ok n i (es : list (K * V)) q c c' : c <= n < c' ->
  wlens_ok (fun es => es) (flat_map xkv_things) (fun es' => length es' = length es) es q c c' (wentries_get_mut OQ n i es q).
Proof.
  intros Hn. revert i. induction es as [|[k v] es IH]; intros i; cbn [wentries_get_mut]; [exact Logic.I|]. destruct (w_same OQ n i k q) eqn:E.
  - exists k, es, (XKey k :: flat_map xkv_things es). splits; [exists n, i; split; [exact Hn|exact E]|reflexivity| |].
    + cbn [flat_map]. rewrite ?xkv_eq. perm.
    + intros v'. splits; [reflexivity|reflexivity|]. cbn [flat_map]. rewrite ?xkv_eq. perm.
  - specialize (IH (S i)). destruct (wentries_get_mut OQ n (S i) es q) as [[o put]|]; cbn [option_map fst snd]; [|exact Logic.I].
    destruct IH as (k0 & r & T & H1 & H2 & H3 & H4). exists k0, ((k, v) :: r), (XKey k :: XVal v :: T). splits; auto.
    + rewrite H2. perm.
    + cbn [flat_map]. rewrite ?xkv_eq. rewrite H3. perm.
    + intros v'. destruct (H4 v') as (H5 & H6 & H7). splits; [cbn; now rewrite H5|rewrite H6; perm|].
      cbn [flat_map]. rewrite ?xkv_eq. rewrite H7. perm.
Qed.

(** A changed node has as many elements as before. *)
Definition ysame (level : nat) (n n' : xnode) : Prop := ywf level n' /\ xlen n' = xlen n.

Lemma wnode_get_mut_spec level c (n : xnode) q H : ywf level n -> part_of (xthings n) H ->
  wspec c (wnode_get_mut crash bdrop O OQ level n q) H
    (fun _ => H) (fun c' => wlens_ok xentries xthings (ysame level n) n q c c') (fun _ => H) (fun _ => any).
Proof using Hnc.
  clear Hcap Hlo. revert c n H; induction level as [|l IH]; intros c n H Hwf HH; cbn [wnode_get_mut].
  - apply ywf_leaf in Hwf as (b & bid & id & es & -> & Hl).
    eapply wspec_dbind with (F := []); [rewrite app_nil_r; reflexivity|apply dspec_read_leaf|].
    { destruct HH as [r HH]. rewrite HH. cbn [CrashSpec.xthings]. rewrite <- app_assoc. apply in_or_app. right. now left. }
    intros es' ->. rewrite app_nil_r. ask; [|intros _; apply cspec_ret; [apply keep_refl|exact Logic.I]].
    assert (Hlens := wentries_lens_ok c 0 es q c (S c)). specialize (Hlens ltac:(lia)).
    destruct (wentries_get_mut OQ c 0 es q) as [[o put]|]; cbn [option_map fst snd].
    + apply wspec_ret; [|reflexivity]. destruct Hlens as (k0 & r & T & H1 & H2 & H3 & H4).
      exists k0, r, (bnd_things bid ++ XBuf id :: T). splits; auto.
      * cbn [CrashSpec.xthings]. rewrite H3. perm.
      * intros v. destruct (H4 v) as (H5 & H6 & H7). cbn [with_ch]. splits; [split; cbn; lia|exact H6|].
        cbn [CrashSpec.xthings]. rewrite H7. perm.
    + apply wspec_ret; [exact Logic.I|reflexivity].
  - apply ywf_inner in Hwf as (b & bid & id & cs & -> & Hl & Hcs).
    eapply wspec_dbind with (F := []); [rewrite app_nil_r; reflexivity|apply dspec_read_inner|].
    { eapply part_trans; [|exact HH]. cbn [CrashSpec.xthings]. eapply part_perm_r; [apply Permutation_app_comm|]. apply part_app_r, part_refl. }
    intros cs' ->. rewrite app_nil_r.
    assert (Hpc : part_of (flat_map xthings cs) H).
    { eapply part_trans; [|exact HH]. cbn [CrashSpec.xthings]. eapply part_perm_r with (l2' := flat_map xthings cs ++ bnd_things bid ++ [XBuf id]); [perm|].
      apply part_app_r, part_refl. }
    eapply wspec_bind with (F := []) (th := fun _ => H) (te := fun _ => H) (QE := fun _ => any)
      (QA := fun c' => wlens_ok (flat_map xentries) (flat_map xthings) (fun cs' => length cs' = length cs /\ Forall (ychild l) cs') cs q c c');
      [rewrite app_nil_r; reflexivity| | |].
    { clear HH Hl. revert c. induction cs as [|ch r IHr]; intros c.
      - apply wspec_ret; [exact Logic.I|reflexivity].
      - inversion Hcs as [|? ? [Hc Hlc] Hr]; subst.
        assert (Hpc1 : part_of (xthings ch) H) by (eapply part_cut; exact Hpc).
        assert (Hpc2 : part_of (flat_map xthings r) H).
        { eapply part_cut. eapply part_perm_l; [apply Permutation_app_comm|exact Hpc]. }
        ask; [|intros _; apply cspec_ret; [apply keep_refl|exact Logic.I]].
        eapply wspec_bind with (F := []) (th := fun _ => H) (te := fun _ => H) (QE := fun _ => any)
          (QA := fun c' => wlens_ok xentries xthings (ysame l ch) ch q (S c) c'); [rewrite app_nil_r; reflexivity| | |].
        { destruct (w_contains _ _ _); [now apply IH|]. apply wspec_ret; [exact Logic.I|reflexivity]. }
        + intros c1 [[o put]|] Hc1 Hlens; rewrite app_nil_r; cbn [option_map fst snd].
          * apply wspec_ret; [|reflexivity]. destruct Hlens as (k0 & r0 & T & H1 & H2 & H3 & H4).
            exists k0, (r0 ++ flat_map xentries r), (T ++ flat_map xthings r). splits.
            -- eapply matched_le; [| |exact H1]; lia.
            -- cbn [flat_map]. rewrite H2. perm.
            -- cbn [flat_map]. rewrite H3. perm.
            -- intros v. destruct (H4 v) as ((H5 & H8) & H6 & H7). splits; [reflexivity| |cbn [flat_map]; rewrite H6; perm|].
               ++ constructor; [|exact Hr]. split; [exact H5|]. now rewrite H8.
               ++ cbn [flat_map]. rewrite H7. perm.
          * eapply wspec_bind with (F := []); [rewrite app_nil_r; reflexivity|exact (IHr Hr Hpc2 c1)| |].
            -- intros c2 [[o put]|] Hc2 Hlens'; rewrite app_nil_r; cbn [option_map fst snd].
               ++ apply wspec_ret; [|reflexivity]. destruct Hlens' as (k0 & r0 & T & H1 & H2 & H3 & H4).
                  exists k0, (xentries ch ++ r0), (xthings ch ++ T). splits.
                  ** eapply matched_le; [| |exact H1]; lia.
                  ** cbn [flat_map]. rewrite H2. perm.
                  ** cbn [flat_map]. rewrite H3. perm.
                  ** intros v. destruct (H4 v) as ((H5 & H8) & H6 & H7). splits; [cbn; now rewrite H5| |cbn [flat_map]; rewrite H6; perm|].
                     --- constructor; [now split|exact H8].
                     --- cbn [flat_map]. rewrite H7. perm.
               ++ apply wspec_ret; [exact Logic.I|reflexivity].
            -- intros _ c2 u _ _. apply cspec_ret; [rewrite app_nil_r; apply keep_refl|exact Logic.I].
        + intros _ c2 u _ _. apply cspec_ret; [rewrite app_nil_r; apply keep_refl|exact Logic.I]. }
    + intros c1 [[o put]|] Hc1 Hlens; rewrite app_nil_r; cbn [option_map fst snd].
      * apply wspec_ret; [|reflexivity]. destruct Hlens as (k0 & r0 & T & H1 & H2 & H3 & H4).
        exists k0, r0, (bnd_things bid ++ XBuf id :: T). rewrite xentries_inner. splits; auto.
        -- cbn [CrashSpec.xthings]. rewrite H3. perm.
        -- intros v. destruct (H4 v) as ((H5 & H8) & H6 & H7). cbn [with_ch]. splits; [split; [split; [lia|exact H8]|exact H5]|now rewrite xentries_inner|].
           cbn [CrashSpec.xthings]. rewrite H7. perm.
      * apply wspec_ret; [exact Logic.I|reflexivity].
    + intros _ c1 u _ _. apply cspec_ret; [rewrite app_nil_r; apply keep_refl|exact Logic.I].
Qed.
End Lens.
End WNodes.
