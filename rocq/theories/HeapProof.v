(** Ordered iteration is safe whatever the metric's order does. *)
From Verif Require Export HeapSpec FxSortedLaw.

Section AnyLemmas.
Context {B K V M : Type}.
Notation node := (node B K V).
Notation item := (item B K V).
Notation ranked := (ranked B K V M).
Notation event := (event B K V M).
Notation af := (@any_first B K V M).
Notation ents fr := (flat_map (@item_entries B K V) (map snd fr)).

Lemma af_perm lossy (fr fr' : list ranked) tr lost : Permutation fr fr' -> af lossy fr tr lost -> af lossy fr' tr lost.
Proof.
  intros Hp H. destruct H.
  - apply Permutation_nil in Hp as ->. constructor.
  - eapply af_found; [rewrite <- Hp; eassumption|eassumption].
  - eapply af_open; [rewrite <- Hp; eassumption|eassumption|eassumption].
  - eapply af_lose; [assumption|rewrite <- Hp; eassumption|eassumption].
Qed.

Lemma af_lose_part (lossy : Prop) (fr fr' : list ranked) : lossy -> multi_part fr' fr ->
  exists m, forall tr lost, af lossy fr' tr lost -> af lossy fr tr (m ++ lost).
Proof.
  intros HL (gone & Hp). revert fr Hp; induction gone as [|x gone IH]; intros fr Hp.
  - exists []. intros tr lost H. rewrite app_nil_r in Hp. exact (af_perm _ _ _ _ _ Hp H).
  - destruct (IH (fr' ++ gone) (Permutation_refl _)) as (m & Hm). exists (item_entries (snd x) ++ m). intros tr lost H. rewrite <- app_assoc.
    apply (af_lose _ fr x (fr' ++ gone)); [exact HL| |exact (Hm _ _ H)]. rewrite <- Hp. symmetry. apply Permutation_middle.
Qed.

Lemma af_finish (fr : list ranked) : Forall kinded_item fr -> exists tr lost, af False fr tr lost /\ cut_short tr.
Proof.
  induction fr as [|y fr IH]; intros Hk; [exists [], []; split; constructor|].
  inversion Hk as [|? ? Hky Hkl]; subst. destruct (IH Hkl) as (tr & lost & HB & Hcut).
  destruct y as [[m [|level]] [nd|e]]; cbn in Hky; try contradiction.
  - exists (Found e :: tr), lost. split; [eapply af_found; [reflexivity|exact HB]|]. constructor; [exact I|exact Hcut].
  - destruct (item_children nd) as [|c cs] eqn:Ec.
    + exists ([] ++ tr), (flat_map (@item_entries B K V) [] ++ lost). split; [|exact Hcut].
      refine (af_open _ _ _ _ _ _ [] [] [] _ _ (Permutation_refl _) _ HB). rewrite Ec. constructor.
    + exists ([Asked (item_question c) None] ++ tr), (flat_map item_entries (c :: cs) ++ lost). split; [|now constructor].
      refine (af_open _ _ _ _ _ _ _ [] _ _ _ (Permutation_refl _) _ HB). rewrite Ec. constructor.
Qed.

Lemma rs_items lossy level l (tr : list event) new lost : rank_some lossy level l tr new lost -> multi_part (lost ++ map snd new) l.
Proof.
  induction 1 as [|x m l tr new lost _ IH|x l tr new lost _ IH|x l|l].
  - exists []. constructor.
  - cbn [map snd]. eapply multi_part_perm; [|reflexivity|exact (multi_part_app [x] [x] _ _ (multi_part_refl _) IH)]. perm.
  - eapply multi_part_trans; [exact IH|]. exists [x]. perm.
  - exists []. now rewrite !app_nil_r.
  - exists []. now rewrite !app_nil_r.
Qed.
Lemma rs_asked lossy level l (tr : list event) new lost : rank_some lossy level l tr new lost ->
  exists r, map item_question l = asked tr ++ r.
Proof.
  induction 1 as [|x m l tr new lost _ [r IH]|x l tr new lost _ [r IH]|x l|l].
  - now exists [].
  - exists r. cbn. now rewrite IH.
  - exists r. cbn. now rewrite IH.
  - exists (map item_question l). reflexivity.
  - exists (map item_question l). reflexivity.
Qed.
Lemma rs_founds lossy level l (tr : list event) new lost : rank_some lossy level l tr new lost -> founds tr = [].
Proof. induction 1; auto. Qed.
Lemma rs_no_panic level l (tr : list event) new lost : rank_some False level l tr new lost -> panicked_on tr = [] -> lost = [].
Proof. induction 1; auto; [discriminate|tauto]. Qed.
Lemma rs_all lossy level l (tr : list event) new lost : rank_some lossy level l tr new lost -> all_ranked tr -> Permutation (lost ++ map snd new) l.
Proof.
  unfold all_ranked. induction 1 as [|x m l tr new lost _ IH|x l tr new lost _ IH|x l|l]; intros Ha.
  - constructor.
  - inversion Ha; subst. cbn [map snd]. rewrite <- IH by assumption. perm.
  - inversion Ha; contradiction.
  - inversion Ha; contradiction.
  - now rewrite app_nil_r.
Qed.

Lemma af_entries lossy fr tr lost : af lossy fr tr lost -> multi_part (founds tr ++ lost) (ents fr).
Proof.
  induction 1 as [|fr s e fr' tr lost Hp _ IH|fr m level n fr' tr1 new lost1 tr lost Hp Hr _ IH|fr x fr' tr lost _ Hp _ IH].
  - exists []. constructor.
  - assert (Hq := Permutation_flat_map_ item_entries _ _ (Permutation_map snd Hp)). cbn [map snd flat_map] in Hq.
    eapply multi_part_perm; [|symmetry; exact Hq|]; [|exact (multi_part_app [e] [e] _ _ (multi_part_refl _) IH)]. reflexivity.
  - assert (Hq := Permutation_flat_map_ item_entries _ _ (Permutation_map snd Hp)). cbn [map snd flat_map item_entries] in Hq.
    rewrite map_app, flat_map_app in IH. rewrite founds_app, (rs_founds _ _ _ _ _ _ Hr). cbn [app].
    assert (H1 := multi_part_flat item_entries _ _ (rs_items _ _ _ _ _ _ Hr)). rewrite flat_map_app, children_entries in H1.
    assert (H2 := multi_part_app _ _ _ _ (multi_part_refl (flat_map item_entries lost1)) IH).
    eapply multi_part_perm; [|symmetry; exact Hq|].
    2: { eapply multi_part_trans; [exact H2|].
         eapply multi_part_perm; [|reflexivity|exact (multi_part_app _ _ _ _ H1 (multi_part_refl (flat_map item_entries (map snd fr'))))]. perm. }
    perm.
  - assert (Hq := Permutation_flat_map_ item_entries _ _ (Permutation_map snd Hp)). cbn [map flat_map] in Hq.
    eapply multi_part_perm; [|symmetry; exact Hq|exact (multi_part_app _ _ _ _ (multi_part_refl (item_entries (snd x))) IH)]. perm.
Qed.

Lemma af_all lossy fr tr lost : af lossy fr tr lost -> all_ranked tr -> Permutation (founds tr ++ lost) (ents fr).
Proof.
  induction 1 as [|fr s e fr' tr lost Hp _ IH|fr m level n fr' tr1 new lost1 tr lost Hp Hr _ IH|fr x fr' tr lost _ Hp _ IH]; intros Ha.
  - constructor.
  - inversion Ha; subst. rewrite (Permutation_flat_map_ item_entries _ _ (Permutation_map snd Hp)). cbn [map snd flat_map founds item_entries].
    change (Permutation (e :: (founds tr ++ lost)) (e :: ents fr')). now rewrite IH.
  - apply Forall_app in Ha as [Ha1 Ha2]. rewrite (Permutation_flat_map_ item_entries _ _ (Permutation_map snd Hp)). cbn [map snd flat_map item_entries].
    specialize (IH Ha2). rewrite map_app, flat_map_app in IH. rewrite founds_app, (rs_founds _ _ _ _ _ _ Hr). cbn [app].
    assert (H1 := Permutation_flat_map_ item_entries _ _ (rs_all _ _ _ _ _ _ Hr Ha1)). rewrite flat_map_app, children_entries in H1.
    rewrite <- H1, <- app_assoc, <- IH. perm.
  - rewrite (Permutation_flat_map_ item_entries _ _ (Permutation_map snd Hp)). cbn [map flat_map]. rewrite <- (IH Ha). perm.
Qed.

Lemma af_questions lossy fr tr lost : af lossy fr tr lost -> multi_part (asked tr) (flat_map item_questions (map snd fr)).
Proof.
  induction 1 as [|fr s e fr' tr lost Hp _ IH|fr m level n fr' tr1 new lost1 tr lost Hp Hr _ IH|fr x fr' tr lost _ Hp _ IH].
  - exists []. constructor.
  - assert (Hq := Permutation_flat_map_ item_questions _ _ (Permutation_map snd Hp)). cbn [map snd flat_map item_questions app] in Hq.
    eapply multi_part_perm; [reflexivity|symmetry; exact Hq|exact IH].
  - assert (Hq := Permutation_flat_map_ item_questions _ _ (Permutation_map snd Hp)). cbn [map snd flat_map item_questions] in Hq.
    rewrite map_app, flat_map_app in IH. rewrite asked_app. destruct (rs_asked _ _ _ _ _ _ Hr) as (r & Ea).
    assert (H1 := multi_part_flat item_questions _ _ (rs_items _ _ _ _ _ _ Hr)). rewrite flat_map_app in H1.
    eapply multi_part_perm; [reflexivity|symmetry; exact Hq|]. rewrite children_questions, Ea, <- !app_assoc.
    apply multi_part_app; [apply multi_part_refl|]. eapply multi_part_trans; [exact IH|].
    apply (multi_part_app [] r); [exists r; reflexivity|]. apply multi_part_app; [|apply multi_part_refl].
    eapply multi_part_trans; [|exact H1]. exists (flat_map item_questions lost1). perm.
  - assert (Hq := Permutation_flat_map_ item_questions _ _ (Permutation_map snd Hp)). cbn [map flat_map] in Hq.
    eapply multi_part_perm; [reflexivity|symmetry; exact Hq|]. exact (multi_part_app [] _ _ _ (ex_intro _ _ (Permutation_refl _)) IH).
Qed.

Lemma af_no_panic fr tr lost : af False fr tr lost -> panicked_on tr = [] -> lost = [].
Proof.
  induction 1 as [|fr s e fr' tr lost Hp _ IH|fr m level n fr' tr1 new lost1 tr lost Hp Hr _ IH|fr x fr' tr lost [] Hp _ IH]; intros H0; auto.
  rewrite panicked_app in H0. apply app_eq_nil in H0 as [H1 H2]. rewrite (rs_no_panic _ _ _ _ _ Hr H1). cbn. auto.
Qed.
End AnyLemmas.

Section HeapProof.
Context {W B K V M : Type} (H : FxHeap W (ranked B K V M)) (EH : encapsulated H) (f : FxRanking W B K M).
Notation node := (node B K V).
Notation item := (item B K V).
Notation ranked := (ranked B K V M).
Notation event := (event B K V M).
Notation af := (@any_first B K V M).
Notation HL := (hlogged (L := list event) H).
Notation items h := (fh_items H h).
Notation wsum l := (list_sum (map (@ranked_weight B K V M) l)).
Notation answ := (@r_answered W B K V M f).

Lemma wsum_part (a b : list ranked) : multi_part a b -> wsum a <= wsum b.
Proof.
  intros (r & Hp). assert (E : wsum (a ++ r) = wsum b).
  { apply Permutation_list_sum. now apply Permutation_map. }
  rewrite map_app, list_sum_app in E. lia.
Qed.
Lemma kinded_part (a b : list ranked) : multi_part a b -> Forall kinded_item b -> Forall kinded_item a.
Proof. intros (r & Hp) Hb. apply (Forall_perm _ _ _ (Permutation_sym Hp)) in Hb. now apply Forall_app in Hb as [Hb _]. Qed.

Lemma fh_push_spec {T} (sc : W -> T -> option (option M) * W) (q : T -> fquestion B K) (wrap : T -> item) (wt : T -> nat) level
    l h w (lg : list event) :
  (forall x, item_question (wrap x) = q x) -> (forall (m : M) x, ranked_weight ((m, level), wrap x) = wt x) ->
  (forall w x, answ (Asked (q x) (fst (sc w x)))) ->
  exists p h' w' used new,
    fh_push_all HL (fun wl x => let (a, w) := sc (fst wl) x in (a, (w, snd wl ++ [Asked (q x) a]))) wrap level l h (w, lg)
      = (p, h', (w', lg ++ used)) /\
    multi_part (items h') (new ++ items h) /\ founds used = [] /\ Forall answ used /\
    wsum new <= list_sum (map wt l) /\
    (forall r, In r new -> exists m x, In x l /\ r = ((m, level), wrap x)) /\
    forall lossy : Prop, lossy \/ (lossless H /\ p = false) ->
      (lossy \/ Permutation (items h') (new ++ items h)) /\ exists lost, rank_some lossy level (map wrap l) used new lost.
Proof.
  intros Hq Hw Ha. revert h w lg; induction l as [|x l IH]; intros h w lg; cbn [fh_push_all map].
  - exists false, h, w, [], []. rewrite app_nil_r. splits; auto; [apply multi_part_refl|intros r []|].
    intros lossy _. split; [right; reflexivity|]. exists []. constructor.
  - cbn [fst snd]. assert (Hx := Ha w x). change (list_sum (wt x :: map wt l)) with (wt x + list_sum (map wt l)).
    destruct (sc w x) as [[[m|]|] w1]; cbn [fst] in Hx.
    + cbn [hlogged fh_push fst snd]. destruct (fh_push H w1 ((m, level), wrap x) h) as [[p1 h1] w2] eqn:Ep.
      assert (Hp1 := en_push _ EH _ _ _ _ _ _ Ep). destruct p1.
      * exists true, h1, w2, [Asked (q x) (Some (Some m))], [((m, level), wrap x)]. splits; auto.
        -- cbn. specialize (Hw m x). rewrite Hw. lia.
        -- intros r [<-|[]]. exists m, x. split; [now left|reflexivity].
        -- intros lossy [Hl|[_ E]]; [|discriminate]. split; [now left|]. exists (map wrap l). rewrite <- Hq. apply rs_rank. now apply rs_stop.
      * destruct (IH h1 w2 (lg ++ [Asked (q x) (Some (Some m))])) as (p & h' & w' & used & new & E1 & G1 & G2 & G3 & G4 & G5 & G6).
        cbn [hlogged fheap] in E1. cbn [hlogged fheap]. rewrite E1.
        exists p, h', w', (Asked (q x) (Some (Some m)) :: used), (((m, level), wrap x) :: new). splits; auto.
        -- now rewrite <- app_assoc.
        -- eapply multi_part_trans; [exact G1|]. eapply multi_part_perm; [reflexivity| |exact (multi_part_app _ _ _ _ (multi_part_refl new) Hp1)]. perm.
        -- cbn [map list_sum fold_right]. specialize (Hw m x). rewrite Hw. change (fold_right Nat.add 0 (map ranked_weight new)) with (wsum new). lia.
        -- intros r [<-|Hr]; [exists m, x; split; [now left|reflexivity]|]. destruct (G5 r Hr) as (m' & y & Hy & ->). exists m', y. split; [now right|reflexivity].
        -- intros lossy Hl. destruct (G6 lossy Hl) as [Hp2 (lost & Hr)]. split; [|exists lost; rewrite <- Hq; now constructor].
           destruct Hl as [Hl|[LL _]]; [now left|]. destruct Hp2 as [Hp2|Hp2]; [now left|]. right.
           rewrite Hp2, (ll_push _ LL _ _ _ _ _ Ep). perm.
    + destruct (IH h w1 (lg ++ [Asked (q x) (Some None)])) as (p & h' & w' & used & new & E1 & G1 & G2 & G3 & G4 & G5 & G6).
      cbn [hlogged fheap] in E1. cbn [hlogged fheap]. rewrite E1.
      exists p, h', w', (Asked (q x) (Some None) :: used), new. splits; auto.
      * now rewrite <- app_assoc.
      * lia.
      * intros r Hr. destruct (G5 r Hr) as (m' & y & Hy & ->). exists m', y. split; [now right|reflexivity].
      * intros lossy Hl. destruct (G6 lossy Hl) as [Hp2 (lost & Hr)]. split; [exact Hp2|]. exists lost. rewrite <- Hq. now constructor.
    + exists true, h, w1, [Asked (q x) None], []. splits; auto.
      * apply multi_part_refl.
      * cbn. lia.
      * intros r [].
      * intros lossy [Hl|[_ E]]; [|discriminate]. split; [now left|]. exists (map wrap (x :: l)). rewrite <- Hq. cbn [map]. constructor.
Qed.

Definition hkinded (h : fheap H) : Prop := Forall kinded_item (items h).
Definition calm (lossy : Prop) (o : outcome (K * V)) : Prop := lossy \/ (lossless H /\ o <> Panicked).

Lemma fh_loop_spec fuel h w (lg : list event) : hkinded h -> wsum (items h) <= fuel ->
  exists o h' w' used, fh_sorted_loop HL (rlogged f) fuel h (w, lg) = Ok (o, h', (w', lg ++ used)) /\
    hkinded h' /\ (lossless H -> o = Done -> items h' = []) /\ founds used = [] /\ Forall answ used /\
    forall lossy, calm lossy o ->
    exists m, forall tr L, af lossy (items h') tr L -> af lossy (items h) (used ++ map Found (yields [o]) ++ tr) (m ++ L).
Proof.
  revert h w lg; induction fuel as [|fuel IH]; intros h w lg Hok Hw; cbn [fh_sorted_loop hlogged fh_pop fst snd];
    destruct (fh_pop H w h) as [[a h1] w1] eqn:Ep; assert (Hp := en_pop _ EH _ _ _ _ _ Ep);
    (destruct a as [[[[m level] value]|]|];
     [|exists Done, h1, w1, []; rewrite app_nil_r; splits; auto;
        [exact (kinded_part _ _ Hp Hok)
        |intros LL _; rewrite (ll_empty _ LL _ _ _ _ Ep) in Hp; destruct Hp as (r & Hp);
         apply Permutation_sym, Permutation_nil, app_eq_nil in Hp; tauto
        |intros lossy [Hl|[LL _]]; cbn [yields flat_map map app];
         [exact (af_lose_part lossy _ _ Hl Hp)
         |exists []; intros tr L HB; rewrite (ll_empty _ LL _ _ _ _ Ep) in Hp |- *; destruct Hp as (r & Hp);
          apply Permutation_sym, Permutation_nil, app_eq_nil in Hp as [E0 _]; rewrite E0 in HB; exact HB]]
     |exists Panicked, h1, w1, []; rewrite app_nil_r; splits; auto;
        [exact (kinded_part _ _ Hp Hok)|discriminate
        |intros lossy [Hl|[LL Hn]]; [|congruence]; cbn [yields flat_map map app]; exact (af_lose_part lossy _ _ Hl Hp)]]).
  - exfalso. assert (Hw' := wsum_part _ _ Hp). cbn [map list_sum fold_right] in Hw'.
    assert (Hp0 := weight_pos ((m, level), value)). lia.
  - assert (Hw' := wsum_part _ _ Hp). change (ranked_weight ((m, level), value) + wsum (items h1) <= wsum (items h)) in Hw'.
    assert (Hok' := kinded_part _ _ Hp Hok). inversion Hok' as [|? ? Hi Hok1]; subst.
    assert (Hpop : forall lossy o, calm lossy o -> forall fr, fr = ((m, level), value) :: items h1 ->
       exists m, forall tr L, af lossy fr tr L -> af lossy (items h) tr (m ++ L)).
    { intros lossy o [Hl|[LL _]] fr ->; [exact (af_lose_part lossy _ _ Hl Hp)|]. exists []. intros tr L. apply af_perm. symmetry.
      exact (ll_pop _ LL _ _ _ _ _ Ep). }
    assert (Hstep : forall l x q (sc : W -> x -> _) wrap wt ys (n : node),
       value = INode n -> level = S l -> item_children n = map wrap ys ->
       (forall x, item_question (wrap x) = q x) -> (forall (m : M) x, ranked_weight ((m, l), wrap x) = wt x) ->
       (forall w x, answ (Asked (q x) (fst (sc w x)))) -> (forall (m : M) y, In y ys -> kinded_item ((m, l), wrap y)) ->
       list_sum (map wt ys) + wsum (items h1) <= fuel ->
       exists o h' w' used,
         (let '(panicked, h, w) := fh_push_all HL (fun wl x => let (a, w) := sc (fst wl) x in (a, (w, snd wl ++ [Asked (q x) a]))) wrap l ys h1 (w1, lg) in
          if panicked then Ok (Panicked, h, w) else fh_sorted_loop HL (rlogged f) fuel h w) = Ok (o, h', (w', lg ++ used)) /\
         hkinded h' /\ (lossless H -> o = Done -> items h' = []) /\ founds used = [] /\ Forall answ used /\
         forall lossy, calm lossy o ->
         exists m, forall tr L, af lossy (items h') tr L -> af lossy (items h) (used ++ map Found (yields [o]) ++ tr) (m ++ L)).
    { intros l x q sc wrap wt ys n -> -> Hc Hq Hwt Ha Hkn Hfuel.
      destruct (fh_push_spec sc q wrap wt l ys h1 w1 lg Hq Hwt Ha) as (p & h2 & w2 & used1 & new & -> & G1 & G2 & G3 & G4 & G5 & G6).
      assert (Hok2 : hkinded h2).
      { unfold hkinded. apply (kinded_part _ _ G1). apply Forall_app. split; [|exact Hok1].
        apply Forall_forall. intros r Hr. destruct (G5 r Hr) as (m' & y & Hy & ->). auto. }
      assert (Hopen : forall lossy o, calm lossy o -> (o <> Panicked -> p = false) -> exists m1, forall tr L,
         af lossy (items h2) tr L -> af lossy (items h) (used1 ++ tr) (m1 ++ L)).
      { intros lossy o Hl Ho. destruct (G6 lossy) as [Hp2 (lost & Hr)]; [destruct Hl as [Hl|[LL Hl]]; [now left|right; auto]|].
        destruct (Hpop lossy o Hl _ eq_refl) as (m1 & Hm1).
        assert (Hnew : exists m2, forall tr L, af lossy (items h2) tr L -> af lossy (new ++ items h1) tr (m2 ++ L)).
        { destruct Hp2 as [Hp2|Hp2]; [exact (af_lose_part lossy _ _ Hp2 G1)|]. exists []. intros tr L. apply af_perm. exact Hp2. }
        destruct Hnew as (m2 & Hm2). exists (m1 ++ flat_map item_entries lost ++ m2). intros tr L HB. rewrite <- !app_assoc.
        apply Hm1. eapply af_open; [reflexivity|rewrite Hc; exact Hr|]. auto. }
      destruct p.
      - exists Panicked, h2, w2, used1. splits; auto; [discriminate|]. intros lossy Hl.
        destruct (Hopen lossy Panicked Hl) as (m1 & Hm1); [congruence|]. exists m1. intros tr L HB. cbn [yields flat_map map app]. auto.
      - destruct (IH h2 w2 (lg ++ used1) Hok2) as (o & h' & w' & used & E & H1 & H2 & H3 & H4 & H5).
        { apply wsum_part in G1. rewrite map_app, list_sum_app in G1. lia. }
        exists o, h', w', (used1 ++ used). rewrite E. splits; auto.
        + now rewrite <- app_assoc.
        + rewrite founds_app, G2, H3. reflexivity.
        + now apply Forall_app.
        + intros lossy Hl. destruct (Hopen lossy o Hl) as (m1 & Hm1); [auto|]. destruct (H5 lossy Hl) as (m2 & Hm2).
          exists (m1 ++ m2). intros tr L HB. rewrite <- !app_assoc. auto. }
    destruct level as [|[|l]]; cbn in Hi.
    + destruct value as [|e]; [contradiction|]. cbn [item_entry bind]. exists (Yield e), h1, w1, []. rewrite app_nil_r.
      splits; auto; [discriminate|]. intros lossy Hl. destruct (Hpop lossy _ Hl _ eq_refl) as (m1 & Hm1). exists m1. intros tr L HB.
      cbn [yields flat_map map app]. apply Hm1. eapply af_found; [reflexivity|exact HB].
    + destruct value as [n|]; [|contradiction]. destruct n as [b [cs|es]]; [contradiction|].
      cbn [item_node node_children read_leaf bind].
      apply (Hstep 0 _ (fun e => QKey (fst e)) (fun w e => fxr_key f w (fst e)) IEntry (fun _ => 1) es (Node b (CLeaf es))); auto.
      * intros w0 x. cbn. eauto.
      * rewrite list_sum_ones. cbn [ranked_weight snd item_weight] in Hw'. lia.
    + destruct value as [n|]; [|contradiction]. destruct n as [b [cs|es]]; [|contradiction].
      cbn [item_node node_children read_inner bind].
      apply (Hstep (S l) _ (fun c => QBounds (node_bounds c)) (fun w c => fxr_bounds f w (node_bounds c)) INode (@item_weight B K V) cs (Node b (CInner cs))); auto.
      * intros w0 x. cbn. eauto.
      * intros m0 y Hy. cbn [kinded node_children] in Hi. rewrite Forall_forall in Hi. cbn. auto.
      * cbn [ranked_weight snd item_weight] in Hw'. lia.
Qed.

Definition calm_all (lossy : Prop) (os : list (outcome (K * V))) : Prop := lossy \/ (lossless H /\ unwound os = 0).

Lemma fh_sessions_spec gs h w (lg : list event) : hkinded h ->
  exists os h' w' used, session (traced (fh_sorted_next HL (rlogged f))) gs h w lg = Ok (os, h', w', lg ++ used) /\
    length os = length gs /\ hkinded h' /\ yields os = founds used /\ Forall answ used /\
    (lossless H -> In Done os \/ items h = [] -> items h' = []) /\
    forall lossy, calm_all lossy os ->
    exists m, forall tr L, af lossy (items h') tr L -> af lossy (items h) (used ++ tr) (m ++ L).
Proof.
  revert h w lg; induction gs as [|g gs IH]; intros h w lg Hk; cbn [session].
  - exists [], h, w, []. rewrite app_nil_r. splits; auto; [intros _ [[]|Hi]; exact Hi|]. intros lossy _. exists []. auto.
  - unfold traced at 1, fh_sorted_next at 1. cbn [hlogged fh_items].
    destruct (fh_loop_spec _ h (g w) lg Hk (Nat.le_refl _)) as (o & h1 & w1 & used1 & E1 & H1 & H2 & H3 & H4 & H5).
    cbn [hlogged fheap fh_items] in E1. rewrite E1. cbn [bind].
    destruct (IH h1 w1 ((lg ++ used1) ++ match o with Yield e => [Found e] | _ => [] end) H1) as (os & h' & w' & used & E2 & G1 & G2 & G3 & G4 & G5 & G6).
    lazymatch goal with |- context [session ?n gs h1 w1 ?l] => change (session n gs h1 w1 l) with (session (traced (fh_sorted_next HL (rlogged f))) gs h1 w1 l) end.
    rewrite E2. cbn [bind].
    exists (o :: os), h', w', (used1 ++ match o with Yield e => [Found e] | _ => [] end ++ used). splits; auto.
    + now rewrite <- !app_assoc.
    + cbn. now f_equal.
    + rewrite !founds_app, H3, <- G3, yields_cons. destruct o; reflexivity.
    + apply Forall_app. split; [exact H4|]. apply Forall_app. split; [destruct o; repeat constructor|exact G4].
    + intros LL Hd. apply (G5 LL). destruct Hd as [[->|Hd]|Hd]; [right; auto|left; exact Hd|right].
      destruct (H5 True (or_introl I)) as (m & Hm). destruct o as [e| |]; [|auto|].
      * exfalso. destruct (H5 True (or_introl I)) as (m0 & Hm0).
        destruct (af_lose_part (M := M) True (items h1) [] I) as (m1 & Hm1); [exists (items h1); reflexivity|].
        specialize (Hm0 _ _ (Hm1 _ _ (af_end True))). apply af_entries in Hm0. rewrite Hd in Hm0. destruct Hm0 as (r & Hp).
        cbn [map flat_map] in Hp. apply Permutation_sym, Permutation_nil in Hp. rewrite !founds_app, H3 in Hp. cbn in Hp. discriminate.
      * assert (Ek : multi_part (items h1) (items h)).
        { unfold fh_sorted_loop in E1. rewrite Hd in E1. cbn [map list_sum fold_right] in E1. cbn [hlogged fh_pop fst snd] in E1.
          destruct (fh_pop H (g w) h) as [[a h2] w2] eqn:Ep. assert (Hp := en_pop _ EH _ _ _ _ _ Ep).
          destruct a as [[[[m9 lv] vl]|]|]; cbn in E1; [discriminate|injection E1; intros; subst; auto; discriminate|].
          injection E1; intros; subst. exact Hp. }
        rewrite Hd in Ek. destruct Ek as (r & Hp). apply Permutation_sym, Permutation_nil, app_eq_nil in Hp. tauto.
    + intros lossy Hl.
      assert (Hl1 : calm lossy o).
      { destruct Hl as [Hl|[LL Hl]]; [now left|]. right. split; [exact LL|]. intros ->. discriminate. }
      assert (Hl2 : calm_all lossy os).
      { destruct Hl as [Hl|[LL Hl]]; [now left|]. right. split; [exact LL|]. rewrite unwound_cons in Hl. lia. }
      destruct (H5 lossy Hl1) as (m1 & Hm1). destruct (G6 lossy Hl2) as (m2 & Hm2). exists (m1 ++ m2). intros tr L HB.
      specialize (Hm1 _ _ (Hm2 _ _ HB)). rewrite <- !app_assoc. destruct o; exact Hm1.
Qed.
End HeapProof.

Lemma heap_search {W B K V M : Type} (H : FxHeap W (ranked B K V M)) (f : FxRanking W B K M) (t : rtree B K V) (w : W)
    (gs : list (W -> W)) : encapsulated H -> kinded (fst t) (snd t) ->
  let (a, w0) := fxr_bounds f w (node_bounds (snd t)) in
  match fh_sorted_new H f t w with
  | (None, _) => a = None \/ exists m, a = Some (Some m) /\ fst (fst (fh_push H w0 ((m, fst t + 1), INode (snd t)) (fh_new H))) = true
  | (Some h, w1) =>
    exists ranks os h' w' tr,
      a = Some ranks /\
      session (traced (fh_sorted_next (hlogged H) (rlogged f))) gs h w1 [] = Ok (os, h', w', tr) /\
      length os = length gs /\ yields os = founds tr /\ Forall (r_answered f) tr /\
      (exists lost, any_first True (start ranks t) tr lost) /\
      (lossless H -> unwound os = 0 ->
       exists rest lost, any_first False (start ranks t) (tr ++ rest) lost /\ cut_short rest /\ (In Done os -> rest = []))
  end.
Proof.
  intros EH Hk. unfold fh_sorted_new. destruct (fxr_bounds f w (node_bounds (snd t))) as [a w0].
  assert (Go : forall ranks h w1, a = Some ranks -> multi_part (fh_items H h) (start ranks t) ->
     (lossless H -> Permutation (fh_items H h) (start ranks t)) ->
     exists ranks os h' w' tr,
      a = Some ranks /\
      session (traced (fh_sorted_next (hlogged H) (rlogged f))) gs h w1 [] = Ok (os, h', w', tr) /\
      length os = length gs /\ yields os = founds tr /\ Forall (r_answered f) tr /\
      (exists lost, any_first True (start ranks t) tr lost) /\
      (lossless H -> unwound os = 0 ->
       exists rest lost, any_first False (start ranks t) (tr ++ rest) lost /\ cut_short rest /\ (In Done os -> rest = []))).
  { intros ranks h w1 Ea Hp Hpl.
    assert (Hkh : hkinded H h).
    { apply (kinded_part _ _ Hp). unfold start. destruct ranks as [m|]; repeat constructor. rewrite Nat.add_1_r. exact Hk. }
    destruct (fh_sessions_spec H EH f gs h w1 [] Hkh) as (os & h' & w' & tr & E & G1 & G2 & G3 & G4 & G5 & G6).
    exists ranks, os, h', w', tr. splits; auto.
    - destruct (G6 True (or_introl I)) as (m & Hm).
      destruct (af_lose_part (M := M) True (fh_items H h') [] I) as (m1 & Hm1); [exists (fh_items H h'); reflexivity|].
      destruct (af_lose_part True _ _ I Hp) as (m2 & Hm2). specialize (Hm2 _ _ (Hm _ _ (Hm1 _ _ (af_end True)))).
      rewrite app_nil_r in Hm2. eauto.
    - intros LL Hu. destruct (G6 False (or_intror (conj LL Hu))) as (m & Hm).
      assert (Hdone : In Done os \/ ~ In Done os).
      { clear. induction os as [|[a| |] os IH]; [right; intros []| |left; now left|]; (destruct IH as [IH|IH]; [left; now right|right; intros [H|H]; [discriminate|auto]]). }
      destruct Hdone as [Hd|Hd].
      + exists [], (m ++ []). splits; [|constructor|auto]. eapply af_perm; [exact (Hpl LL)|]. apply Hm. rewrite (G5 LL (or_introl Hd)). constructor.
      + destruct (af_finish (fh_items H h') G2) as (rest & lost & HB & Hc). exists rest, (m ++ lost). splits; [|exact Hc|contradiction].
        eapply af_perm; [exact (Hpl LL)|]. now apply Hm. }
  destruct a as [[m|]|]; [|refine (Go None _ _ eq_refl _ _); cbn [start]|left; reflexivity].
  - destruct (fh_push H w0 ((m, fst t + 1), INode (snd t)) (fh_new H)) as [[p h] w1] eqn:Ep.
    destruct p; [right; exists m; rewrite Ep; auto|].
    refine (Go (Some m) _ _ eq_refl _ _); cbn [start].
    + assert (Hp := en_push _ EH _ _ _ _ _ _ Ep). now rewrite (en_new _ EH) in Hp.
    + intros LL. assert (Hp := ll_push _ LL _ _ _ _ _ Ep). now rewrite (en_new _ EH) in Hp.
  - rewrite (en_new _ EH). apply multi_part_refl.
  - intros _. now rewrite (en_new _ EH).
Qed.
