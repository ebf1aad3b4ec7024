(** Consequences of searching best-first. *)
From Verif Require Export FxSortedProof.

Section Counts.
Context {B K V M : Type} (m_cmp : M -> M -> comparison).
Notation node := (node B K V).
Notation item := (item B K V).
Notation ranked := (ranked B K V M).
Notation event := (event B K V M).
Notation bf := (@best_first B K V M m_cmp).

Lemma multi_part_app {A} (a b c d : list A) : multi_part a b -> multi_part c d -> multi_part (a ++ c) (b ++ d).
Proof. intros (r & H1) (s & H2). exists (r ++ s). rewrite <- H1, <- H2. perm. Qed.
Lemma multi_part_refl {A} (a : list A) : multi_part a a.
Proof. exists []. now rewrite app_nil_r. Qed.
Lemma multi_part_perm {A} (a a' b b' : list A) : Permutation a a' -> Permutation b b' -> multi_part a b -> multi_part a' b'.
Proof. intros H1 H2 (r & H). exists r. now rewrite <- H1, <- H2. Qed.
Lemma multi_part_trans {A} (a b c : list A) : multi_part a b -> multi_part b c -> multi_part a c.
Proof. intros (r & H1) (s & H2). exists (r ++ s). rewrite app_assoc, H1. exact H2. Qed.

Lemma rank_all_items level l (tr : list event) new lost : rank_all level l tr new lost ->
  multi_part (map snd new ++ lost) l.
Proof.
  induction 1 as [|x m l tr new lost _ (r & IH)|x l tr new lost _ (r & IH)|x l].
  - exists []. constructor.
  - exists r. cbn. now constructor.
  - exists (x :: r). rewrite <- IH. perm.
  - apply multi_part_refl.
Qed.
Lemma rank_all_asked level l (tr : list event) new lost : rank_all level l tr new lost ->
  exists r, map item_question l = asked tr ++ r.
Proof.
  induction 1 as [|x m l tr new lost _ (r & IH)|x l tr new lost _ (r & IH)|x l]; cbn.
  - exists []. reflexivity.
  - exists r. now rewrite IH.
  - exists r. now rewrite IH.
  - eexists. reflexivity.
Qed.
Lemma rank_all_founds level l (tr : list event) new lost : rank_all level l tr new lost -> founds tr = [].
Proof. induction 1; cbn; auto. Qed.
Lemma rank_all_no_panic level l (tr : list event) new lost : rank_all level l tr new lost -> panicked_on tr = [] -> lost = [].
Proof. induction 1; cbn; auto. discriminate. Qed.
Lemma asked_app (a b : list event) : asked (a ++ b) = asked a ++ asked b.
Proof. apply flat_map_app. Qed.
Lemma panicked_app (a b : list event) : panicked_on (a ++ b) = panicked_on a ++ panicked_on b.
Proof. apply flat_map_app. Qed.

Definition item_questions (i : item) : list (fquestion B K) :=
  match i with INode n => questions_below n | IEntry _ => [] end.
Definition item_nodes (i : item) : list node :=
  match i with INode n => nodes_of n | IEntry _ => [] end.

Lemma children_entries (n : node) : flat_map item_entries (item_children n) = entries n.
Proof.
  destruct n as [b [cs|es]]; cbn.
  - induction cs as [|c cs IH]; cbn; congruence.
  - induction es as [|c cs IH]; cbn; congruence.
Qed.
Lemma children_nodes (n : node) : nodes_of n = n :: flat_map item_nodes (item_children n).
Proof.
  destruct n as [b [cs|es]]; cbn; f_equal.
  - induction cs as [|c cs IH]; cbn; congruence.
  - induction es as [|c cs IH]; cbn; congruence.
Qed.
Lemma children_questions (n : node) :
  questions_below n = map item_question (item_children n) ++ flat_map item_questions (item_children n).
Proof.
  unfold questions_below at 1. rewrite children_nodes. cbn [flat_map]. f_equal.
  induction (item_children n) as [|[c|e] l IH]; cbn [flat_map]; [reflexivity| |exact IH].
  rewrite flat_map_app, IH. reflexivity.
Qed.

Lemma multi_part_flat {A C} (g : A -> list C) (a b : list A) : multi_part a b -> multi_part (flat_map g a) (flat_map g b).
Proof. intros (r & H). exists (flat_map g r). rewrite <- flat_map_app. now apply Permutation_flat_map_. Qed.

Lemma bf_entries fr tr lost : bf fr tr lost -> multi_part (founds tr ++ lost) (flat_map item_entries (map snd fr)).
Proof.
  induction 1 as [|fr s e fr' tr lost Hp _ _ IH|fr m level n fr' tr1 new lost1 tr lost Hp _ Hr _ IH].
  - exists []. constructor.
  - assert (Hq := Permutation_flat_map_ item_entries _ _ (Permutation_map snd Hp)). cbn [map snd flat_map] in Hq.
    eapply multi_part_perm; [|symmetry; exact Hq|]; [|exact (multi_part_app [e] [e] _ _ (multi_part_refl _) IH)]. reflexivity.
  - assert (Hq := Permutation_flat_map_ item_entries _ _ (Permutation_map snd Hp)). cbn [map snd flat_map item_entries] in Hq.
    rewrite map_app, flat_map_app in IH. rewrite founds_app, (rank_all_founds _ _ _ _ _ Hr). cbn [app].
    assert (H1 := multi_part_flat item_entries _ _ (rank_all_items _ _ _ _ _ Hr)). rewrite flat_map_app, children_entries in H1.
    assert (H2 := multi_part_app _ _ _ _ (multi_part_refl (flat_map item_entries lost1)) IH).
    eapply multi_part_perm; [|symmetry; exact Hq|].
    2: { eapply multi_part_trans; [exact H2|].
         eapply multi_part_perm; [|reflexivity|exact (multi_part_app _ _ _ _ H1 (multi_part_refl (flat_map item_entries (map snd fr'))))]. perm. }
    perm.
Qed.

Lemma bf_questions fr tr lost : bf fr tr lost -> multi_part (asked tr) (flat_map item_questions (map snd fr)).
Proof.
  induction 1 as [|fr s e fr' tr lost Hp _ _ IH|fr m level n fr' tr1 new lost1 tr lost Hp _ Hr _ IH].
  - exists []. constructor.
  - assert (Hq := Permutation_flat_map_ item_questions _ _ (Permutation_map snd Hp)). cbn [map snd flat_map item_questions app] in Hq.
    eapply multi_part_perm; [reflexivity|symmetry; exact Hq|exact IH].
  - assert (Hq := Permutation_flat_map_ item_questions _ _ (Permutation_map snd Hp)). cbn [map snd flat_map item_questions] in Hq.
    rewrite map_app, flat_map_app in IH. rewrite asked_app. destruct (rank_all_asked _ _ _ _ _ Hr) as (r & Ea).
    assert (H1 := multi_part_flat item_questions _ _ (rank_all_items _ _ _ _ _ Hr)). rewrite flat_map_app in H1.
    eapply multi_part_perm; [reflexivity|symmetry; exact Hq|]. rewrite children_questions, Ea, <- !app_assoc.
    apply multi_part_app; [apply multi_part_refl|]. eapply multi_part_trans; [exact IH|].
    apply (multi_part_app [] r); [exists r; reflexivity|]. apply multi_part_app; [|apply multi_part_refl].
    eapply multi_part_trans; [|exact H1]. exists (flat_map item_questions lost1). reflexivity.
Qed.

Lemma bf_no_panic fr tr lost : bf fr tr lost -> panicked_on tr = [] -> lost = [].
Proof.
  induction 1 as [|fr s e fr' tr lost Hp _ _ IH|fr m level n fr' tr1 new lost1 tr lost Hp _ Hr _ IH]; intros H0; auto.
  rewrite panicked_app in H0. apply app_eq_nil in H0 as [H1 H2]. rewrite (rank_all_no_panic _ _ _ _ _ Hr H1). cbn. auto.
Qed.

(** What is lost lies below opened nodes with a panicking child. *)
End Counts.

Section Lawful.
Context {B K V M : Type} (m_cmp : M -> M -> comparison) (CL : cmp_laws m_cmp) (sb : B -> option M) (sk : K -> option M).
Notation node := (node B K V).
Notation item := (item B K V).
Notation ranked := (ranked B K V M).
Notation event := (event B K V M).
Notation bf := (@best_first B K V M m_cmp).
Notation ok := (fun r : ranked => item_ok m_cmp sb sk r /\ match r with ((m, _), INode n) => sb (node_bounds n) = Some m | _ => True end).
Definition has_score (e : K * V) : bool := match sk (fst e) with Some _ => true | None => false end.
Notation ranked_of l := (filter has_score l).

(** Answers of the ranking, unless it panics. *)
Definition truthful (ev : event) : Prop :=
  match ev with
  | Asked (QBounds b) a => a = None \/ a = Some (sb b)
  | Asked (QKey k) a => a = None \/ a = Some (sk k)
  | Found _ => True
  end.

(** The children of a scored node of level [S level]. *)
Definition child_ok (level : nat) (i : item) : Prop :=
  match level, i with
  | 0, IEntry _ => True
  | S l, INode c => kinded l c /\ scored m_cmp sb sk c /\ node_scored m_cmp sb sk c
  | _, _ => False
  end.

Lemma children_ok level (n : node) : kinded level n -> scored m_cmp sb sk n -> Forall (child_ok level) (item_children n).
Proof.
  destruct n as [b [cs|es]], level as [|l]; cbn [kinded node_children]; try contradiction; intros Hk Hs; unfold item_children; cbn [node_children].
  - rewrite scored_inner in Hs. apply Forall_forall. intros x Hx. apply in_map_iff in Hx as (c & <- & Hc).
    rewrite Forall_forall in Hk, Hs. destruct (Hs c Hc). cbn. auto.
  - apply Forall_forall. intros x Hx. apply in_map_iff in Hx as (c & <- & Hc). exact I.
Qed.

Lemma ranked_of_none (l : list (K * V)) : (forall e, In e l -> sk (fst e) = None) -> ranked_of l = [].
Proof.
  induction l as [|e l IH]; intros H; cbn; [reflexivity|]. unfold has_score at 1. rewrite (H e (or_introl eq_refl)).
  apply IH. intros x Hx. apply H. now right.
Qed.

Lemma rank_all_lawful level l tr (new : list ranked) lost : rank_all level l tr new lost -> Forall (child_ok level) l -> Forall truthful tr ->
  Forall ok new /\ Permutation (ranked_of (flat_map item_entries l))
                     (ranked_of (flat_map item_entries (map snd new)) ++ ranked_of (flat_map item_entries lost)).
Proof.
  induction 1 as [|x m l tr new lost _ IH|x l tr new lost _ IH|x l]; intros Hc Ht.
  - split; constructor.
  - inversion Hc as [|? ? Hx Hl]; inversion Ht as [|? ? Ha Hr]; subst. destruct (IH Hl Hr) as [G1 G2]. split.
    + constructor; [|exact G1]. destruct level as [|lv], x as [c|e]; try contradiction; cbn [item_question truthful] in Ha.
      * destruct Ha as [Ha|Ha]; [discriminate|injection Ha as Ha]. split; [symmetry; exact Ha|exact I].
      * destruct Ha as [Ha|Ha]; [discriminate|injection Ha as Ha]. destruct Hx as (H1 & H2 & H3). unfold node_scored in H3. rewrite <- Ha in H3.
        split; [|symmetry; exact Ha]. cbn. auto.
    + cbn [map snd flat_map]. rewrite !filter_app, G2. perm.
  - inversion Hc as [|? ? Hx Hl]; inversion Ht as [|? ? Ha Hr]; subst. destruct (IH Hl Hr) as [G1 G2]. split; [exact G1|].
    cbn [flat_map]. rewrite filter_app, G2. rewrite ranked_of_none; [reflexivity|]. intros e He.
    destruct level as [|lv], x as [c|e']; try contradiction; cbn [item_question truthful] in Ha; (destruct Ha as [Ha|Ha]; [discriminate|injection Ha as Ha]).
    + destruct He as [<-|[]]. now symmetry.
    + destruct Hx as (H1 & H2 & H3). unfold node_scored in H3. rewrite <- Ha in H3. auto.
  - split; [constructor|]. cbn [map flat_map app filter]. reflexivity.
Qed.

Lemma ok_bound (r : ranked) e : ok r -> In e (ranked_of (item_entries (snd r))) -> exists me, sk (fst e) = Some me /\ m_cmp (fst (fst r)) me <> Gt.
Proof.
  destruct r as [[m [|l]] [n|e']]; intros [H1 H2] Hin; cbn in H1; try contradiction; cbn [fst snd item_entries] in *.
  - apply filter_In in Hin as [[<-|[]] _]. exists m. split; [exact H1|]. intros E. assert (F := cmp_flip _ CL m m). rewrite E in F. discriminate.
  - destruct H1 as (_ & _ & Hb). apply filter_In in Hin as [Hin Hs]. unfold has_score in Hs. destruct (sk (fst e)) as [me|] eqn:Ee; [|discriminate].
    exists me. split; [reflexivity|]. eapply Hb; eassumption.
Qed.
Lemma frontier_bound (x : ranked) fr e : ok x -> Forall ok fr -> Forall (no_later m_cmp x) fr ->
  In e (ranked_of (flat_map item_entries (map snd (x :: fr)))) -> exists me, sk (fst e) = Some me /\ m_cmp (fst (fst x)) me <> Gt.
Proof.
  intros Hx Hfr Hl Hin. cbn [map flat_map] in Hin. rewrite filter_app in Hin. apply in_app_iff in Hin as [Hin|Hin]; [now apply ok_bound|].
  apply filter_In in Hin as [Hin Hs]. apply in_flat_map in Hin as (i & Hi & He). apply in_map_iff in Hi as (y & <- & Hy).
  rewrite Forall_forall in Hfr, Hl. specialize (Hfr y Hy). specialize (Hl y Hy).
  destruct (ok_bound y e Hfr) as (me & H1 & H2); [apply filter_In; auto|]. exists me. split; [exact H1|].
  unfold no_later in Hl. eapply (cmp_le_trans _ CL); [|exact H2]. destruct (m_cmp (fst (fst x)) (fst (fst y))); [discriminate|discriminate|contradiction].
Qed.

Lemma ranked_perm (a b : list ranked) : Permutation a b ->
  Permutation (ranked_of (flat_map item_entries (map snd a))) (ranked_of (flat_map item_entries (map snd b))).
Proof. intros H. apply filter_perm, Permutation_flat_map_, Permutation_map, H. Qed.

Lemma bf_lawful fr tr lost : bf fr tr lost -> Forall ok fr -> Forall truthful tr ->
  Permutation (ranked_of (flat_map item_entries (map snd fr))) (founds tr ++ ranked_of lost) /\
  ForallOrdPairs (rank_le m_cmp sk) (founds tr).
Proof.
  induction 1 as [|fr s e fr' tr lost Hp Hl _ IH|fr m level n fr' tr1 new lost1 tr lost Hp Hl Hr _ IH]; intros Hok Ht.
  - split; constructor.
  - assert (Hok' := Forall_perm _ _ _ Hp Hok). inversion Hok' as [|? ? Hx Hfr]; inversion Ht as [|? ? Ha Hr]; subst.
    destruct (IH Hfr Hr) as [G1 G2]. destruct s as [m [|l]]; [|destruct Hx as [[] _]]. split.
    + rewrite (ranked_perm _ _ Hp). cbn [map snd flat_map item_entries founds app]. cbn [filter]. destruct Hx as [Hx _]. cbn in Hx.
      unfold has_score at 1. rewrite Hx. cbn [app]. constructor. exact G1.
    + cbn [founds flat_map app]. constructor; [|exact G2]. apply Forall_forall. intros y Hy.
      destruct (frontier_bound ((m, 0), IEntry e) fr' y Hx Hfr Hl) as (me & H1 & H2).
      { cbn [map snd flat_map item_entries app]. cbn [filter]. assert (Hin : In y (ranked_of (flat_map item_entries (map snd fr')))) by (rewrite G1; apply in_or_app; now left).
        destruct (has_score e); [now right|exact Hin]. }
      unfold rank_le. destruct Hx as [Hx _]. cbn in Hx. now rewrite Hx, H1.
  - assert (Hok' := Forall_perm _ _ _ Hp Hok). inversion Hok' as [|? ? Hx Hfr]; subst. apply Forall_app in Ht as [Ht1 Ht2].
    destruct Hx as [Hx Hsb]. cbn in Hx. destruct Hx as (Hk & Hs & Hb).
    destruct (rank_all_lawful _ _ _ _ _ Hr (children_ok _ _ Hk Hs) Ht1) as [G1 G2].
    destruct (IH (proj2 (Forall_app _ _ _) (conj G1 Hfr)) Ht2) as [H1 H2].
    rewrite founds_app, (rank_all_founds _ _ _ _ _ Hr). cbn [app]. split; [|exact H2].
    rewrite (ranked_perm _ _ Hp). cbn [map snd flat_map item_entries]. rewrite <- children_entries, !filter_app, G2.
    rewrite map_app, flat_map_app, filter_app in H1. rewrite <- app_assoc, (Permutation_app_comm (ranked_of (flat_map item_entries lost1))), app_assoc, H1. perm.
Qed.

(** An entry is yielded only after nodes no farther than itself were opened. *)
Lemma bf_lazy fr tr lost : bf fr tr lost -> Forall ok fr -> Forall truthful tr ->
  forall t1 e t2, tr = t1 ++ Found e :: t2 ->
  exists opened me, sk (fst e) = Some me /\ multi_part opened (flat_map item_nodes (map snd fr)) /\
    Forall (fun n : node => exists mn, sb (node_bounds n) = Some mn /\ m_cmp mn me <> Gt) opened /\
    sublist (asked t1) (flat_map (fun n => map item_question (item_children n)) opened) /\
    (panicked_on t1 = [] -> asked t1 = flat_map (fun n => map item_question (item_children n)) opened).
Proof.
  induction 1 as [|fr s e0 fr' tr lost Hp Hl _ IH|fr m level n fr' tr1 new lost1 tr lost Hp Hl Hr HB IH]; intros Hok Ht t1 e t2 E.
  - destruct t1; discriminate.
  - assert (Hok' := Forall_perm _ _ _ Hp Hok). inversion Hok' as [|? ? Hx Hfr]; inversion Ht as [|? ? Ha Hr]; subst.
    destruct t1 as [|ev t1]; cbn in E; injection E as E1 E2.
    + subst e0. destruct s as [m [|l]]; [|destruct Hx as [[] _]]. destruct Hx as [Hx _]. cbn in Hx. exists [], m. split; [exact Hx|].
      split; [eexists; cbn [app]; reflexivity|]. split; [constructor|]. split; [constructor|reflexivity].
    + subst ev. destruct (IH Hfr Hr _ _ _ E2) as (opened & me & H1 & H2 & H3 & H4 & H5). exists opened, me. split; [exact H1|].
      split; [|auto]. eapply multi_part_perm; [reflexivity| |exact H2].
      rewrite (Permutation_flat_map_ item_nodes _ _ (Permutation_map snd Hp)). reflexivity.
  - assert (Hok' := Forall_perm _ _ _ Hp Hok). inversion Hok' as [|? ? Hx Hfr]; subst. apply Forall_app in Ht as [Ht1 Ht2].
    assert (Hx' := Hx). destruct Hx' as [Hx' Hsb]. cbn in Hx'. destruct Hx' as (Hk & Hs & Hb).
    destruct (rank_all_lawful _ _ _ _ _ Hr (children_ok _ _ Hk Hs) Ht1) as [G1 G2].
    assert (Hok2 := proj2 (Forall_app _ _ _) (conj G1 Hfr)).
    assert (Hsplit : exists t1', t1 = tr1 ++ t1' /\ tr = t1' ++ Found e :: t2).
    { assert (Hf := rank_all_founds _ _ _ _ _ Hr). clear -E Hf. revert t1 E; induction tr1 as [|ev tr1 IH]; intros t1 E; [exists t1; auto|].
      destruct t1 as [|ev' t1]; cbn in E; injection E as E1 E2.
      - subst ev. discriminate.
      - subst ev'. destruct (IH (proj2 (app_eq_nil _ _ Hf)) _ E2) as (t1' & -> & ->). exists t1'. auto. }
    destruct Hsplit as (t1' & -> & ->).
    destruct (IH Hok2 Ht2 _ _ _ eq_refl) as (opened & me & H1 & H2 & H3 & H4 & H5).
    exists (n :: opened), me. split; [exact H1|]. destruct (rank_all_asked _ _ _ _ _ Hr) as (r & Ea). splits.
    + eapply multi_part_perm; [reflexivity|symmetry; apply (Permutation_flat_map_ item_nodes _ _ (Permutation_map snd Hp))|].
      cbn [map snd flat_map item_nodes]. rewrite children_nodes. apply (multi_part_app [n] [n] _ _ (multi_part_refl _)).
      eapply multi_part_trans; [exact H2|]. rewrite map_app, flat_map_app. apply multi_part_app; [|apply multi_part_refl].
      apply multi_part_flat. destruct (rank_all_items _ _ _ _ _ Hr) as (q & Hq). exists (lost1 ++ q). now rewrite app_assoc.
    + constructor; [|exact H3]. exists m. split; [exact Hsb|].
      destruct (bf_lawful _ _ _ HB Hok2 Ht2) as [HP _].
      assert (Hin : In e (ranked_of (flat_map item_entries (map snd (((m, S level), INode n) :: fr'))))).
      { cbn [map snd flat_map item_entries]. rewrite <- children_entries, filter_app, G2.
        assert (Hin : In e (ranked_of (flat_map item_entries (map snd (new ++ fr'))))).
        { rewrite HP, founds_app. cbn [founds flat_map]. apply in_or_app. left. apply in_or_app. right. now left. }
        rewrite map_app, flat_map_app, filter_app in Hin. apply in_app_iff in Hin as [Hin|Hin].
        - apply in_or_app. left. apply in_or_app. now left.
        - apply in_or_app. now right. }
      destruct (frontier_bound _ _ _ Hx Hfr Hl Hin) as (me' & E1 & E2). rewrite H1 in E1. injection E1 as <-. exact E2.
    + rewrite asked_app. cbn [flat_map]. apply sublist_app; [|exact H4]. rewrite Ea. rewrite <- (app_nil_r (asked tr1)) at 1.
      apply sublist_app; [apply sublist_refl|apply sublist_nil].
    + rewrite panicked_app. intros H0. apply app_eq_nil in H0 as [H01 H02]. rewrite asked_app. cbn [flat_map]. rewrite (H5 H02). f_equal.
      clear -Hr H01. induction Hr; cbn in *; try congruence. all: f_equal; apply IHHr; exact H01.
Qed.
End Lawful.
