(** Ordered iterators with effectful rankings search best-first. *)
From Verif Require Export FxSortedSpec FxProof SortedProof SortedWitness.

(** *** Sessions that are traces *)
Section TraceSession.
Context {W E S A X : Type} (next : S -> W * list E -> res (outcome A * S * (W * list E))).
Context (Inv : S -> Prop) (R : S -> list E -> list X -> Prop) (spent : S -> Prop) (answ : E -> Prop).
Context (pan : list E -> nat) (fnd : list E -> list A).
Context (pan_app : forall a b, pan (a ++ b) = pan a + pan b) (fnd_app : forall a b, fnd (a ++ b) = fnd a ++ fnd b).
Context (pan_nil : pan [] = 0) (fnd_nil : fnd [] = []).
Context (Hspent : forall s, Inv s -> spent s -> R s [] [] /\ forall w lg, next s (w, lg) = Ok (Done, s, (w, lg))).
Context (cut : list E -> Prop) (cut_nil : cut []) (Hfinish : forall s, Inv s -> exists tr lost, R s tr lost /\ cut tr).
Context (Hnext : forall s w lg, Inv s -> exists o s' w' used, next s (w, lg) = Ok (o, s', (w', lg ++ used)) /\
  Inv s' /\ (o = Done -> spent s') /\ pan used = unwound [o] /\ fnd used = yields [o] /\ Forall answ used /\
  exists m, forall tr L, R s' tr L -> R s (used ++ tr) (m ++ L)).

Lemma tsession_spent gs s w lg : Inv s -> spent s -> exists w', session next gs s w lg = Ok (repeat Done (length gs), s, w', lg).
Proof.
  intros HI Hs. revert w; induction gs as [|g gs IH]; intros w; cbn [session]; [eauto|].
  destruct (Hspent s HI Hs) as [_ ->]. cbn [bind]. destruct (IH (g w)) as (w' & ->). cbn. eauto.
Qed.

Lemma unwound_done (n : nat) : unwound (repeat (@Done A) n) = 0.
Proof. unfold unwound. induction n; cbn; auto. Qed.
Lemma yields_done n : yields (repeat (@Done A) n) = [].
Proof. unfold yields. induction n; cbn; auto. Qed.
Lemma yields_cons (o : outcome A) os : yields (o :: os) = yields [o] ++ yields os.
Proof. unfold yields. cbn. now rewrite app_nil_r. Qed.
Lemma unwound_cons (o : outcome A) os : unwound (o :: os) = unwound [o] + unwound os.
Proof. unfold unwound. cbn. destruct o; reflexivity. Qed.

Lemma tsession_spec gs s w lg : Inv s ->
  exists os s' w' used, session next gs s w lg = Ok (os, s', w', lg ++ used) /\
    Inv s' /\ length os = length gs /\ fused os /\ (In Done os -> spent s') /\ pan used = unwound os /\ fnd used = yields os /\
    Forall answ used /\ exists m, forall tr L, R s' tr L -> R s (used ++ tr) (m ++ L).
Proof.
  revert s w lg; induction gs as [|g gs IH]; intros s w lg HI; cbn [session].
  - exists [], s, w, []. rewrite app_nil_r. splits; auto; [exists [], 0; auto|intros []|exists []; auto].
  - destruct (Hnext s (g w) lg HI) as (o & s1 & w1 & used1 & -> & HI1 & Hd1 & Hp1 & Hf1 & Ha1 & m1 & Hm1). cbn [bind].
    assert (Ho : o = Done \/ o <> Done) by (destruct o; auto; right; discriminate). destruct Ho as [-> | Ho].
    + destruct (tsession_spent gs s1 w1 (lg ++ used1) HI1 (Hd1 eq_refl)) as (w2 & ->). cbn [bind].
      exists (Done :: repeat Done (length gs)), s1, w2, used1. splits; auto.
      * cbn. now rewrite repeat_length.
      * exists [], (Datatypes.S (length gs)). split; [reflexivity|intros []].
      * rewrite Hp1, (unwound_cons Done (repeat Done _)), unwound_done. reflexivity.
      * rewrite Hf1, (yields_cons Done (repeat Done _)), yields_done. reflexivity.
      * eauto.
    + destruct (IH s1 w1 (lg ++ used1) HI1) as (os & s' & w' & used & -> & HI' & Hl & (os1 & k & Eo & Hk) & Hd & Hp & Hf & Ha & m & Hm). cbn [bind].
      exists (o :: os), s', w', (used1 ++ used). rewrite app_assoc. splits; auto.
      * cbn. now f_equal.
      * exists (o :: os1), k. split; [cbn; now f_equal|]. intros [H|H]; [congruence|auto].
      * intros [H|H]; [congruence|auto].
      * rewrite pan_app, unwound_cons. congruence.
      * rewrite fnd_app, yields_cons. congruence.
      * now apply Forall_app.
      * exists (m1 ++ m). intros tr L He. rewrite <- !app_assoc. auto.
Qed.

Lemma tsession_runs gs s w lg : Inv s ->
  exists os s' w' used rest lost, session next gs s w lg = Ok (os, s', w', lg ++ used) /\
    length os = length gs /\ fused os /\ unwound os = pan used /\ yields os = fnd used /\ Forall answ used /\
    R s (used ++ rest) lost /\ cut rest /\ (In Done os -> rest = []).
Proof.
  intros HI. destruct (tsession_spec gs s w lg HI) as (os & s' & w' & used & E1 & HI' & Hl & Hf & Hd & Hp & Hy & Ha & m & Hm).
  assert (Hdone : In Done os \/ ~ In Done os).
  { clear. induction os as [|[a| |] os IH]; [right; intros []| |left; now left|]; (destruct IH as [IH|IH]; [left; now right|right; intros [H|H]; [discriminate|auto]]). }
  destruct Hdone as [H|H].
  - destruct (Hspent s' HI' (Hd H)) as [Ht _]. exists os, s', w', used, [], (m ++ []). splits; auto.
  - destruct (Hfinish s' HI') as (tr & L & HL & Hc). exists os, s', w', used, tr, (m ++ L). splits; auto; contradiction.
Qed.
End TraceSession.

Section FxSortedProof.
Context {W B K V M : Type} (m_cmp : M -> M -> comparison) (CL : cmp_laws m_cmp).
Context (PQ : PQueue (ranked B K V M)) (QL : pqueue_laws (ranked_cmp m_cmp) PQ) (f : FxRanking W B K M).
Notation node := (node B K V).
Notation item := (item B K V).
Notation ranked := (ranked B K V M).
Notation event := (event B K V M).
Notation bf := (@best_first B K V M m_cmp).
Notation weight h := (list_sum (map (@ranked_weight B K V M) (h_items PQ h))).

Lemma no_later_cmp (x y : ranked) : no_later m_cmp x y <-> ranked_cmp m_cmp x y <> Gt.
Proof.
  destruct x as [[mx lx] ix], y as [[my ly] iy]. unfold no_later, ranked_cmp, score_cmp. cbn [fst snd].
  destruct (m_cmp mx my); [|split; [discriminate|tauto]|split; [tauto|congruence]].
  now rewrite Nat.compare_le_iff.
Qed.

Lemma bf_perm fr fr' tr lost : Permutation fr fr' -> bf fr tr lost -> bf fr' tr lost.
Proof.
  intros Hp H. destruct H.
  - apply Permutation_nil in Hp as ->. constructor.
  - eapply bf_found; [|eassumption|eassumption]. now rewrite <- Hp.
  - eapply bf_open; [|eassumption|eassumption|eassumption]. now rewrite <- Hp.
Qed.

Lemma least_exists (x : ranked) l : exists y l', Permutation (x :: l) (y :: l') /\ Forall (no_later m_cmp y) l'.
Proof.
  assert (RL := ranked_cmp_laws (B := B) (K := K) (V := V) m_cmp CL).
  revert x; induction l as [|z l IH]; intros x; [exists x, []; split; [reflexivity|constructor]|].
  destruct (IH z) as (y & l' & Hp & Hy).
  assert (Ht : no_later m_cmp x y \/ no_later m_cmp y x).
  { rewrite !no_later_cmp. rewrite (cmp_flip _ RL x y). destruct (ranked_cmp m_cmp x y); cbn; (left; congruence) || (right; congruence). }
  destruct Ht as [Ht|Ht].
  - exists x, (y :: l'). split; [now rewrite Hp|]. constructor; [exact Ht|]. eapply Forall_impl; [|exact Hy].
    intros u Hu. rewrite no_later_cmp in *. eapply (cmp_le_trans _ RL); eassumption.
  - exists y, (x :: l'). split; [rewrite Hp; apply perm_swap|]. now constructor.
Qed.

Definition kinded_item (r : ranked) : Prop :=
  match r with ((_, 0), IEntry _) => True | ((_, S l), INode n) => kinded l n | _ => False end.

Lemma bf_finish (fr : list ranked) : Forall kinded_item fr -> exists tr lost, bf fr tr lost /\ cut_short tr.
Proof.
  remember (length fr) as n eqn:En. revert fr En. induction n as [|n IH]; intros fr En Hk.
  { destruct fr; [|discriminate]. exists [], []. split; constructor. }
  destruct fr as [|x fr]; [discriminate|]. destruct (least_exists x fr) as (y & l & Hp & Hy).
  assert (Hl := Permutation_length Hp). cbn in Hl, En.
  assert (Hk' := Forall_perm _ _ _ Hp Hk). inversion Hk' as [|? ? Hky Hkl]; subst.
  destruct (IH l) as (tr & lost & HB & Hcut); [lia|exact Hkl|].
  destruct y as [[m [|level]] [nd|e]]; cbn in Hky; try contradiction.
  - exists (Found e :: tr), lost. split; [eapply bf_found; eassumption|]. constructor; [exact I|exact Hcut].
  - destruct (item_children nd) as [|c cs] eqn:Ec.
    + exists ([] ++ tr), (flat_map (@item_entries B K V) [] ++ lost). split; [|exact Hcut]. refine (bf_open m_cmp _ _ _ _ _ [] [] [] _ _ Hp Hy _ HB). rewrite Ec. constructor.
    + exists ([Asked (item_question c) None] ++ tr), (flat_map item_entries (c :: cs) ++ lost). split; [|now constructor].
      refine (bf_open m_cmp _ _ _ _ _ _ [] _ _ _ Hp Hy _ HB). rewrite Ec. constructor.
Qed.

Definition bn (p : bool) : nat := if p then 1 else 0.
Definition npan (tr : list event) : nat := length (panicked_on tr).
Lemma npan_app a b : npan (a ++ b) = npan a + npan b.
Proof. unfold npan, panicked_on. now rewrite flat_map_app, app_length. Qed.
Lemma founds_app (a b : list event) : founds (a ++ b) = founds a ++ founds b.
Proof. apply flat_map_app. Qed.

Lemma fx_push_spec {T} (sc : W -> T -> option (option M) * W) (q : T -> fquestion B K) (wrap : T -> item) (wt : T -> nat) level
    (answ : event -> Prop) l h w (lg : list event) :
  (forall x, item_question (wrap x) = q x) -> (forall (m : M) x, ranked_weight ((m, level), wrap x) = wt x) ->
  (forall w x, answ (Asked (q x) (fst (sc w x)))) ->
  exists p h' w' used new lost,
    fx_push_all PQ (fun wl x => let (a, w) := sc (fst wl) x in (a, (w, snd wl ++ [Asked (q x) a]))) wrap level l h (w, lg)
      = (p, h', (w', lg ++ used)) /\
    rank_all level (map wrap l) used new lost /\ Permutation (h_items PQ h') (new ++ h_items PQ h) /\
    npan used = bn p /\ founds used = [] /\ Forall answ used /\
    weight h' <= list_sum (map wt l) + weight h /\
    (forall r, In r new -> exists m x, In x l /\ r = ((m, level), wrap x)).
Proof.
  intros Hq Hw Ha. revert h w lg; induction l as [|x l IH]; intros h w lg; cbn [fx_push_all map].
  - exists false, h, w, [], [], []. rewrite app_nil_r. splits; auto; [apply ra_nil|intros r []].
  - cbn [fst snd]. assert (Hx := Ha w x). destruct (sc w x) as [[[m|]|] w1]; cbn [fst] in Hx.
    + destruct (IH (h_push PQ ((m, level), wrap x) h) w1 (lg ++ [Asked (q x) (Some (Some m))])) as (p & h' & w' & used & new & lost & E1 & G1 & G2 & G3 & G4 & G5 & G6 & G7).
      exists p, h', w', (Asked (q x) (Some (Some m)) :: used), (((m, level), wrap x) :: new), lost. rewrite E1.
      splits; auto.
      * now rewrite <- app_assoc.
      * rewrite <- Hq. now constructor.
      * rewrite G2, (pq_push _ _ QL). perm.
      * rewrite (weight_pop _ _ _ _ (pq_push _ _ QL _ _)), Hw in G6. change (list_sum (wt x :: map wt l)) with (wt x + list_sum (map wt l)). lia.
      * intros r [<-|Hr]; [exists m, x; split; [now left|reflexivity]|]. destruct (G7 r Hr) as (m' & y & Hy & ->). exists m', y. split; [now right|reflexivity].
    + destruct (IH h w1 (lg ++ [Asked (q x) (Some None)])) as (p & h' & w' & used & new & lost & E1 & G1 & G2 & G3 & G4 & G5 & G6 & G7).
      exists p, h', w', (Asked (q x) (Some None) :: used), new, lost. rewrite E1. splits; auto.
      * now rewrite <- app_assoc.
      * rewrite <- Hq. now constructor.
      * change (list_sum (wt x :: map wt l)) with (wt x + list_sum (map wt l)). lia.
      * intros r Hr. destruct (G7 r Hr) as (m' & y & Hy & ->). exists m', y. split; [now right|reflexivity].
    + exists true, h, w1, [Asked (q x) None], [], (map wrap (x :: l)). splits; auto.
      * rewrite <- Hq. cbn [map]. constructor.
      * change (list_sum (wt x :: map wt l)) with (wt x + list_sum (map wt l)). lia.
      * intros r [].
Qed.

Definition heap_kinded (h : heap PQ) : Prop := Forall kinded_item (h_items PQ h).
Notation answ := (@r_answered W B K V M f).

Lemma fx_sorted_loop_spec fuel h w (lg : list event) : heap_kinded h -> weight h <= fuel ->
  exists o h' w' used, fx_sorted_loop PQ (rlogged f) fuel h (w, lg) = Ok (o, h', (w', lg ++ used)) /\
    heap_kinded h' /\ (o = Done -> h_pop PQ h' = None) /\ npan used = unwound [o] /\ founds used = [] /\ Forall answ used /\
    exists m, forall tr L, bf (h_items PQ h') tr L -> bf (h_items PQ h) (used ++ map Found (yields [o]) ++ tr) (m ++ L).
Proof.
  revert h w lg; induction fuel as [|fuel IH]; intros h w lg Hok Hw; cbn [fx_sorted_loop].
  - destruct (h_pop PQ h) as [[[[m level] value] h1]|] eqn:Ep.
    + exfalso. apply (pq_pop_some _ _ QL) in Ep as [Hp _].
      assert (Hw' := weight_pop _ _ _ _ Hp). assert (Hp0 := weight_pos ((m, level), value)). lia.
    + exists Done, h, w, []. rewrite app_nil_r. splits; auto. exists []. cbn. auto.
  - destruct (h_pop PQ h) as [[[[m level] value] h1]|] eqn:Ep.
    2: { exists Done, h, w, []. rewrite app_nil_r. splits; auto. exists []. cbn. auto. }
    apply (pq_pop_some _ _ QL) in Ep as [Hp Hmin].
    assert (Hw' := weight_pop _ _ _ _ Hp).
    assert (Hmin' : Forall (no_later m_cmp ((m, level), value)) (h_items PQ h1)).
    { apply Forall_forall. intros y Hy. apply no_later_cmp. auto. }
    assert (Hok' := Forall_perm _ _ _ Hp Hok). inversion Hok' as [|? ? Hi Hok1]; subst.
    assert (Hstep : forall l x q (sc : W -> x -> _) wrap wt ys (n : node),
       value = INode n -> level = S l -> item_children n = map wrap ys ->
       (forall x, item_question (wrap x) = q x) -> (forall (m : M) x, ranked_weight ((m, l), wrap x) = wt x) ->
       (forall w x, answ (Asked (q x) (fst (sc w x)))) -> (forall (m : M) y, In y ys -> kinded_item ((m, l), wrap y)) ->
       list_sum (map wt ys) + weight h1 <= fuel ->
       exists o h' w' used,
         (let '(panicked, h, w) := fx_push_all PQ (fun wl x => let (a, w) := sc (fst wl) x in (a, (w, snd wl ++ [Asked (q x) a]))) wrap l ys h1 (w, lg) in
          if panicked then Ok (Panicked, h, w) else fx_sorted_loop PQ (rlogged f) fuel h w) = Ok (o, h', (w', lg ++ used)) /\
         heap_kinded h' /\ (o = Done -> h_pop PQ h' = None) /\ npan used = unwound [o] /\ founds used = [] /\ Forall answ used /\
         exists m, forall tr L, bf (h_items PQ h') tr L -> bf (h_items PQ h) (used ++ map Found (yields [o]) ++ tr) (m ++ L)).
    { intros l x q sc wrap wt ys n -> -> Hc Hq Hwt Ha Hkn Hfuel.
      destruct (fx_push_spec sc q wrap wt l answ ys h1 w lg Hq Hwt Ha) as (p & h2 & w2 & used1 & new & lost & -> & G1 & G2 & G3 & G4 & G5 & G6 & G7).
      assert (Hok2 : heap_kinded h2).
      { unfold heap_kinded. apply (Forall_perm _ _ _ (Permutation_sym G2)). apply Forall_app. split; [|exact Hok1].
        apply Forall_forall. intros r Hr. destruct (G7 r Hr) as (m' & y & Hy & ->). auto. }
      assert (Hopen : forall tr L, bf (h_items PQ h2) tr L -> bf (h_items PQ h) (used1 ++ tr) (flat_map item_entries lost ++ L)).
      { intros tr L HB. eapply bf_open; [exact Hp|exact Hmin'|rewrite Hc; exact G1|]. eapply bf_perm; [exact G2|exact HB]. }
      destruct p.
      - exists Panicked, h2, w2, used1. splits; auto; [discriminate|]. exists (flat_map item_entries lost). intros tr L HB. cbn [yields flat_map map app]. auto.
      - destruct (IH h2 w2 (lg ++ used1) Hok2) as (o & h' & w' & used & E & H1 & H2 & H3 & H4 & H5 & m' & H6); [lia|].
        exists o, h', w', (used1 ++ used). rewrite E. splits; auto.
        + now rewrite <- app_assoc.
        + rewrite npan_app, G3, H3. reflexivity.
        + rewrite founds_app, G4, H4. reflexivity.
        + now apply Forall_app.
        + exists (flat_map item_entries lost ++ m'). intros tr L HB. rewrite <- !app_assoc. auto. }
    destruct level as [|[|l]]; cbn in Hi.
    + destruct value as [|e]; [contradiction|]. cbn [item_entry bind]. exists (Yield e), h1, w, []. rewrite app_nil_r.
      splits; auto; [discriminate|]. exists []. intros tr L HB. cbn [yields flat_map map app]. eapply bf_found; eassumption.
    + destruct value as [n|]; [|contradiction]. destruct n as [b [cs|es]]; [contradiction|].
      cbn [item_node node_children read_leaf bind].
      apply (Hstep 0 _ (fun e => QKey (fst e)) (fun w e => fxr_key f w (fst e)) IEntry (fun _ => 1) es (Node b (CLeaf es))); auto.
      * intros w0 x. cbn. eauto.
      * rewrite list_sum_ones. cbn [ranked_weight snd item_weight] in Hw'. lia.
    + destruct value as [n|]; [|contradiction]. destruct n as [b [cs|es]]; [|contradiction].
      cbn [item_node node_children read_inner bind].
      apply (Hstep (S l) _ (fun c => QBounds (node_bounds c)) (fun w c => fxr_bounds f w (node_bounds c)) INode (@item_weight B K V) cs (Node b (CInner cs))); auto.
      * intros w0 x. cbn. eauto.
      * intros m0 y Hy. cbn [kinded node_children] in Hi. rewrite Forall_forall in Hi. cbn. auto.
      * cbn [ranked_weight snd item_weight] in Hw'. lia.
Qed.

Lemma fx_sorted_sessions h gs w (lg : list event) : heap_kinded h ->
  exists os h' w' used rest lost,
    session (traced (fx_sorted_next PQ (rlogged f))) gs h w lg = Ok (os, h', w', lg ++ used) /\
    length os = length gs /\ fused os /\ unwound os = npan used /\ yields os = founds used /\ Forall answ used /\
    bf (h_items PQ h) (used ++ rest) lost /\ cut_short rest /\ (In Done os -> rest = []).
Proof.
  apply (tsession_runs (traced (fx_sorted_next PQ (rlogged f))) heap_kinded (fun h => bf (h_items PQ h)) (fun h => h_pop PQ h = None) answ npan founds npan_app founds_app eq_refl eq_refl) with (cut := cut_short).
  - intros s Hs Hp. split; [rewrite (pq_pop_none _ _ QL _ Hp); constructor|]. intros w0 lg0. unfold traced, fx_sorted_next.
    destruct (list_sum _); cbn [fx_sorted_loop]; rewrite Hp; cbn [bind]; now rewrite app_nil_r.
  - constructor.
  - intros s Hs. apply bf_finish. exact Hs.
  - intros s w0 lg0 Hs. destruct (fx_sorted_loop_spec _ s w0 lg0 Hs (Nat.le_refl _)) as (o & h' & w' & used & E & H1 & H2 & H3 & H4 & H5 & m & H6).
    exists o, h', w', (used ++ map Found (yields [o])). unfold traced, fx_sorted_next. rewrite E. cbn [bind]. splits; auto.
    + rewrite <- app_assoc. destruct o; reflexivity.
    + rewrite npan_app, H3. destruct o; reflexivity.
    + rewrite founds_app, H4. destruct o; reflexivity.
    + apply Forall_app. split; [exact H5|]. destruct o; cbn; repeat constructor.
    + exists m. intros tr L HB. rewrite <- app_assoc. auto.
Qed.
End FxSortedProof.
