(** Ordered search with a ranking that panics on some questions, but not on those the search asks. *)
From Verif Require Export SearchSpec FxSortedLaw DistProof PropSorted PropBest PropDist.

Lemma session_app {W L S A : Type} (next : S -> W * L -> res (outcome A * S * (W * L))) gs1 gs2 s w lg :
  session next (gs1 ++ gs2) s w lg =
  let* (os1, s, w, lg) := session next gs1 s w lg in
  let* (os2, s, w, lg) := session next gs2 s w lg in
  Ok (os1 ++ os2, s, w, lg).
Proof.
  revert s w lg; induction gs1 as [|g gs1 IH]; intros s w lg; cbn [app session].
  - cbn [bind]. destruct (session next gs2 s w lg) as [[[[? ?] ?] ?]| | |]; reflexivity.
  - destruct (next s (g w, lg)) as [[[o s1] [w1 lg1]]| | |]; cbn [bind]; try reflexivity.
    rewrite IH. destruct (session next gs1 s1 w1 lg1) as [[[[os1 s2] w2] lg2]| | |]; cbn [bind]; try reflexivity.
    destruct (session next gs2 s2 w2 lg2) as [[[[? ?] ?] ?]| | |]; reflexivity.
Qed.

Lemma session_length {W L S A : Type} (next : S -> W * L -> res (outcome A * S * (W * L))) gs s w lg os s' w' lg' :
  session next gs s w lg = Ok (os, s', w', lg') -> length os = length gs.
Proof.
  revert s w lg os; induction gs as [|g gs IH]; intros s w lg os; cbn [session].
  - now intros [= <- _ _ _].
  - destruct (next s (g w, lg)) as [[[o s1] [w1 lg1]]| | |]; cbn [bind]; try discriminate.
    destruct (session next gs s1 w1 lg1) as [[[[os1 s2] w2] lg2]| | |] eqn:E; cbn [bind]; try discriminate.
    intros [= <- -> -> ->]. cbn. f_equal. eapply IH, E.
Qed.

Lemma fused_shape {A} (os : list (outcome A)) : fused os -> unwound os = 0 ->
  os = map (fun a => Yield a) (yields os) ++ repeat Done (length os - length (yields os)) /\ length (yields os) <= length os.
Proof.
  intros (os1 & k & -> & Hn) Hu.
  assert (Hu1 : unwound os1 = 0) by (unfold unwound in *; rewrite filter_app, app_length in Hu; lia).
  assert (Hy : yields (os1 ++ repeat Done k) = yields os1).
  { unfold yields. rewrite flat_map_app. assert (E : flat_map (fun o : outcome A => match o with Yield a => [a] | _ => [] end) (repeat Done k) = []) by (clear; induction k; auto).
    now rewrite E, app_nil_r. }
  assert (H1 : os1 = map (fun a => Yield a) (yields os1)).
  { clear -Hn Hu1. induction os1 as [|o os1 IH]; [reflexivity|]. destruct o as [a| |].
    - cbn [yields flat_map app map]. f_equal. apply IH; [|exact Hu1]. intros H. apply Hn. now right.
    - elim Hn. now left.
    - discriminate Hu1. }
  rewrite Hy. assert (HL : length os1 = length (yields os1)) by (rewrite H1 at 1; apply map_length).
  rewrite app_length, repeat_length. split; [|lia]. rewrite H1 at 1. f_equal. f_equal. lia.
Qed.

Lemma firstn_repeat_ {A} (x : A) n k : firstn n (repeat x k) = repeat x (Nat.min n k).
Proof. revert k; induction n as [|n IH]; intros [|k]; cbn; auto. now rewrite IH. Qed.

Lemma multi_part_len {A} (a b : list A) : multi_part a b -> length a <= length b.
Proof. intros (r & H). apply Permutation_length in H. rewrite app_length in H. lia. Qed.
Lemma multi_part_in {A} (a b : list A) x : multi_part a b -> In x a -> In x b.
Proof. intros (r & H) Hx. apply (Permutation_in _ H), in_app_iff. now left. Qed.

Lemma nodes_of_at {B K V} (t : rtree B K V) level (n : node B K V) : kinded level n -> node_at t level n ->
  forall x, In x (nodes_of n) -> exists i, node_at t i x.
Proof.
  revert n; induction level as [|l IH]; intros [b [cs|es]] Hk Hat x Hx; cbn in Hk; try tauto.
  - cbn in Hx. destruct Hx as [<-|[]]. eauto.
  - cbn [nodes_of] in Hx. destruct Hx as [<-|Hx]; [eauto|]. apply in_flat_map in Hx as (c & Hc & Hx).
    rewrite Forall_forall in Hk. apply (IH c); [now apply Hk| |exact Hx]. eapply at_child; eassumption.
Qed.

Section Search.
Context {B K V M : Type} (P : Params B K) (cfg : config) (ok : K -> Prop) (incl : B -> B -> Prop)
  (m_cmp : M -> M -> comparison) (CL : cmp_laws m_cmp) (PQ : PQueue (ranked B K V M)) (QL : pqueue_laws (ranked_cmp m_cmp) PQ).
Context (qb : B -> res M) (qk : K -> res M).

(** The ranking that asks [qb] and [qk] and panics when they do. *)
Definition res_ranking : FxRanking unit B K M := {|
  fxr_bounds := fun w b => (rank_answer (qb b), w); fxr_key := fun w k => (rank_answer (qk k), w) |}.
Definition res_option (a : res M) : option M := match a with Ok m => Some m | _ => None end.
Definition opt_ranking : Ranking B K (option M) := {| bounds_min := fun b => res_option (qb b); rank_key := fun k => res_option (qk k) |}.
Notation f := res_ranking.
Notation r := opt_ranking.
Context (RL : opt_ranking_lawful P incl ok m_cmp r).

Lemma res_ranks : ranks_as f r.
Proof. split; intros w x; cbn; [destruct (qb x)|destruct (qk x)]; auto. Qed.

(** An entry that is yielded was ranked. *)
Lemma bf_ranked fr (tr : list (event B K V M)) lost : best_first m_cmp fr tr lost -> forall e : K * V, In e (founds tr) ->
  (exists s, In (s, IEntry e) fr) \/ exists m, In (Asked (V := V) (QKey (B := B) (fst e)) (Some (Some m))) tr.
Proof.
  induction 1 as [|fr s e0 fr' tr lost Hp Hn Hb IH|fr m level n fr' tr1 new lost1 tr lost Hp Hn Hr Hb IH]; intros e He.
  - destruct He.
  - cbn in He. destruct He as [<-|He].
    + left. exists s. apply (Permutation_in _ (Permutation_sym Hp)). now left.
    + destruct (IH e He) as [(s1 & H1)|(m & H1)]; [left|right].
      * exists s1. apply (Permutation_in _ (Permutation_sym Hp)). now right.
      * exists m. now right.
  - assert (Hf1 : founds tr1 = []) by (clear -Hr; induction Hr; auto).
    unfold founds in He. rewrite flat_map_app in He. fold (founds tr1) (founds tr) in He. rewrite Hf1 in He.
    destruct (IH e He) as [(s1 & H1)|(m1 & H1)].
    + apply in_app_iff in H1 as [H1|H1].
      * right. assert (G : exists m, In (Asked (V := V) (QKey (B := B) (fst e)) (Some (Some m))) tr1).
        { clear -Hr H1. induction Hr as [|x m l tr new lost Hr IH|x l tr new lost Hr IH|x l].
          - destruct H1.
          - destruct H1 as [E|H1].
            + injection E as _ ->. exists m. left. reflexivity.
            + destruct (IH H1) as (m1 & H2). exists m1. now right.
          - destruct (IH H1) as (m1 & H2). exists m1. now right.
          - destruct H1. }
        destruct G as (m1 & G). exists m1. apply in_app_iff. now left.
      * left. exists s1. apply (Permutation_in _ (Permutation_sym Hp)). now right.
    + right. exists m1. apply in_app_iff. now right.
Qed.

(** Nothing is yielded that the ranking panics on. *)
Lemma yields_ranked (t : rtree B K V) gs h os h' w' tr : reachable P cfg any_key t ->
  fx_sorted_new PQ f t tt = (Some h, tt) ->
  session (traced (fx_sorted_next PQ (rlogged f))) gs h tt [] = Ok (os, h', w', tr) ->
  forall e, In e (yields os) -> exists m, qk (fst e) = Ok m.
Proof.
  intros Hr E1 E2 e He.
  assert (H64 := C64_best_first unit B K V M P cfg m_cmp PQ f t tt gs CL QL Hr). cbv zeta in H64.
  unfold fx_sorted_new in E1. cbn [fxr_bounds res_ranking fst snd] in *.
  destruct (rank_answer (qb (node_bounds (snd t)))) as [a|] eqn:Ea; [|discriminate].
  destruct H64 as (h2 & os2 & h3 & w2 & tr2 & rest & lost & E4 & E5 & _ & _ & _ & Hy & HA & HB & Hcut & _).
  unfold fx_sorted_new in E4. cbn [fxr_bounds res_ranking fst snd] in E4. rewrite Ea, E1 in E4. injection E4 as ->.
  rewrite E2 in E5. injection E5 as <- <- <- <-. rewrite Hy in He.
  destruct (bf_ranked _ _ _ HB e) as [(s & Hs)|(m & Hm)].
  - rewrite founds_app. apply in_app_iff. now left.
  - destruct a as [m|]; cbn in Hs; [|destruct Hs]. destruct Hs as [Hs|[]]. discriminate.
  - apply in_app_iff in Hm as [Hm|Hm].
    + rewrite Forall_forall in HA. specialize (HA _ Hm). cbn in HA. destruct HA as (_ & Hq). unfold rank_answer in Hq.
      destruct (qk (fst e)) as [m1| | |] eqn:E; try discriminate. exists m1. reflexivity.
    + unfold cut_short in Hcut. rewrite Forall_forall in Hcut. specialize (Hcut _ Hm). discriminate.
Qed.

Context (t : rtree B K V) (Hr : reachable P cfg any_key t) (Hw : wf cfg ok (rel_cover P incl) 0 False (fst t) (snd t)).
Context (Hqb : forall i n, node_at t i n -> exists m, qb (node_bounds n) = Ok m).
Context (Hqk : forall e, In e (contents t) -> exists m, qk (fst e) = Ok m).

Lemma questions_answered q : In q (questions_below (snd t)) ->
  match q with QBounds b => exists m, qb b = Ok m | QKey k => exists m, qk k = Ok m end.
Proof.
  unfold questions_below. intros Hq. apply in_flat_map in Hq as (x & Hx & Hq).
  assert (Hk := wf_kinded _ _ _ _ _ _ _ Hw).
  destruct (nodes_of_at t (fst t) (snd t) Hk (at_root t) x Hx) as (i & Hat).
  apply in_map_iff in Hq as (c & <- & Hc). unfold item_children in Hc.
  assert (Hwx := node_at_wf cfg ok (rel_cover P incl) 0 False False t i x). 
  destruct x as [b [cs|es]]; cbn [node_children] in Hc; apply in_map_iff in Hc as (y & <- & Hy); cbn [item_question].
  - destruct i as [|i].
    + exfalso. assert (Hd := uniform_depth P cfg any_key t 0 _ Hr Hat). cbn in Hd. clear -Hd. firstorder discriminate.
    + apply (Hqb i y). eapply at_child; eassumption.
  - apply Hqk. apply (node_at_keys t i _ Hat). exact Hy.
Qed.

(** One session. *)
Lemma one_session gs h os h' w' tr :
  fx_sorted_new PQ f t tt = (Some h, tt) ->
  session (traced (fx_sorted_next PQ (rlogged f))) gs h tt [] = Ok (os, h', w', tr) ->
  unwound os = 0 /\ multi_part (yields os) (contents t) /\ ForallOrdPairs (rank_le m_cmp (fun k => res_option (qk k))) (yields os) /\
  (In Done os -> Permutation (yields os) (contents t)).
Proof.
  intros E1 E2. 
  destruct (start_lawful_wf P cfg ok incl m_cmp r PQ f t tt gs h tt os h' w' tr CL QL RL res_ranks Hr Hw E1 E2)
    as (rest & lost & HB & Hd & HT & Hu & Hy & Hp & Hn & Hok).
  destruct (bf_lawful m_cmp CL _ _ _ _ _ HB Hok HT) as [H1 H2]. rewrite founds_app in H1, H2.
  destruct (C64_each_once B K V M m_cmp _ t _ _ HB) as (Hm & Hq & Hno).
  assert (Hpan : panicked_on tr = []).
  { assert (H64 := C64_best_first unit B K V M P cfg m_cmp PQ f t tt gs CL QL Hr). cbv zeta in H64.
    unfold fx_sorted_new in E1. cbn [fxr_bounds res_ranking fst snd] in *.
    destruct (rank_answer (qb (node_bounds (snd t)))) as [a|] eqn:Ea; [|discriminate].
    destruct H64 as (h2 & os2 & h3 & w2 & tr2 & rest2 & lost2 & E4 & E5 & _ & _ & _ & _ & HA & _ & _ & _).
    unfold fx_sorted_new in E4. cbn [fxr_bounds res_ranking fst snd] in E4. rewrite Ea, E1 in E4. injection E4 as ->.
    rewrite E2 in E5. injection E5 as <- <- <- <-.
    assert (HQ : forall q, In q (asked tr) -> In q (questions_below (snd t))).
    { intros q Hin. apply (multi_part_in _ _ _ Hq). unfold asked. rewrite flat_map_app. apply in_app_iff. now left. }
    clear -HA HQ Hqb Hqk Hr Hw. induction tr as [|ev tr IH]; [reflexivity|]. inversion HA as [|? ? Hev HA']; subst.
    unfold panicked_on in *. cbn [flat_map]. rewrite (IH HA') by (intros q Hin; apply HQ; unfold asked in *; cbn; apply in_app_iff; now right).
    rewrite app_nil_r. destruct ev as [q [a|]|e]; try reflexivity. exfalso.
    assert (Hin : In q (asked (Asked q None :: tr))) by (cbn; now left).
    apply HQ, questions_answered in Hin. destruct q as [b|k]; cbn in Hev, Hin; destruct Hev as (_ & Hev), Hin as (m & Hin); rewrite Hin in Hev; discriminate. }
  rewrite Hy. split; [rewrite Hu, Hpan; reflexivity|]. split; [|split].
  - eapply multi_part_trans; [|exact Hm]. exists (founds rest ++ lost). rewrite founds_app, <- app_assoc. reflexivity.
  - clear -H2. induction (founds tr) as [|x l IH]; [constructor|]. cbn in H2. inversion H2 as [|? ? Hx Hl]; subst. apply Forall_app in Hx as [Hx _].
    constructor; [exact Hx|auto].
  - intros HD. rewrite (Hd HD) in *. rewrite app_nil_r in *. rewrite (bf_no_panic _ _ _ _ HB Hpan) in *. rewrite H1 in Hp. cbn [filter] in Hp. rewrite app_nil_r in Hp.
    rewrite Hp. assert (Ef : filter (has_score (rank_key r)) (contents t) = contents t); [|now rewrite Ef].
    assert (HF : Forall (fun e => has_score (rank_key r) e = true) (contents t)).
    { apply Forall_forall. intros e He. destruct (Hqk e He) as (m & E). unfold has_score. cbn. rewrite E. reflexivity. }
    clear -HF. induction HF as [|x l Hx Hl IH]; cbn [filter]; [reflexivity|]. now rewrite Hx, IH.
Qed.

(** All sessions are prefixes of one ascending enumeration of the contents. *)
Lemma search_exact : exists h l, fx_sorted_new PQ f t tt = (Some h, tt) /\ Permutation l (contents t) /\
  ForallOrdPairs (rank_le m_cmp (fun k => res_option (qk k))) l /\
  forall n, exists h' tr, session (traced (fx_sorted_next PQ (rlogged f))) (repeat (fun w => w) n) h tt []
    = Ok (map (fun e => Yield e) (firstn n l) ++ repeat Done (n - length l), h', tt, tr).
Proof.
  assert (H64 := fun gs => C64_best_first unit B K V M P cfg m_cmp PQ f t tt gs CL QL Hr). cbv zeta in H64.
  destruct (Hqb _ _ (at_root t)) as (m0 & Em0).
  assert (exists h, fx_sorted_new PQ f t tt = (Some h, tt)) as (h & Eh).
  { unfold fx_sorted_new. cbn [fxr_bounds res_ranking]. rewrite Em0. cbn. eauto. }
  set (L := length (contents t)).
  assert (HS : forall n, exists os h' tr, session (traced (fx_sorted_next PQ (rlogged f))) (repeat (fun w => w) n) h tt [] = Ok (os, h', tt, tr) /\
    length os = n /\ os = map (fun a => Yield a) (yields os) ++ repeat Done (n - length (yields os)) /\ length (yields os) <= n /\
    multi_part (yields os) (contents t) /\ ForallOrdPairs (rank_le m_cmp (fun k => res_option (qk k))) (yields os) /\
    (L < n -> Permutation (yields os) (contents t))).
  { intros n. specialize (H64 (repeat (fun w => w) n)). cbn [fxr_bounds res_ranking fst snd] in H64. rewrite Em0 in H64. cbn [rank_answer] in H64.
    destruct H64 as (h2 & os & h' & w' & tr & rest & lost & E4 & E5 & Hlen & Hf & _).
    cbn [fxr_bounds res_ranking fst snd] in E4. rewrite Eh in E4. injection E4 as <-.
    destruct (one_session _ _ _ _ _ _ Eh E5) as (Hu & Hm & Ho & Hd). destruct (fused_shape os Hf Hu) as [Hs Hle].
    rewrite repeat_length in Hlen. exists os, h', tr. rewrite Hlen in *. destruct w'. split; [exact E5|]. split; [reflexivity|]. split; [exact Hs|].
    split; [exact Hle|]. split; [exact Hm|]. split; [exact Ho|]. intros HL. apply Hd. rewrite Hs.
    apply multi_part_len in Hm. fold L in Hm. apply in_app_iff. right. destruct (n - length (yields os)) eqn:E; [lia|]. now left. }
  destruct (HS (S L)) as (osL & hL & trL & EL & HlenL & HsL & HleL & HmL & HoL & HpL).
  specialize (HpL ltac:(lia)). set (l := yields osL) in *. assert (Hll : length l = L) by exact (Permutation_length HpL).
  exists h, l. split; [exact Eh|]. split; [exact HpL|]. split; [exact HoL|]. intros n.
  destruct (HS n) as (os & h' & tr & E & Hlen & Hs & Hle & Hm & Ho & Hp).
  exists h', tr. rewrite E. do 3 f_equal. f_equal.
  assert (Hpre : forall a b osa osb ha hb tra trb, a <= b ->
    session (traced (fx_sorted_next PQ (rlogged f))) (repeat (fun w => w) a) h tt [] = Ok (osa, ha, tt, tra) ->
    session (traced (fx_sorted_next PQ (rlogged f))) (repeat (fun w => w) b) h tt [] = Ok (osb, hb, tt, trb) -> osa = firstn a osb).
  { intros a b osa osb ha hb tra trb Hab Ea Eb. replace b with (a + (b - a)) in Eb by lia. rewrite repeat_app, session_app, Ea in Eb. cbn [bind] in Eb.
    destruct (session _ (repeat _ (b - a)) ha tt tra) as [[[[os2 ?] ?] ?]| | |]; cbn [bind] in Eb; try discriminate. injection Eb as <- _ _ _.
    apply session_length in Ea. rewrite repeat_length in Ea. rewrite <- Ea at 1. rewrite firstn_app, firstn_all, Nat.sub_diag. cbn [firstn]. now rewrite app_nil_r. }
  destruct (Nat.le_gt_cases n (S L)) as [Hn|Hn].
  - rewrite (Hpre _ _ _ _ _ _ _ _ Hn E EL), HsL. rewrite firstn_app, firstn_map, map_length, Hll. f_equal.
    rewrite firstn_repeat_. f_equal. lia.
  - assert (HpL2 : osL = firstn (S L) os) by (exact (Hpre _ _ _ _ _ _ _ _ (Nat.lt_le_incl _ _ Hn) EL E)).
    specialize (Hp ltac:(lia)). assert (Hlo : length (yields os) = L) by exact (Permutation_length Hp).
    assert (Hl2 : l = yields os).
    { assert (Hy : map (fun a => Yield a) l = map (fun a => Yield a) (yields os)).
      { rewrite Hs in HpL2. rewrite firstn_app, firstn_map, map_length, Hlo, (firstn_all2 (n := S L) (yields os)) in HpL2 by lia.
        rewrite HsL in HpL2. apply (f_equal (firstn L)) in HpL2.
        rewrite !firstn_app, !firstn_map, !map_length, Hll, Hlo, Nat.sub_diag in HpL2. cbn [firstn] in HpL2. rewrite !app_nil_r in HpL2.
        rewrite (firstn_all2 (n := L) l), (firstn_all2 (n := L) (yields os)) in HpL2 by lia. exact HpL2. }
      clear -Hy. revert Hy. generalize (yields os). induction l as [|x l IH]; intros [|y m]; cbn; try discriminate; [reflexivity|].
      intros [= -> H]. f_equal. now apply IH. }
    rewrite Hs, <- Hl2. f_equal. f_equal. rewrite firstn_all2 by lia. reflexivity.
Qed.
End Search.

(** *** Distances *)
Local Open Scope Z_scope.
Section Distances.
Context {N V : Type} (S : ScalarOps N) (A : ArithOps N) (val : N -> Z) (lo hi : Z) (L : int_laws S A val lo hi) (C : CheckedOps N).
Context {D : nat} {K : Type} (P : Params (saabb N (Datatypes.S D)) K) (cfg : config).
Notation B := (saabb N (Datatypes.S D)).
Context (HB : bops P = box_bounds_ops S).
Context (PQ : PQueue (ranked B K V N)) (QL : pqueue_laws (ranked_cmp (int_cmp val)) PQ).
Context (t : rtree B K V) (Hmin : (1 <= min_children cfg)%nat) (Hr : reachable P cfg any_key t) (Hne : contents t <> []).
Context (p : svec N (Datatypes.S D)) (qk : K -> res N) (dist : K -> Z).
Context (Hk : forall e, In e (contents t) -> exists r, qk (fst e) = Ok r /\ val r = dist (fst e)).
Context (Hb : forall b e, In e (contents t) -> box_incl S b (key_bounds P (fst e)) ->
  exists r, box_dist_sq_checked S C b p = Ok r /\ val r <= dist (fst e)).

Lemma node_nonempty i n : node_at t i n -> exists e, In e (entries n).
Proof.
  intros Hat. assert (Hn := inv_nonempty P cfg any_key t Hmin Hr).
  destruct (node_at_wf cfg any_key rel_any 1 True False t i n Hn Hat) as (Hw & Hle & Hf).
  assert (Hent : (1 <= length (entries n))%nat).
  { destruct (Nat.eq_dec i (fst t)) as [->|Hi].
    - destruct (node_at_root_or_below t (fst t) n Hat) as [[E _]|E].
      + subst n. unfold contents in Hne. destruct (entries (snd t)); [congruence|cbn; lia].
      + lia.
    - eapply (entries_nonempty cfg any_key rel_any 1 True); [exact Logic.I|lia|exact Hw|].
      specialize (Hf ltac:(lia) Logic.I). unfold lo_at in Hf. destruct i; lia. }
  destruct (entries n) as [|e es]; [cbn in Hent; lia|]. exists e. now left.
Qed.

Lemma distance_search : exists l, Permutation l (contents t) /\ ForallOrdPairs (fun x y => dist (fst x) <= dist (fst y)) l /\
  searches_without_panic PQ (res_ranking (fun b => box_dist_sq_checked S C b p) qk) t l.
Proof.
  assert (HL := int_scalar_laws S A val lo hi L).
  assert (BL : bounds_laws (bops P) (box_incl S)) by (rewrite HB; apply (box_bounds_laws S HL)).
  set (stored := fun k => exists e, In e (contents t) /\ fst e = k).
  assert (Hw : wf cfg stored (rel_cover P (box_incl S)) 0%nat False (fst t) (snd t)).
  { eapply wf_ok_in; [apply (inv_cover P cfg any_key (box_incl S) t BL Hr)|]. intros k Hin.
    unfold keys in Hin. apply in_map_iff in Hin as (e & <- & He). exists e. auto. }
  assert (RL : opt_ranking_lawful P (box_incl S) stored (int_cmp val) (opt_ranking (fun b => box_dist_sq_checked S C b p) qk)).
  { intros b k m (e & He & <-) Hi Hm. cbn in *. destruct (Hb b e He Hi) as (r & E & Hle). destruct (Hk e He) as (r' & E' & Hr').
    rewrite E' in Hm. injection Hm as <-. rewrite E. exists r. split; [reflexivity|]. unfold int_cmp. rewrite Z.compare_gt_iff. lia. }
  destruct (search_exact P cfg stored (box_incl S) (int_cmp val) (int_cmp_laws val) PQ QL _ _ RL t Hr Hw) as (h & l & E & Hp & Ho & Hs).
  - intros i n Hat. destruct (node_nonempty i n Hat) as ([k v] & He).
    assert (Hc := bvh_cover P cfg any_key (box_incl S) t i n BL Hr Hat k v He).
    destruct (Hb (node_bounds n) (k, v) (node_at_keys t i n Hat _ He) Hc) as (r & Er & _). eauto.
  - intros e He. destruct (Hk e He) as (r & Er & _). eauto.
  - exists l. split; [exact Hp|]. split; [|exists h; auto].
    assert (Hin : forall e, In e l -> In e (contents t)) by (intros e He; apply (Permutation_in _ Hp He)).
    clear -Ho Hin Hk. induction Ho as [|x l Hx _ IH]; constructor.
    + rewrite Forall_forall in *. intros y Hy. specialize (Hx y Hy). unfold rank_le in Hx.
      destruct (Hk x (Hin x (or_introl eq_refl))) as (rx & Ex & Vx), (Hk y (Hin y (or_intror Hy))) as (ry & Ey & Vy).
      rewrite Ex, Ey in Hx. cbn in Hx. unfold int_cmp in Hx. rewrite Z.compare_gt_iff in Hx. lia.
    + apply IH. intros e He. apply Hin. now right.
Qed.
End Distances.
