(** Properties C13-C16: ordered iteration.  Vocabulary: Spec.v, IterSpec.v. *)
From Verif Require Import SortedWitness.

Lemma opt_of_ranking {B K M} (P : Params B K) incl ok (m_cmp : M -> M -> comparison) (r : Ranking B K M) :
  ranking_lawful P incl ok m_cmp r ->
  forall b k m, ok k -> incl b (key_bounds P k) -> Some (rank_key r k) = Some m ->
  exists m', Some (bounds_min r b) = Some m' /\ m_cmp m' m <> Gt.
Proof. intros H b k m Hk Hi [= <-]. exists (bounds_min r b). split; [reflexivity|]. now apply H. Qed.

Lemma ordered_ascending {K V M} (m_cmp : M -> M -> comparison) (rank : K -> M) (l : list (K * V)) :
  ForallOrdPairs (rank_le m_cmp (fun k => Some (rank k))) l -> ascending m_cmp (fun e => rank (fst e)) l.
Proof. exact (fun H => H). Qed.

Lemma ranked_all {B K V M} (rank : K -> M) (n : node B K V) : ranked_entries (fun k => Some (rank k)) n = entries n.
Proof. unfold ranked_entries. induction (entries n) as [|e es IH]; cbn; congruence. Qed.

Lemma asc_wf {B K V M} (P : Params B K) cfg ok incl (m_cmp : M -> M -> comparison) (r : Ranking B K M) PQ (t : rtree B K V) lo strict :
  cmp_laws m_cmp -> ranking_lawful P incl ok m_cmp r -> pqueue_laws (ranked_cmp m_cmp) PQ ->
  wf cfg ok (rel_cover P incl) lo strict (fst t) (snd t) ->
  exists l, iterates (asc_next PQ r) (asc_new PQ r t) l /\ Permutation l (contents t) /\
    ascending m_cmp (fun e => rank_key r (fst e)) l.
Proof.
  intros CL RL QL Hw. destruct (sorted_full m_cmp CL PQ QL _ _ P cfg ok incl (opt_of_ranking P incl ok m_cmp r RL) lo strict t Hw) as (l & H1 & H2 & H3).
  exists l. split; [exact H1|]. rewrite ranked_all in H2. split; [exact H2|exact H3].
Qed.

(** ** C13 iter_asc_by is complete and ascending *)
Theorem C13_iter_asc_by :
  forall (B K V M : Type) (P : Params B K) (cfg : config) (ok : K -> Prop) (incl : B -> B -> Prop)
    (m_cmp : M -> M -> comparison) (r : Ranking B K M) (PQ : PQueue (ranked B K V M)) (t : rtree B K V),
  bounds_laws (bops P) incl -> cmp_laws m_cmp -> ranking_lawful P incl ok m_cmp r ->
  pqueue_laws (ranked_cmp m_cmp) PQ -> reachable P cfg ok t ->
  exists l, iterates (asc_next PQ r) (asc_new PQ r t) l /\ Permutation l (contents t) /\
    ascending m_cmp (fun e => rank_key r (fst e)) l.
Proof.
  intros * BL CL RL QL Hr. apply (inv_cover _ _ _ incl _ BL) in Hr. destruct Hr as [Hw _].
  eapply asc_wf; eassumption.
Qed.
Print Assumptions C13_iter_asc_by.

(** [iter_asc_by_mut]: one reference per entry, none twice, ascending; writes change exactly those values. *)
Theorem C13_iter_asc_by_mut :
  forall (B K V M : Type) (P : Params B K) (cfg : config) (ok : K -> Prop) (incl : B -> B -> Prop)
    (m_cmp : M -> M -> comparison) (rk : Ranking B K M) (PQ : PQueue (ranked B K nat M)) (m : nat -> V) (r : rtree B K nat),
  bounds_laws (bops P) incl -> cmp_laws m_cmp -> ranking_lawful P incl ok m_cmp rk ->
  pqueue_laws (ranked_cmp m_cmp) PQ -> reachable P cfg ok (deref m r) -> distinct_locations r ->
  exists refs, iterates (asc_next PQ rk) (asc_new PQ rk r) refs /\
    Permutation (map (fun kl => (fst kl, m (snd kl))) refs) (contents (deref m r)) /\ NoDup (map snd refs) /\
    ascending m_cmp (fun e => rank_key rk (fst e)) refs /\
    (forall ws : list (nat * V), same_but_values (deref m r) (deref (write_all m ws) r)) /\
    (forall g : K -> V -> V,
       contents (deref (write_all m (update_writes g m refs)) r)
       = map (fun kv => (fst kv, g (fst kv) (snd kv))) (contents (deref m r))).
Proof.
  intros * BL CL RL QL Hr Hd. apply (inv_cover _ _ _ incl _ BL) in Hr. destruct Hr as [Hw _]. apply deref_wf in Hw.
  destruct (asc_wf _ _ _ _ _ _ _ _ _ _ CL RL QL Hw) as (refs & H1 & H2 & H3). exists refs. split; [exact H1|].
  split; [rewrite deref_contents; now apply Permutation_map|].
  split; [eapply Permutation_NoDup; [apply Permutation_map, Permutation_sym, H2|exact Hd]|]. split; [exact H3|].
  split; [intros ws; apply deref_same|]. intros g. rewrite !deref_contents.
  assert (Ef : forall l : list (K * nat), filter (fun _ => true) l = l) by (induction l; cbn; congruence).
  assert (H := update_contents_perm (fun _ => true) g m (contents r) refs Hd). rewrite Ef in H. exact (H H2).
Qed.
Print Assumptions C13_iter_asc_by_mut.

(** A ranking: by squared distance to (4, 4).  The heap is the list queue. *)
Definition near (p : svec i32 2) : Ranking (saabb i32 2) (svec i32 2) i32 := euclid_points i32_ops i32_arith p.
Definition LQ {B K V} : PQueue (ranked B K V i32) := list_queue (ranked_cmp i32_cmp).
Lemma LQ_laws {B K V} : pqueue_laws (ranked_cmp i32_cmp) (LQ (B := B) (K := K) (V := V)).
Proof. apply list_queue_laws, ranked_cmp_laws, i32_cmp_laws. Qed.

(** Ranking by the first coordinate is lawful without restriction on the keys. *)
Definition by_x : Ranking (saabb i32 2) (svec i32 2) i32 := {| bounds_min := fun b => fst (bmin b); rank_key := fun p => fst p |}.
Lemma by_x_lawful : ranking_lawful PP (box_incl i32_ops) any_key i32_cmp by_x.
Proof.
  intros [[lx ly] hi] [px py] _ [H _]. apply vec_le_cons in H as [H _]. cbn in *. unfold i32_cmp. rewrite Z.compare_gt_iff.
  apply Z.leb_le in H. lia.
Qed.
Example C13_example :
  bounds_laws (bops PP) (box_incl i32_ops) /\ cmp_laws i32_cmp /\ ranking_lawful PP (box_incl i32_ops) any_key i32_cmp by_x /\
  pqueue_laws (ranked_cmp i32_cmp) (LQ (B := saabb i32 2) (K := svec i32 2) (V := nat)) /\
  reachable PP (cfg_of 4 2) any_key sample /\
  run_iter (asc_next LQ by_x) (Ok (asc_new LQ by_x sample)) 24 =
    Ok (map Some [12; 1; 14; 33; 8; 5; 6; 29; 15; 11; 17; 10; 9; 2; 21; 22; 23; 27; 24; 25; 26; 28] ++ [None; None]).
Proof.
  split; [exact PP_bounds|]. split; [exact i32_cmp_laws|]. split; [exact by_x_lawful|]. split; [exact LQ_laws|].
  split; [exact sample_reachable|]. vm_compute. reflexivity.
Qed.

(** ** C14 min_by and filter_min_by return a minimal entry *)
Lemma first_call {S A} (next : S -> res (option A * S)) s l : iterates next s l -> exists s', next s = Ok (hd_error l, s').
Proof.
  intros H. specialize (H 1). cbn [calls] in H. destruct (next s) as [[o s']| | |]; cbn in H; try discriminate.
  exists s'. destruct l; cbn in H; injection H as ->; reflexivity.
Qed.

Lemma head_least {A M} (m_cmp : M -> M -> comparison) (rank : A -> M) x l : cmp_laws m_cmp -> ascending m_cmp rank (x :: l) ->
  forall y, In y (x :: l) -> m_cmp (rank x) (rank y) <> Gt.
Proof.
  intros CL H y Hy. inversion H as [|? ? H1 H2]; subst. destruct Hy as [<-|Hy].
  - intros E. assert (F := cmp_flip _ CL (rank x) (rank x)). rewrite E in F. discriminate.
  - rewrite Forall_forall in H1. auto.
Qed.

Theorem C14_min_by :
  forall (B K V M : Type) (P : Params B K) (cfg : config) (ok : K -> Prop) (incl : B -> B -> Prop)
    (m_cmp : M -> M -> comparison) (r : Ranking B K M) (PQ : PQueue (ranked B K V M)) (t : rtree B K V),
  bounds_laws (bops P) incl -> cmp_laws m_cmp -> ranking_lawful P incl ok m_cmp r ->
  pqueue_laws (ranked_cmp m_cmp) PQ -> reachable P cfg ok t ->
  exists o, rtree_min_by PQ r t = Ok o /\ (o = None <-> contents t = []) /\
    forall e, o = Some e -> In e (contents t) /\
      forall e', In e' (contents t) -> m_cmp (rank_key r (fst e)) (rank_key r (fst e')) <> Gt.
Proof.
  intros * BL CL RL QL Hr. destruct (C13_iter_asc_by _ _ _ _ P cfg ok incl m_cmp r PQ t BL CL RL QL Hr) as (l & H1 & H2 & H3).
  destruct (first_call _ _ _ H1) as (s' & E). exists (hd_error l). unfold rtree_min_by. rewrite E. split; [reflexivity|].
  destruct l as [|x l]; cbn.
  - apply Permutation_nil in H2. rewrite H2. split; [tauto|discriminate].
  - split; [split; [discriminate|]; intros E'; rewrite E' in H2; now apply Permutation_sym, Permutation_nil in H2|].
    intros e [= <-]. split; [rewrite <- H2; now left|]. intros e' He'. rewrite <- H2 in He'.
    exact (head_least m_cmp (fun e => rank_key r (fst e)) x l CL H3 e' He').
Qed.
Print Assumptions C14_min_by.

(** ** C16 filter_iter_asc_by is complete and ascending on the ranked entries *)
Definition has_rank {B K V M} (r : Ranking B K (option M)) (e : K * V) : bool :=
  match rank_key r (fst e) with Some _ => true | None => false end.

(** Ascending, all ranks being [Some]. *)
Definition ascending_ranks {B K V M} (m_cmp : M -> M -> comparison) (r : Ranking B K (option M)) (l : list (K * V)) : Prop :=
  ForallOrdPairs (fun x y => exists a b, rank_key r (fst x) = Some a /\ rank_key r (fst y) = Some b /\ m_cmp a b <> Gt) l.

Lemma filter_asc_wf {B K V M} (P : Params B K) cfg ok incl (m_cmp : M -> M -> comparison) (r : Ranking B K (option M)) PQ (t : rtree B K V) lo strict :
  cmp_laws m_cmp -> opt_ranking_lawful P incl ok m_cmp r -> pqueue_laws (ranked_cmp m_cmp) PQ ->
  wf cfg ok (rel_cover P incl) lo strict (fst t) (snd t) ->
  exists l, iterates (filter_asc_next PQ r) (filter_asc_new PQ r t) l /\ Permutation l (filter (has_rank r) (contents t)) /\
    ascending_ranks m_cmp r l.
Proof.
  intros CL RL QL Hw. destruct (sorted_full m_cmp CL PQ QL _ _ P cfg ok incl RL lo strict t Hw) as (l & H1 & H2 & H3).
  exists l. split; [exact H1|]. split; [exact H2|]. clear -H3. induction H3 as [|x l Hx _ IH]; constructor; [|exact IH].
  eapply Forall_impl; [|exact Hx]. intros y Hy. unfold rank_le in Hy.
  destruct (rank_key r (fst x)) as [a|], (rank_key r (fst y)) as [b|]; try contradiction. eauto.
Qed.

Theorem C16_filter_iter_asc_by :
  forall (B K V M : Type) (P : Params B K) (cfg : config) (ok : K -> Prop) (incl : B -> B -> Prop)
    (m_cmp : M -> M -> comparison) (r : Ranking B K (option M)) (PQ : PQueue (ranked B K V M)) (t : rtree B K V),
  bounds_laws (bops P) incl -> cmp_laws m_cmp -> opt_ranking_lawful P incl ok m_cmp r ->
  pqueue_laws (ranked_cmp m_cmp) PQ -> reachable P cfg ok t ->
  exists l, iterates (filter_asc_next PQ r) (filter_asc_new PQ r t) l /\
    Permutation l (filter (has_rank r) (contents t)) /\ ascending_ranks m_cmp r l.
Proof.
  intros * BL CL RL QL Hr. apply (inv_cover _ _ _ incl _ BL) in Hr. destruct Hr as [Hw _].
  eapply filter_asc_wf; eassumption.
Qed.
Print Assumptions C16_filter_iter_asc_by.

Theorem C16_filter_iter_asc_by_mut :
  forall (B K V M : Type) (P : Params B K) (cfg : config) (ok : K -> Prop) (incl : B -> B -> Prop)
    (m_cmp : M -> M -> comparison) (rk : Ranking B K (option M)) (PQ : PQueue (ranked B K nat M)) (m : nat -> V) (r : rtree B K nat),
  bounds_laws (bops P) incl -> cmp_laws m_cmp -> opt_ranking_lawful P incl ok m_cmp rk ->
  pqueue_laws (ranked_cmp m_cmp) PQ -> reachable P cfg ok (deref m r) -> distinct_locations r ->
  exists refs, iterates (filter_asc_next PQ rk) (filter_asc_new PQ rk r) refs /\
    Permutation (map (fun kl => (fst kl, m (snd kl))) refs) (filter (has_rank rk) (contents (deref m r))) /\
    NoDup (map snd refs) /\ ascending_ranks m_cmp rk refs /\
    (forall g : K -> V -> V,
       contents (deref (write_all m (update_writes g m refs)) r)
       = map (fun kv => (fst kv, if has_rank rk kv then g (fst kv) (snd kv) else snd kv)) (contents (deref m r))).
Proof.
  intros * BL CL RL QL Hr Hd. apply (inv_cover _ _ _ incl _ BL) in Hr. destruct Hr as [Hw _]. apply deref_wf in Hw.
  destruct (filter_asc_wf _ _ _ _ _ _ _ _ _ _ CL RL QL Hw) as (refs & H1 & H2 & H3). exists refs. split; [exact H1|].
  split; [rewrite deref_contents, H2; clear; generalize (contents r) as es; induction es as [|[k l] es IH]; cbn; [constructor|];
          unfold has_rank in *; cbn; destruct (rank_key rk k); cbn; [now constructor|exact IH]|].
  split; [eapply Permutation_NoDup; [apply Permutation_map, Permutation_sym, H2|]; now apply NoDup_filter_snd|]. split; [exact H3|].
  intros g. rewrite !deref_contents.
  exact (update_contents_perm (fun k => match rank_key rk k with Some _ => true | None => false end) g m (contents r) refs Hd H2).
Qed.
Print Assumptions C16_filter_iter_asc_by_mut.

Theorem C14_filter_min_by :
  forall (B K V M : Type) (P : Params B K) (cfg : config) (ok : K -> Prop) (incl : B -> B -> Prop)
    (m_cmp : M -> M -> comparison) (r : Ranking B K (option M)) (PQ : PQueue (ranked B K V M)) (t : rtree B K V),
  bounds_laws (bops P) incl -> cmp_laws m_cmp -> opt_ranking_lawful P incl ok m_cmp r ->
  pqueue_laws (ranked_cmp m_cmp) PQ -> reachable P cfg ok t ->
  exists o, rtree_filter_min_by PQ r t = Ok o /\
    (o = None <-> forall e, In e (contents t) -> rank_key r (fst e) = None) /\
    forall e, o = Some e -> In e (contents t) /\ exists a, rank_key r (fst e) = Some a /\
      forall e' a', In e' (contents t) -> rank_key r (fst e') = Some a' -> m_cmp a a' <> Gt.
Proof.
  intros * BL CL RL QL Hr. destruct (C16_filter_iter_asc_by _ _ _ _ P cfg ok incl m_cmp r PQ t BL CL RL QL Hr) as (l & H1 & H2 & H3).
  destruct (first_call _ _ _ H1) as (s' & E). exists (hd_error l). unfold rtree_filter_min_by. rewrite E. split; [reflexivity|].
  assert (Hin : forall e, In e l <-> In e (contents t) /\ has_rank r e = true).
  { intros e. rewrite <- filter_In. split; intros; [now rewrite <- H2|now rewrite H2]. }
  destruct l as [|x l]; cbn.
  - split; [|discriminate]. split; [|reflexivity]. intros _ e He. destruct (rank_key r (fst e)) eqn:Ee; [|reflexivity].
    exfalso. apply (Hin e). split; [exact He|]. unfold has_rank. now rewrite Ee.
  - destruct (proj1 (Hin x) (or_introl eq_refl)) as [Hx Hx']. unfold has_rank in Hx'. destruct (rank_key r (fst x)) as [a|] eqn:Ex; [|discriminate].
    split; [split; [discriminate|]; intros E'; rewrite (E' x Hx) in Ex; discriminate|].
    intros e [= <-]. split; [exact Hx|]. exists a. split; [exact Ex|]. intros e' a' He' Ea'.
    assert (Hl : In e' (x :: l)) by (apply Hin; split; [exact He'|]; unfold has_rank; now rewrite Ea').
    destruct Hl as [<-|Hl].
    + rewrite Ex in Ea'. injection Ea' as <-. intros F. assert (G := cmp_flip _ CL a a). rewrite F in G. discriminate.
    + inversion H3 as [|? ? H4 _]; subst. rewrite Forall_forall in H4. destruct (H4 e' Hl) as (a1 & b1 & E1 & E2 & H5). congruence.
Qed.
Print Assumptions C14_filter_min_by.

(** By first coordinate, only right of x = 6. *)
Definition by_x_right : Ranking (saabb i32 2) (svec i32 2) (option i32) :=
  {| bounds_min := fun b => if (6 <=? i32_val (fst (bmax b)))%Z then Some (fst (bmin b)) else None;
     rank_key := fun p => if (6 <=? i32_val (fst p))%Z then Some (fst p) else None |}.
Lemma by_x_right_lawful : opt_ranking_lawful PP (box_incl i32_ops) any_key i32_cmp by_x_right.
Proof.
  intros [[lx ly] [hx hy]] [px py] m _ [H H']. apply vec_le_cons in H as [H _]. apply vec_le_cons in H' as [H' _]. cbn in *.
  apply Z.leb_le in H. apply Z.leb_le in H'.
  destruct (Z.leb_spec 6 (i32_val px)); [|discriminate]. intros [= <-]. exists lx. destruct (Z.leb_spec 6 (i32_val hx)); [|lia].
  split; [reflexivity|]. unfold i32_cmp. rewrite Z.compare_gt_iff. lia.
Qed.
Example C14_C16_example :
  opt_ranking_lawful PP (box_incl i32_ops) any_key i32_cmp by_x_right /\
  res_map (option_map snd) (rtree_min_by LQ by_x sample) = Ok (Some 12) /\
  res_map (option_map snd) (rtree_filter_min_by LQ by_x_right sample) = Ok (Some 10) /\
  res_map (option_map snd) (rtree_min_by LQ by_x (rtree_new PP : rtree (saabb i32 2) (svec i32 2) nat)) = Ok None /\
  run_iter (filter_asc_next LQ by_x_right) (Ok (filter_asc_new LQ by_x_right sample)) 13 =
    Ok (map Some [10; 9; 2; 21; 22; 23; 27; 24; 25; 26; 28] ++ [None; None]).
Proof. split; [exact by_x_right_lawful|]. repeat split; vm_compute; reflexivity. Qed.

(** ** C15 min_by returns the first of several minimal entries: false *)
(** Whatever the priority queue: the points (5,0), (6,0), (7,0), (-3,4), (-4,3) are inserted in this order;
    (5,0), (-3,4) and (-4,3) are nearest to the origin.  [min_by] returns one of the last two, although (5,0)
    was inserted earlier and comes earlier in the iteration order. *)
Theorem C15_first_minimal_refuted :
  forall PQ : PQueue (ranked (saabb i32 2) (svec i32 2) nat i32), pqueue_laws (ranked_cmp i32_cmp) PQ ->
  let t := final PP (cfg_of 4 2) [OInsert (pt 5 0) 1; OInsert (pt 6 0) 2; OInsert (pt 7 0) 3; OInsert (pt (-3) 4) 4; OInsert (pt (-4) 3) 5] in
  reachable PP (cfg_of 4 2) any_key t /\
  exists e first l1 l2 l3, rtree_min_by PQ (near (pt 0 0)) t = Ok (Some e) /\
    contents t = l1 ++ first :: l2 ++ e :: l3 /\ snd first = 1 /\ first <> e /\
    rank_key (near (pt 0 0)) (fst first) = rank_key (near (pt 0 0)) (fst e).
Proof.
  intros PQ QL t. change t with tree15. split; [apply tree15_reachable|].
  destruct (min15 PQ QL) as (e & first & l1 & l2 & l3 & E & Ec & Ef & He & Er).
  exists e, first, l1, l2, l3. split; [exact E|]. split; [exact Ec|]. split; [exact Ef|]. split; [|exact Er].
  intros <-. lia.
Qed.
Print Assumptions C15_first_minimal_refuted.

(** What holds: if only one entry has minimal rank, it is the one returned. *)
Theorem C15_unique_minimal_partial :
  forall (B K V M : Type) (P : Params B K) (cfg : config) (ok : K -> Prop) (incl : B -> B -> Prop)
    (m_cmp : M -> M -> comparison) (r : Ranking B K M) (PQ : PQueue (ranked B K V M)) (t : rtree B K V) l1 e l2,
  bounds_laws (bops P) incl -> cmp_laws m_cmp -> ranking_lawful P incl ok m_cmp r ->
  pqueue_laws (ranked_cmp m_cmp) PQ -> reachable P cfg ok t ->
  contents t = l1 ++ e :: l2 ->
  (forall e', In e' (l1 ++ l2) -> m_cmp (rank_key r (fst e)) (rank_key r (fst e')) = Lt) ->
  rtree_min_by PQ r t = Ok (Some e).
Proof.
  intros * BL CL RL QL Hr Ec Hmin. destruct (C14_min_by _ _ _ _ P cfg ok incl m_cmp r PQ t BL CL RL QL Hr) as (o & E & H1 & H2).
  rewrite E. destruct o as [x|].
  - destruct (H2 x eq_refl) as [Hx Hle]. rewrite Ec in Hx. apply in_app_or in Hx.
    assert (Hx' : e = x \/ In x (l1 ++ l2)) by (destruct Hx as [Hx|[Hx|Hx]]; auto using in_or_app).
    destruct Hx' as [->|Hx']; [reflexivity|]. exfalso. apply (Hle e); [rewrite Ec; apply in_or_app; right; now left|].
    rewrite (cmp_flip _ CL), (Hmin x Hx'). reflexivity.
  - exfalso. rewrite (proj1 H1 eq_refl) in Ec. destruct l1; discriminate.
Qed.
Print Assumptions C15_unique_minimal_partial.
