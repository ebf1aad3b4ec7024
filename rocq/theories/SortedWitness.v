(** A lawful priority queue, and how a lawful queue must behave on known contents. *)
From Verif Require Export Witness SortedProof DistModel.

(** Unordered list, popping a least element: meets [pqueue_laws] for every total preorder. *)
Section ListQueue.
Context {T : Type} (cmp : T -> T -> comparison).
Fixpoint extract (x : T) (l : list T) : T * list T :=
  match l with
  | [] => (x, [])
  | y :: r => match cmp x y with
              | Gt => let (m, r') := extract y r in (m, x :: r')
              | _ => let (m, r') := extract x r in (m, y :: r')
              end
  end.
Definition list_queue : PQueue T := {|
  heap := list T;
  h_new := [];
  h_push := fun x l => x :: l;
  h_pop := fun l => match l with [] => None | x :: r => Some (extract x r) end;
  h_items := fun l => l
|}.

Lemma extract_spec (L : cmp_laws cmp) l x m r : extract x l = (m, r) ->
  Permutation (x :: l) (m :: r) /\ cmp m x <> Gt /\ forall y, In y r -> cmp m y <> Gt.
Proof.
  revert x m r; induction l as [|y l IH]; intros x m r; cbn.
  - intros [= <- <-]. split; [reflexivity|]. split; [|intros ? []]. intros E. assert (F := cmp_flip _ L x x). rewrite E in F. discriminate.
  - destruct (cmp x y) eqn:E; [destruct (extract x l) as [m' r'] eqn:Ex..|destruct (extract y l) as [m' r'] eqn:Ex];
      intros [= <- <-]; destruct (IH _ _ _ Ex) as (H1 & H2 & H3).
    1,2: split; [rewrite perm_swap, H1; apply perm_swap|]; split; [exact H2|]; intros z [<-|Hz]; [|now apply H3];
         apply (cmp_le_trans _ L _ x); [exact H2|congruence].
    split; [rewrite H1; apply perm_swap|]. assert (Hx : cmp m' x <> Gt).
    { apply (cmp_le_trans _ L _ y); [exact H2|]. rewrite (cmp_flip _ L), E. discriminate. }
    split; [exact Hx|]. intros z [<-|Hz]; [exact Hx|now apply H3].
Qed.

Lemma list_queue_laws : cmp_laws cmp -> pqueue_laws cmp list_queue.
Proof.
  intros L. constructor; cbn; auto.
  - intros [|x l]; [auto|discriminate].
  - intros [|x l] y l'; [discriminate|]. intros [= E]. destruct (extract_spec L _ _ _ _ E) as (H1 & _ & H2). split; assumption.
Qed.
End ListQueue.

Lemma ranked_cmp_laws {B K V M} (m_cmp : M -> M -> comparison) : cmp_laws m_cmp -> cmp_laws (ranked_cmp (B := B) (K := K) (V := V) m_cmp).
Proof.
  intros L. constructor.
  - intros [[m l] i] [[m' l'] i']. unfold ranked_cmp, score_cmp. cbn. rewrite (cmp_flip _ L m m').
    destruct (m_cmp m m'); cbn; try reflexivity. apply Nat.compare_antisym.
  - intros [[a la] i] [[b lb] j] [[c lc] k]. unfold ranked_cmp, score_cmp. cbn.
    assert (F1 := cmp_flip _ L a b). assert (F2 := cmp_flip _ L b c). assert (F3 := cmp_flip _ L a c).
    assert (T1 := cmp_le_trans _ L a b c). assert (T2 := cmp_le_trans _ L c a b). assert (T3 := cmp_le_trans _ L b c a).
    destruct (m_cmp a b) eqn:E1, (m_cmp b c) eqn:E2, (m_cmp a c) eqn:E3; cbn in *; intros H1 H2; try congruence;
      rewrite ?F1, ?F2, ?F3 in *; cbn in *;
      try (exfalso; first [apply T1; congruence|apply T2; congruence|apply T3; congruence]).
    rewrite Nat.compare_gt_iff in *. lia.
Qed.
Lemma i32_cmp_laws : cmp_laws i32_cmp.
Proof.
  constructor; unfold i32_cmp.
  - intros a b. apply Z.compare_antisym.
  - intros a b c. rewrite !Z.compare_gt_iff. lia.
Qed.

(** A strictly least item is popped next, whatever the queue. *)
Lemma pop_least {T} (cmp : T -> T -> comparison) (Q : PQueue T) (CL : cmp_laws cmp) (QL : pqueue_laws cmp Q) h x r :
  Permutation (h_items Q h) (x :: r) -> (forall y, In y r -> cmp x y = Lt) ->
  exists h', h_pop Q h = Some (x, h') /\ Permutation (h_items Q h') r.
Proof.
  intros Hp Hlt. destruct (h_pop Q h) as [[y h']|] eqn:E.
  - destruct (pq_pop_some _ _ QL _ _ _ E) as [H1 H2].
    assert (Hyx : In y (x :: r)) by (rewrite <- Hp, H1; now left).
    destruct Hyx as [->|Hin].
    + exists h'. split; [reflexivity|]. rewrite H1 in Hp. now apply Permutation_cons_inv in Hp.
    + exfalso. assert (Hx : In x (y :: h_items Q h')) by (rewrite <- H1, Hp; now left).
      specialize (Hlt y Hin). destruct Hx as [->|Hx].
      * assert (F := cmp_flip _ CL x x). rewrite Hlt in F. discriminate.
      * specialize (H2 x Hx). rewrite (cmp_flip _ CL), Hlt in H2. now apply H2.
  - apply (pq_pop_none _ _ QL) in E. rewrite E in Hp. now apply Permutation_nil in Hp.
Qed.

(** The tree of C15: six points, the nearest to the origin at equal distances. *)
Definition ops15 : list (op (svec i32 2) nat) :=
  [ OInsert (pt 5 0) 1; OInsert (pt 6 0) 2; OInsert (pt 7 0) 3; OInsert (pt (-3) 4) 4; OInsert (pt (-4) 3) 5 ].
Definition tree15 : rtree (saabb i32 2) (svec i32 2) nat := final PP (cfg_of 4 2) ops15.
Lemma tree15_reachable : reachable PP (cfg_of 4 2) any_key tree15.
Proof. apply final_reachable_any. Qed.

Definition rank15 : Ranking (saabb i32 2) (svec i32 2) i32 := euclid_points i32_ops i32_arith (pt 0 0).
Definition entry15 (e : svec i32 2 * nat) : Z * nat := (i32_val (rank_key rank15 (fst e)), snd e).
Definition leaf15 (n : node (saabb i32 2) (svec i32 2) nat) : Z * list (Z * nat) :=
  (i32_val (bounds_min rank15 (node_bounds n)), match n with Node _ (CLeaf es) => map entry15 es | _ => [] end).

Lemma tree15_shape : exists b c1 c2, tree15 = (1, Node b (CInner [c1; c2])) /\
  leaf15 c1 = (25%Z, [(49%Z, 3); (36%Z, 2); (25%Z, 1)]) /\ leaf15 c2 = (18%Z, [(25%Z, 4); (25%Z, 5)]).
Proof.
  assert (E : match tree15 with (1, Node _ (CInner cs)) => map leaf15 cs | _ => [] end =
    [(25%Z, [(49%Z, 3); (36%Z, 2); (25%Z, 1)]); (18%Z, [(25%Z, 4); (25%Z, 5)])]) by (vm_compute; reflexivity).
  destruct tree15 as [[|[|l]] [b [cs|es]]]; try discriminate.
  destruct cs as [|c1 [|c2 [|c3 cs]]]; try discriminate. exists b, c1, c2. cbn [map] in E.
  revert E. generalize (leaf15 c1), (leaf15 c2). intros x y E. injection E as -> ->. auto.
Qed.

(** Single steps of the loop. *)
Section Steps.
Context {B K V M : Type} (PQ : PQueue (ranked B K V M)) (sb : B -> option M) (sk : K -> option M).
Lemma loop_inner f h m l b cs h1 : h_pop PQ h = Some (((m, S (S l)), INode (Node b (CInner cs))), h1) ->
  sorted_loop PQ sb sk (S f) h = sorted_loop PQ sb sk f (push_all PQ (fun c => sb (node_bounds c)) INode (S l) cs h1).
Proof. intros E. cbn [sorted_loop]. rewrite E. reflexivity. Qed.
Lemma loop_leaf f h m b es h1 : h_pop PQ h = Some (((m, 1), INode (Node b (CLeaf es))), h1) ->
  sorted_loop PQ sb sk (S f) h = sorted_loop PQ sb sk f (push_all PQ (fun e => sk (fst e)) IEntry 0 es h1).
Proof. intros E. cbn [sorted_loop]. rewrite E. reflexivity. Qed.
Lemma loop_entry f h m e h1 : h_pop PQ h = Some (((m, 0), IEntry e), h1) -> sorted_loop PQ sb sk (S f) h = Ok (Some e, h1).
Proof. intros E. cbn [sorted_loop]. rewrite E. reflexivity. Qed.
End Steps.

Section Min15.
Context (PQ : PQueue (ranked (saabb i32 2) (svec i32 2) nat i32)) (QL : pqueue_laws (ranked_cmp i32_cmp) PQ).
Lemma min15 : exists e first l1 l2 l3, rtree_min_by PQ rank15 tree15 = Ok (Some e) /\
  contents tree15 = l1 ++ first :: l2 ++ e :: l3 /\ snd first = 1 /\ (snd e = 4 \/ snd e = 5) /\
  rank_key rank15 (fst first) = rank_key rank15 (fst e).
Proof.
  destruct tree15_shape as (b & c1 & c2 & -> & H1 & H2).
  destruct c1 as [b1 [?|es1]]; [discriminate|]. destruct c2 as [b2 [?|es2]]; [discriminate|].
  unfold leaf15 in H1, H2. apply pair_equal_spec in H1 as [Hb1 H1]. apply pair_equal_spec in H2 as [Hb2 H2].
  destruct es1 as [|e3 [|e2 [|e1 [|? ?]]]]; try discriminate. destruct es2 as [|e4 [|e5 [|? ?]]]; try discriminate.
  cbn [map] in H1, H2. 
  assert (R1 : entry15 e1 = (25%Z, 1)) by (revert H1; generalize (entry15 e1), (entry15 e2), (entry15 e3); intros x y z F; injection F; auto).
  unfold entry15 in R1. apply pair_equal_spec in R1 as [R1 V1].
  assert (R4 : entry15 e4 = (25%Z, 4)) by (revert H2; generalize (entry15 e4), (entry15 e5); intros x y E; injection E; auto).
  assert (R5 : entry15 e5 = (25%Z, 5)) by (revert H2; generalize (entry15 e4), (entry15 e5); intros x y E; injection E; auto).
  unfold entry15 in R4, R5. apply pair_equal_spec in R4 as [R4 V4]. apply pair_equal_spec in R5 as [R5 V5]. cbn [node_bounds] in Hb1, Hb2.
  set (sb := fun b => Some (bounds_min rank15 b)). set (sk := fun k => Some (rank_key rank15 k)).
  set (root := Node b (CInner [Node b1 (CLeaf [e3; e2; e1]); Node b2 (CLeaf [e4; e5])])).
  assert (CL := ranked_cmp_laws (B := saabb i32 2) (K := svec i32 2) (V := nat) _ i32_cmp_laws).
  unfold rtree_min_by, asc_next, asc_new.
  change (fun b => Some (bounds_min rank15 b)) with sb. change (fun k => Some (rank_key rank15 k)) with sk.
  set (h0 := sorted_new PQ sb _). unfold sorted_next.
  assert (P0 : Permutation (h_items PQ h0) [((bounds_min rank15 b, 2), INode root)]).
  { unfold h0, sorted_new, sb. cbn [fst snd node_bounds Nat.add]. rewrite (pq_push _ _ QL), (pq_new _ _ QL). reflexivity. }
  rewrite (list_sum_perm _ _ (Permutation_map ranked_weight P0)).
  change (list_sum (map ranked_weight [((bounds_min rank15 b, 2), INode root)])) with 8.
  destruct (pop_least _ _ CL QL _ _ _ P0) as (h1 & E1 & P1); [intros ? []|].
  rewrite (loop_inner _ _ _ _ _ _ _ _ _ _ E1).
  match goal with |- context [sorted_loop PQ sb sk 7 ?h] => set (h2 := h) end.
  assert (P2 : Permutation (h_items PQ h2) [((bounds_min rank15 b2, 1), INode (Node b2 (CLeaf [e4; e5])));
     ((bounds_min rank15 b1, 1), INode (Node b1 (CLeaf [e3; e2; e1])))]).
  { unfold h2. rewrite (push_all_spec _ _ QL), P1. cbn [flat_map sb app node_bounds]. apply perm_swap. }
  destruct (pop_least _ _ CL QL _ _ _ P2) as (h3 & E3 & P3).
  { intros y [<-|[]]. unfold ranked_cmp, score_cmp, i32_cmp. cbn [fst]. rewrite Hb1, Hb2. reflexivity. }
  rewrite (loop_leaf _ _ _ _ _ _ _ _ _ E3).
  match goal with |- context [sorted_loop PQ sb sk 6 ?h] => set (h4 := h) end.
  assert (P4 : Permutation (h_items PQ h4) [((rank_key rank15 (fst e4), 0), IEntry e4); ((rank_key rank15 (fst e5), 0), IEntry e5);
     ((bounds_min rank15 b1, 1), INode (Node b1 (CLeaf [e3; e2; e1])))]).
  { unfold h4. rewrite (push_all_spec _ _ QL), P3. cbn [flat_map sk app]. reflexivity. }
  destruct (h_pop PQ h4) as [[[[m lv] it] h5]|] eqn:E5.
  2: { apply (pq_pop_none _ _ QL) in E5. rewrite E5 in P4. now apply Permutation_nil in P4. }
  destruct (pq_pop_some _ _ QL _ _ _ E5) as [P5 H5].
  assert (Hin : In ((m, lv), it) (h_items PQ h4)) by (rewrite P5; now left). rewrite P4 in Hin.
  destruct Hin as [[= <- <- <-]|[[= <- <- <-]|[[= <- <- <-]|[]]]].
  - exists e4, e1, [e3; e2], [], [e5]. rewrite (loop_entry _ _ _ _ _ _ _ _ E5). repeat (split; [reflexivity || auto|]). apply i32_eq. congruence.
  - exists e5, e1, [e3; e2], [e4], []. rewrite (loop_entry _ _ _ _ _ _ _ _ E5). repeat (split; [reflexivity || auto|]). apply i32_eq. congruence.
  - exfalso. rewrite P5 in P4. assert (P6 : Permutation (h_items PQ h5) [((rank_key rank15 (fst e4), 0), IEntry e4); ((rank_key rank15 (fst e5), 0), IEntry e5)]).
    { apply (Permutation_cons_inv (a := ((bounds_min rank15 b1, 1), INode (Node b1 (CLeaf [e3; e2; e1]))))). rewrite P4. exact (Permutation_app_comm [_; _] [_]). }
    assert (X : ranked_cmp i32_cmp ((bounds_min rank15 b1, 1), INode (Node b1 (CLeaf [e3; e2; e1])))
      ((rank_key rank15 (fst e4), 0), IEntry e4) = Gt).
    { unfold ranked_cmp, score_cmp, i32_cmp. cbn [fst snd]. rewrite Hb1, R4. reflexivity. }
    exact (H5 _ ltac:(rewrite P6; now left) X).
Qed.
End Min15.
