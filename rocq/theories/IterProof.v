(** The unordered iterators yield exactly the pruned, filtered entries. *)
From Verif Require Export Main IterModel IterSpec.

(** *** [iterates] from a simulation *)
Lemma iterates_sim {S A} (next : S -> res (option A * S)) (I : S -> list A -> Prop) :
  (forall s l, I s l -> exists s', next s = Ok (hd_error l, s') /\ I s' (tl l)) ->
  forall s l, I s l -> iterates next s l.
Proof.
  intros H s l HI n. revert s l HI. induction n as [|n IH]; intros s l HI; [reflexivity|].
  cbn [calls]. destruct (H s l HI) as (s' & -> & HI'). cbn [bind]. rewrite (IH _ _ HI'). cbn [bind].
  destruct l as [|x l]; cbn [hd_error tl map app repeat firstn]; [reflexivity|]. f_equal. f_equal.
  assert (E : forall (a b : list (option A)) m, m <= length b -> firstn n (a ++ b) = firstn n (a ++ firstn n b)).
  { intros a b m _. rewrite !firstn_app. f_equal. rewrite firstn_firstn. f_equal. lia. }
  change (None :: repeat None n) with (repeat (@None A) (Datatypes.S n)).
  rewrite (E _ (repeat None (Datatypes.S n)) 0) by lia. do 2 f_equal.
  replace (Datatypes.S n) with (n + 1) by lia. rewrite repeat_app, firstn_app, repeat_length.
  replace (n - n) with 0 by lia. cbn. rewrite app_nil_r. rewrite firstn_all2; [reflexivity|]. now rewrite repeat_length.
Qed.

Section IterProof.
Context {B K V Q : Type} (brw : K -> Q) (f : SpatialFilter B Q).
Notation node := (node B K V).
Notation st := (@tree_stack B K V).
Notation tb := (fun n : node => test_bounds f (node_bounds n)).
Notation tk := (fun kv : K * V => test_key f (brw (fst kv))).

(** Uniform depth. *)
Fixpoint kinded (level : nat) (n : node) : Prop :=
  match level, node_children n with
  | 0, CLeaf _ => True
  | S l, CInner cs => Forall (kinded l) cs
  | _, _ => False
  end.

(** The entries the iterator reaches below a node. *)
Fixpoint pruned (n : node) : list (K * V) :=
  match n with
  | Node _ (CLeaf es) => filter tk es
  | Node _ (CInner cs) => flat_map (fun c => if tb c then pruned c else []) cs
  end.

Definition vis (c : node) : list (K * V) := if tb c then pruned c else [].

Definition rest_of (s : slot (list (K * V)) (list node)) : list (K * V) :=
  match s with SLeaf es => filter tk es | SInner cs => flat_map vis cs end.
Definition pending (s : st) : list (K * V) := flat_map rest_of s.

Definition slot_ok (i : nat) (s : slot (list (K * V)) (list node)) : Prop :=
  match i, s with
  | 0, SLeaf _ => True
  | S l, SInner cs => Forall (kinded l) cs
  | _, _ => False
  end.
Definition stack_ok (s : st) : Prop := forall i x, nth_error s i = Some x -> slot_ok i x.
Definition slot_empty (x : slot (list (K * V)) (list node)) : Prop := x = SLeaf [] \/ x = SInner [].

Lemma find_rest_none {T} (g : T -> bool) l : find_rest g l = None -> filter g l = [].
Proof. induction l as [|x l IH]; cbn; [reflexivity|]. destruct (g x); [discriminate|auto]. Qed.
Lemma find_rest_some {T} (g : T -> bool) l x r : find_rest g l = Some (x, r) ->
  g x = true /\ exists skipped, l = skipped ++ x :: r /\ filter g skipped = [].
Proof.
  induction l as [|y l IH]; cbn; [discriminate|]. destruct (g y) eqn:E.
  - intros [= -> ->]. split; [exact E|]. exists []. auto.
  - intros H. destruct (IH H) as (Hx & sk & -> & Hs). split; [exact Hx|]. exists (y :: sk). cbn. rewrite E. auto.
Qed.

Lemma vis_skipped l : filter tb l = [] -> flat_map vis l = [].
Proof.
  induction l as [|c l IH]; cbn; [reflexivity|]. unfold vis at 1.
  destruct (test_bounds f (node_bounds c)); [discriminate|]. auto.
Qed.

Lemma nth_middle {T} (l1 : list T) x l2 : nth_error (l1 ++ x :: l2) (length l1) = Some x.
Proof. rewrite nth_error_app2, Nat.sub_diag by lia. reflexivity. Qed.

Lemma stack_ok_set s i x : stack_ok s -> slot_ok i x -> stack_ok (set_nth i x s).
Proof.
  intros H Hx j y. rewrite nth_error_set_nth. destruct (Nat.eqb_spec i j) as [->|].
  - destruct (j <? length s); [intros [= <-]; exact Hx|discriminate].
  - apply H.
Qed.

Lemma pending_empty (s : st) : Forall slot_empty s -> pending s = [].
Proof.
  unfold pending. induction 1 as [|x s Hx Hs IH]; cbn; [reflexivity|]. rewrite IH, app_nil_r.
  destruct Hx as [-> | ->]; reflexivity.
Qed.

Lemma sum_app (a b : list nat) : list_sum (a ++ b) = list_sum a + list_sum b.
Proof. apply list_sum_app. Qed.

Notation weight s := (list_sum (map (@slot_size B K V) s)).

Lemma split_at (s : st) i x : nth_error s i = Some x -> exists l1 l2, s = l1 ++ x :: l2 /\ length l1 = i.
Proof. intros H. apply nth_error_split in H as (l1 & l2 & -> & Hl). eauto. Qed.

Lemma app_last_ {T} (l : list T) n : length l = S n -> exists l' x, l = l' ++ [x] /\ length l' = n.
Proof.
  intros H. destruct (exists_last (l := l)) as (l' & x & ->); [intros ->; discriminate|].
  exists l', x. split; [reflexivity|]. rewrite app_length in H. cbn in H. lia.
Qed.

Ltac weigh := repeat (rewrite ?map_app, ?sum_app in *; cbn [map list_sum fold_right slot_size] in * );
  change (fold_right Nat.add 0) with list_sum in *.

Lemma iter_loop_spec fuel level s : stack_ok s -> Forall slot_empty (firstn level s) ->
  2 * weight s + (length s - level) <= fuel ->
  exists s', iter_loop brw f fuel level s = Ok (hd_error (pending s), s') /\ stack_ok s'
    /\ pending s' = tl (pending s).
Proof.
  revert level s; induction fuel as [|fuel IH]; intros level s Hok Hlow Hfuel; cbn [iter_loop].
  { destruct (Nat.ltb_spec level (length s)); [lia|]. rewrite firstn_all2 in Hlow by lia.
    exists s. rewrite (pending_empty _ Hlow). auto. }
  destruct (Nat.ltb_spec level (length s)) as [Hlt|Hge].
  2: { rewrite firstn_all2 in Hlow by lia. exists s. rewrite (pending_empty _ Hlow). auto. }
  destruct (nth_error_exists level s Hlt) as [x Hx].
  assert (Hk := Hok _ _ Hx). destruct (split_at _ _ _ Hx) as (l1 & l2 & -> & Hl1).
  rewrite firstn_app, <- Hl1, firstn_all, Nat.sub_diag in Hlow. cbn [firstn] in Hlow. rewrite app_nil_r in Hlow.
  assert (Hp : pending (l1 ++ x :: l2) = rest_of x ++ pending l2).
  { unfold pending. rewrite flat_map_app. fold (pending l1). rewrite (pending_empty _ Hlow). reflexivity. }
  rewrite Hp. destruct level as [|l].
  - destruct l1; [|discriminate]. cbn [app] in *. destruct x as [es|cs]; [|destruct Hk].
    cbn [stack_leaf nth_error bind]. destruct (find_rest _ es) as [[e r]|] eqn:Ef.
    + apply find_rest_some in Ef as (He & sk & -> & Hsk). unfold stack_set_leaf. cbn [stack_leaf nth_error bind set_nth].
      eexists; split; [|split].
      * cbn [rest_of]. rewrite filter_app, Hsk. cbn [filter app]. rewrite He. reflexivity.
      * apply (stack_ok_set _ 0 (SLeaf r) Hok). exact I.
      * cbn [rest_of]. rewrite filter_app, Hsk. cbn [filter app]. rewrite He. reflexivity.
    + apply find_rest_none in Ef. unfold stack_set_leaf. cbn [stack_leaf nth_error bind set_nth].
      destruct (IH 1 (SLeaf [] :: l2)) as (s' & E & H1 & H2).
      * apply (stack_ok_set _ 0 (SLeaf []) Hok). exact I.
      * cbn. constructor; [now left|constructor].
      * cbn [map list_sum slot_size length fold_right] in *. lia.
      * exists s'. cbn [rest_of]. rewrite Ef. auto.
  - destruct x as [es|cs]; [destruct Hk|]. cbn [slot_ok] in Hk. rewrite <- Hl1.
    unfold stack_inner at 1. rewrite nth_middle. cbn [bind].
    destruct (find_rest _ cs) as [[n r]|] eqn:Ef.
    + apply find_rest_some in Ef as (Hn & sk & -> & Hsk).
      apply Forall_app in Hk as [_ Hk]. inversion Hk as [|? ? Hkn Hkr]; subst.
      assert (Hrest : rest_of (SInner (sk ++ n :: r)) = pruned n ++ flat_map vis r).
      { cbn [rest_of]. rewrite flat_map_app, (vis_skipped _ Hsk). cbn [flat_map app]. unfold vis at 1. now rewrite Hn. }
      rewrite Hrest. rewrite Hl1. unfold stack_set_inner at 1, stack_inner at 1. rewrite <- Hl1. rewrite nth_middle. cbn [bind].
      rewrite set_nth_middle. destruct (app_last_ _ _ Hl1) as (m1 & y & -> & Hm1).
      rewrite <- !app_assoc. cbn [app].
      apply Forall_app in Hlow as [Hlow1 Hlow2]. assert (Hy : slot_empty y) by (inversion Hlow2; assumption).
      assert (Hoky : slot_ok l y). { apply Hok. rewrite <- app_assoc. rewrite <- Hm1. apply nth_middle. }
      assert (Hok2 : forall z, slot_ok l z -> stack_ok (m1 ++ z :: SInner r :: l2)).
      { intros z Hz. assert (E : m1 ++ z :: SInner r :: l2 = set_nth l z (set_nth (S l) (SInner r) ((m1 ++ [y]) ++ SInner (sk ++ n :: r) :: l2))).
        { rewrite <- Hl1. rewrite set_nth_middle, <- app_assoc, <- Hm1. cbn [app]. now rewrite set_nth_middle. }
        rewrite E. apply stack_ok_set; [|exact Hz]. apply stack_ok_set; [exact Hok|exact Hkr]. }
      assert (Hlow' : forall z, Forall slot_empty (firstn l (m1 ++ z :: SInner r :: l2))).
      { intros z. rewrite firstn_app, <- Hm1, firstn_all, Nat.sub_diag. cbn. now rewrite app_nil_r. }
      assert (Hpend : forall z, pending (m1 ++ z :: SInner r :: l2) = rest_of z ++ flat_map vis r ++ pending l2).
      { intros z. unfold pending. rewrite flat_map_app. fold (pending m1). rewrite (pending_empty _ Hlow1). reflexivity. }
      rewrite !app_length in Hfuel. cbn [length] in Hfuel.
      weigh.
      destruct n as [bn [ncs|nes]]; destruct l as [|l'].
      * destruct Hkn.
      * cbn [node_children read_inner bind]. unfold stack_set_inner, stack_inner. rewrite <- Hm1, nth_middle.
        destruct y as [|ycs]; [destruct Hoky|]. cbn [bind]. rewrite set_nth_middle, Hm1.
        destruct (IH (S l') (m1 ++ SInner ncs :: SInner r :: l2)) as (s' & E & H1 & H2).
        -- apply Hok2. exact Hkn.
        -- apply Hlow'.
        -- rewrite app_length. cbn [length]. weigh.
           cbn [node_size] in Hfuel. destruct Hy as [Hy|Hy]; [discriminate|injection Hy as ->]. cbn [map list_sum fold_right] in Hfuel. lia.
        -- exists s'. rewrite Hpend in H2, E. rewrite E, H2. cbn [rest_of pruned]. fold vis.
           change (fun c : node => if test_bounds f (node_bounds c) then pruned c else []) with vis.
           auto.
      * destruct m1; [|discriminate]. cbn [app] in *. cbn [node_children read_leaf bind].
        destruct y as [yes|]; [|destruct Hoky].
        unfold stack_set_leaf, stack_leaf. cbn [nth_error bind set_nth].
        destruct (IH 0 (SLeaf nes :: SInner r :: l2)) as (s' & E & H1 & H2).
        -- apply Hok2. exact I.
        -- constructor.
        -- cbn [length]. weigh. cbn [node_size] in Hfuel. cbn [map list_sum fold_right slot_size] in *. lia.
        -- exists s'. specialize (Hpend (SLeaf nes)). cbn [app] in Hpend. rewrite Hpend in H2, E. rewrite E, H2. cbn [rest_of pruned].
           auto.
      * destruct Hkn.
    + apply find_rest_none in Ef. unfold stack_set_inner, stack_inner. rewrite nth_middle. cbn [bind].
      rewrite set_nth_middle.
      destruct (IH (length l1 + 1) (l1 ++ SInner [] :: l2)) as (s' & E & H1 & H2).
      * rewrite <- (set_nth_middle l1 l2 (SInner []) (SInner cs)). apply stack_ok_set; [exact Hok|]. rewrite Hl1. constructor.
      * replace (l1 ++ SInner [] :: l2) with ((l1 ++ [SInner []]) ++ l2) by (now rewrite <- app_assoc).
        rewrite firstn_app. replace (length l1 + 1 - length (l1 ++ [SInner []])) with 0 by (rewrite app_length; cbn; lia).
        rewrite firstn_all2 by (rewrite app_length; cbn; lia). cbn. rewrite app_nil_r. apply Forall_app. split; [exact Hlow|].
        constructor; [now right|constructor].
      * rewrite app_length in *. cbn [length] in *. weigh. lia.
      * exists s'.
        assert (Ep : pending (l1 ++ SInner [] :: l2) = pending l2).
        { unfold pending. rewrite flat_map_app. fold (pending l1). now rewrite (pending_empty _ Hlow). }
        rewrite Ep in *. cbn [rest_of]. rewrite (vis_skipped _ Ef). auto.
Qed.

Lemma next_spec s : stack_ok s ->
  exists s', iter_next_with brw f s = Ok (hd_error (pending s), s') /\ stack_ok s' /\ pending s' = tl (pending s).
Proof.
  intros H. apply iter_loop_spec; [exact H|constructor|]. unfold stack_fuel. lia.
Qed.

Lemma stack_iterates s : stack_ok s -> iterates (iter_next_with brw f) s (pending s).
Proof.
  intros H. apply (iterates_sim _ (fun s l => stack_ok s /\ pending s = l)).
  - intros s0 l [H0 <-]. destruct (next_spec s0 H0) as (s' & E & H1 & H2). eauto.
  - auto.
Qed.

Lemma iter_new_spec (t : rtree B K V) : kinded (fst t) (snd t) ->
  exists s, iter_new t = Ok s /\ stack_ok s /\ pending s = pruned (snd t).
Proof.
  destruct t as [level [b ch]]. cbn [fst snd]. intros Hk. unfold iter_new. cbn [fst snd].
  assert (Hinit : forall m, stack_ok (stack_new [] (repeat [] m))).
  { intros m [|i] x; cbn; [intros [= <-]; exact I|]. intros Hx. apply nth_error_In in Hx. apply in_map_iff in Hx as (c & <- & Hc).
    apply repeat_spec in Hc as ->. constructor. }
  assert (Hpend : forall m, flat_map rest_of (map SInner (repeat (@nil node) m)) = []).
  { induction m; cbn; auto. }
  destruct level as [|l], ch as [cs|es]; cbn in Hk; try contradiction; cbn [children_at node_children read_leaf read_inner bind].
  - cbn. eexists; split; [reflexivity|]. split; [apply (stack_ok_set _ 0 (SLeaf es) (Hinit 0)); exact I|]. cbn. apply app_nil_r.
  - unfold stack_set_inner, stack_inner, stack_new.
    assert (E : SLeaf [] :: map SInner (repeat (@nil node) (S l)) = (SLeaf [] :: map SInner (repeat [] l)) ++ [SInner (@nil node)]
      :> list (slot (list (K * V)) (list node))).
    { replace (S l) with (l + 1) by lia. rewrite repeat_app, map_app. reflexivity. }
    assert (El : length (SLeaf [] :: map SInner (repeat (@nil node) l) : list (slot (list (K * V)) (list node))) = S l).
    { cbn. now rewrite map_length, repeat_length. }
    rewrite E. assert (En := nth_middle _ (SInner []) [] : nth_error (_ ++ [SInner []]) (length (SLeaf [] :: map SInner (repeat (@nil node) l) : list (slot (list (K * V)) (list node)))) = _).
    rewrite El in En. cbn [fst]. rewrite En. cbn [bind]. eexists; split; [reflexivity|]. split.
    + apply stack_ok_set; [rewrite <- E; apply (Hinit (S l))|exact Hk].
    + assert (Es := set_nth_middle (SLeaf [] :: map SInner (repeat (@nil node) l)) [] (SInner cs) (SInner []) : _ = _ :> list (slot (list (K * V)) (list node))).
      rewrite El in Es. rewrite Es. unfold pending. rewrite flat_map_app. cbn [flat_map rest_of filter app].
      rewrite Hpend. cbn. apply app_nil_r.
Qed.

(** *** Pruning against the specification *)
Lemma pruned_sub n : sublist (pruned n) (filter tk (entries n)).
Proof.
  assert (Hrefl : forall l : list (K * V), sublist l l) by (induction l; constructor; auto).
  assert (Happ : forall a b c d : list (K * V), sublist a b -> sublist c d -> sublist (a ++ c) (b ++ d)).
  { intros a b c d H1 H2. induction H1; cbn; [exact H2|apply sub_skip; auto|apply sub_take; auto]. }
  assert (Hnil : forall l : list (K * V), sublist [] l) by (induction l; constructor; auto).
  induction n as [b es|b cs IH] using node_ind'; cbn [pruned entries]; [apply Hrefl|].
  induction IH as [|c cs Hc _ IHcs]; cbn; [constructor|]. rewrite filter_app. apply Happ; [|exact IHcs].
  destruct (test_bounds f (node_bounds c)); [exact Hc|apply Hnil].
Qed.

Lemma wf_kinded cfg ok rel lo strict level (n : node) : wf cfg ok rel lo strict level n -> kinded level n.
Proof.
  revert n; induction level as [|l IH]; intros n Hwf; destruct (wf_inv _ _ _ _ _ _ _ Hwf) as (b & x & ->); cbn; [exact I|].
  rewrite wf_inner in Hwf. destruct Hwf as (_ & _ & Hcs). eapply Forall_impl; [|exact Hcs]. intros c [Hc _]. auto.
Qed.

Lemma pruned_all n : (forall b, test_bounds f b = true) -> (forall q, test_key f q = true) -> pruned n = entries n.
Proof.
  intros Hb Hk. induction n as [b es|b cs IH] using node_ind'; cbn [pruned entries].
  - induction es as [|e es IHes]; cbn; [reflexivity|]. rewrite Hk. now f_equal.
  - induction IH as [|c cs Hc _ IHcs]; cbn; [reflexivity|]. rewrite Hb, Hc, IHcs. reflexivity.
Qed.

Context (P : Params B K) (cfg : config) (ok : K -> Prop) (incl : B -> B -> Prop).

Lemma cover_prune b (l : list (K * V)) : filter_lawful P brw incl ok (test_bounds f) (test_key f) ->
  rel_cover P incl b (map fst l) -> Forall (fun kv => ok (fst kv)) l -> test_bounds f b = false -> filter tk l = [].
Proof.
  intros HF HC Hok Hb. induction l as [|[k v] l IH]; cbn; [reflexivity|].
  inversion Hok as [|? ? Hk Hl]; subst. cbn in Hk.
  assert (Hin : incl b (key_bounds P k)) by (apply HC; left; reflexivity).
  destruct (test_key f (brw k)) eqn:E; [rewrite (HF b k Hk E Hin) in Hb; discriminate|].
  apply IH; [|exact Hl]. intros k' Hk'. apply HC. now right.
Qed.

Lemma pruned_lawful lo strict level n : filter_lawful P brw incl ok (test_bounds f) (test_key f) ->
  wf cfg ok (rel_cover P incl) lo strict level n -> pruned n = filter tk (entries n).
Proof.
  intros HF. revert n; induction level as [|l IH]; intros n Hwf; destruct (wf_inv _ _ _ _ _ _ _ Hwf) as (b & x & ->); [reflexivity|].
  rewrite wf_inner in Hwf. destruct Hwf as (_ & _ & Hcs). cbn [pruned entries].
  induction Hcs as [|c cs [Hc _] Hcs IHcs]; cbn; [reflexivity|]. rewrite filter_app, IHcs. f_equal.
  destruct (test_bounds f (node_bounds c)) eqn:E; [now apply IH|].
  symmetry. eapply cover_prune; [exact HF|exact (wf_rel _ _ _ _ _ _ _ Hc)|exact (wf_ok _ _ _ _ _ _ _ Hc)|exact E].
Qed.

(** *** The API *)
Lemma filter_iter_any (t : rtree B K V) : reachable P cfg any_key t ->
  exists s l, rtree_filter_iter t f = Ok s /\ iterates (iter_next_with brw f) s l /\ sublist l (filter tk (contents t)).
Proof.
  intros Hr. apply inv_any in Hr. destruct Hr as [Hw _]. unfold rtree_filter_iter, filter_iter_new.
  destruct (test_bounds f (node_bounds (snd t))).
  - destruct (iter_new_spec t (wf_kinded _ _ _ _ _ _ _ Hw)) as (s & E & H1 & H2). exists s, (pending s).
    split; [exact E|]. split; [now apply stack_iterates|]. rewrite H2. apply pruned_sub.
  - exists [], []. split; [reflexivity|]. split; [apply stack_iterates; intros [|i] x; discriminate|].
    generalize (filter tk (contents t)). induction l; constructor; auto.
Qed.

Lemma filter_iter_wf (t : rtree B K V) lo strict : filter_lawful P brw incl ok (test_bounds f) (test_key f) ->
  wf cfg ok (rel_cover P incl) lo strict (fst t) (snd t) ->
  exists s, rtree_filter_iter t f = Ok s /\ iterates (iter_next_with brw f) s (filter tk (contents t)).
Proof.
  intros HF Hw. unfold rtree_filter_iter, filter_iter_new.
  destruct (test_bounds f (node_bounds (snd t))) eqn:Eb.
  - destruct (iter_new_spec t (wf_kinded _ _ _ _ _ _ _ Hw)) as (s & E & H1 & H2). exists s.
    split; [exact E|]. unfold contents. rewrite <- (pruned_lawful _ _ _ _ HF Hw), <- H2. now apply stack_iterates.
  - exists []. split; [reflexivity|]. unfold contents.
    rewrite (cover_prune (node_bounds (snd t))); [apply stack_iterates; intros [|i] x; discriminate|exact HF| |exact (wf_ok _ _ _ _ _ _ _ Hw)|exact Eb].
    exact (wf_rel _ _ _ _ _ _ _ Hw).
Qed.

Lemma filter_iter_exact (t : rtree B K V) : bounds_laws (bops P) incl ->
  filter_lawful P brw incl ok (test_bounds f) (test_key f) -> reachable P cfg ok t ->
  exists s, rtree_filter_iter t f = Ok s /\ iterates (iter_next_with brw f) s (filter tk (contents t)).
Proof. intros BL HF Hr. apply (inv_cover _ _ _ incl _ BL) in Hr. destruct Hr as [Hw _]. eapply filter_iter_wf; eassumption. Qed.
End IterProof.

Lemma iter_wf {B K V} cfg ok rel lo strict (t : rtree B K V) : wf cfg ok rel lo strict (fst t) (snd t) ->
  exists s, rtree_iter t = Ok s /\ iterates iter_next s (contents t).
Proof.
  intros Hw. destruct (iter_new_spec (fun k : K => k) no_filter t (wf_kinded _ _ _ _ _ _ _ Hw)) as (s & E & H1 & H2).
  exists s. split; [exact E|]. unfold contents. erewrite <- (pruned_all (fun k : K => k) no_filter); [|reflexivity|reflexivity].
  rewrite <- H2. now apply stack_iterates.
Qed.

Lemma iter_all {B K V} (P : Params B K) cfg ok (t : rtree B K V) : reachable P cfg ok t ->
  exists s, rtree_iter t = Ok s /\ iterates iter_next s (contents t).
Proof. intros Hr. apply inv_any in Hr. destruct Hr as [Hw _]. eapply iter_wf; eassumption. Qed.
