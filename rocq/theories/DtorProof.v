(** Dropping a tree whose destructors panic: proofs. *)
From Verif Require Export DtorSpec CrashForest.

Section DtorProof.
Context {K V : Type} (crash : nat -> bool) (gv : list (xthing K V)).
Notation xthing := (xthing K V).
Notation D := (D K V).
Notation xown := (xown gv).
Notation among := (panics_among crash).

Lemma dtors_app (l l' : list xthing) : dtors (l ++ l') = dtors l + dtors l'.
Proof. unfold dtors. now rewrite filter_app, app_length. Qed.
Lemma among_app c n m : among c (n + m) = among c n + among (c + n) m.
Proof. unfold panics_among. now rewrite seq_app, filter_app, app_length. Qed.
Lemma among_0 c : among c 0 = 0.
Proof. reflexivity. Qed.
Lemma among_1 c : among c 1 = if crash c then 1 else 0.
Proof. unfold panics_among. cbn [seq filter]. now destruct (crash c). Qed.

Lemma destroyed_nil (s : xmem K V) : destroyed [] s s.
Proof. unfold destroyed. cbn. rewrite Nat.add_0_r. auto. Qed.
Lemma destroyed_app d d' (s s1 s2 : xmem K V) : destroyed d s s1 -> destroyed d' s1 s2 -> destroyed (d ++ d') s s2.
Proof.
  intros (E1 & E2 & E3 & E4) (E1' & E2' & E3' & E4'). unfold destroyed.
  rewrite E1', E2', E3', E4', E1, E2, E3, E4, rev_app_distr, app_assoc, dtors_app. splits; auto. lia.
Qed.
Lemma destroyed_own d (s s' : xmem K V) L : destroyed d s s' -> xown s (d ++ L) -> xown s' L.
Proof.
  intros (E1 & E2 & E3 & E4) [H1 H2 H3 H4]. split; auto; rewrite ?E1, ?E2; auto.
  rewrite E3, H4. rewrite <- (Permutation_rev d). perm.
Qed.

(** How destroying the units [us] ends and what of them was destroyed. *)
Definition ends (us : list (list xthing)) (c : nat) (o : fin) (d : list xthing) : Prop :=
  match o with
  | Done => d = concat us /\ among c (dtors d) = 0
  | Unwinding => exists b u a, us = b ++ u :: a /\ d = concat b ++ u /\
      among c (dtors (concat b)) = 0 /\ among (c + dtors (concat b)) (dtors u) = 1
  | Aborted => exists b u a p q, us = b ++ u :: a /\ u = p ++ q /\ d = concat b ++ p /\
      among c (dtors (concat b)) = 0 /\ among (c + dtors (concat b)) (dtors p) = 2
  end.

Definition wspec (m : D fin) (us : list (list xthing)) : Prop :=
  forall s L, xown s (concat us ++ L) ->
  exists o s' d, m s = Some (o, s') /\ destroyed d s s' /\ ends us (x_calls s) o d.

Lemma ends_more us us' c o d : o <> Done -> ends us c o d -> ends (us ++ us') c o d.
Proof.
  destruct o; intros Hn H; [now destruct Hn| |].
  - destruct H as (b & u & a & -> & Hr). exists b, u, (a ++ us'). rewrite <- app_assoc. now split.
  - destruct H as (b & u & a & p & q & -> & Hr). exists b, u, (a ++ us'), p, q. rewrite <- app_assoc. now split.
Qed.

Lemma ends_then us us' c o d d' : ends us c Done d -> ends us' (c + dtors d) o d' -> ends (us ++ us') c o (d ++ d').
Proof.
  intros [-> Hc] H. destruct o.
  - destruct H as [-> Hc']. split; [now rewrite concat_app|]. rewrite dtors_app, among_app. lia.
  - destruct H as (b & u & a & -> & -> & H1 & H2). exists (us ++ b), u, a. rewrite concat_app, dtors_app, among_app, Nat.add_assoc.
    splits; auto; [now rewrite <- app_assoc|now rewrite <- app_assoc|lia].
  - destruct H as (b & u & a & p & q & -> & Hu & -> & H1 & H2). exists (us ++ b), u, a, p, q. rewrite concat_app, dtors_app, among_app, Nat.add_assoc.
    splits; auto; [now rewrite <- app_assoc|now rewrite <- app_assoc|lia].
Qed.

Lemma wspec_ret : wspec (dret Done) [].
Proof. intros s L Ho. exists Done, s, []. splits; [reflexivity|apply destroyed_nil|now split]. Qed.

Lemma wspec_then m1 m2 us1 us2 : wspec m1 us1 -> wspec m2 us2 -> wspec (andthen m1 m2) (us1 ++ us2).
Proof.
  intros H1 H2 s L Ho. rewrite concat_app, <- app_assoc in Ho. destruct (H1 s _ Ho) as (o & s1 & d & E & Hd & He).
  unfold andthen, dbind. rewrite E. destruct o.
  2,3: eexists _, s1, d; splits; [reflexivity|exact Hd|apply ends_more; [discriminate|exact He]].
  assert (Ed : d = concat us1) by apply He. subst d. assert (Ho1 := destroyed_own _ _ _ _ Hd Ho).
  destruct (H2 s1 L Ho1) as (o2 & s2 & d2 & E2 & Hd2 & He2). exists o2, s2, (concat us1 ++ d2). splits; [exact E2| |].
  - eapply destroyed_app; [exact Hd|exact Hd2].
  - apply ends_then; [exact He|]. destruct Hd as (_ & _ & _ & Ec). now rewrite <- Ec.
Qed.

Lemma wspec_each {A} (f : A -> D fin) (u : A -> list (list xthing)) l : (forall x, In x l -> wspec (f x) (u x)) ->
  wspec (each f l) (flat_map u l).
Proof.
  induction l as [|x l IH]; intros H; cbn [each flat_map]; [apply wspec_ret|].
  apply wspec_then; [apply H; now left|]. apply IH. intros y Hy. apply H. now right.
Qed.

Lemma wspec_each1 {A} (f : A -> D fin) (u : A -> list xthing) l : (forall x, In x l -> wspec (f x) [u x]) ->
  wspec (each f l) (map u l).
Proof.
  intros H. replace (map u l) with (flat_map (fun x => [u x]) l); [now apply wspec_each|].
  clear H. induction l as [|x l IH]; cbn; [reflexivity|now rewrite IH].
Qed.

Lemma destroy_in x s L : xown s (x :: L) ->
  exists s', xdestroy x s = Some (tt, s') /\ x_next s' = x_next s /\ x_made s' = x_made s /\ x_gone s' = x :: x_gone s /\ x_calls s' = x_calls s.
Proof.
  intros Ho. exists (lose x s). unfold xdestroy. destruct x as [i|i|k|v]; try (splits; reflexivity).
  all: rewrite (xown_live gv s (_ :: L) _ Ho (or_introl eq_refl) eq_refl); splits; reflexivity.
Qed.

Lemma wspec_free id : wspec (let$ _ := xdestroy (XBuf id) in dret Done) [[XBuf id]].
Proof.
  intros s L Ho. cbn [concat app] in Ho. destruct (destroy_in _ _ _ Ho) as (s' & E & E1 & E2 & E3 & E4).
  exists Done, s', [XBuf id]. unfold dbind. rewrite E. splits; [reflexivity| |split; [reflexivity|reflexivity]].
  unfold destroyed. cbn. rewrite Nat.add_0_r. auto.
Qed.

Lemma dtor_ok x s L : is_obj x = true \/ True -> (forall i, x <> XBuf i) -> xown s (x :: L) ->
  exists s', dtor crash x s = Some (if crash (x_calls s) then Unwinding else Done, s') /\ destroyed [x] s s'.
Proof.
  intros _ Hx Ho. destruct (destroy_in _ _ _ Ho) as (s' & E & E1 & E2 & E3 & E4). unfold dtor, dbind. rewrite E, E4.
  eexists. split; [reflexivity|]. unfold destroyed. cbn [x_next x_made x_gone x_calls rev app].
  rewrite E1, E2, E3. splits; auto. destruct x as [i| | |]; [now destruct (Hx i)| | |]; cbn; lia.
Qed.

Lemma wspec_dtor x : (forall i, x <> XBuf i) -> wspec (dtor crash x) [[x]].
Proof.
  intros Hx s L Ho. cbn [concat app] in Ho. destruct (dtor_ok x s L (or_intror Logic.I) Hx Ho) as (s' & E & Hd).
  assert (Hn : dtors [x] = 1) by (destruct x as [i| | |]; [now destruct (Hx i)| | |]; reflexivity).
  rewrite E. eexists _, s', [x]. splits; [reflexivity|exact Hd|]. destruct (crash (x_calls s)) eqn:Ec; cbn [ends].
  - exists [], [x], []. cbn [concat app]. splits; auto. rewrite Hn. cbn [dtors filter length]. rewrite Nat.add_0_r, among_1, Ec. reflexivity.
  - split; [reflexivity|]. rewrite Hn, among_1, Ec. reflexivity.
Qed.

Lemma wspec_kv kv : wspec (p_drop_kv crash kv) [xkv_things kv].
Proof.
  destruct kv as [k v]. intros s L Ho. cbn [concat app xkv_things fst snd] in *.
  destruct (dtor_ok (XKey k) s _ (or_intror Logic.I) ltac:(discriminate) Ho) as (s1 & E1 & Hd1).
  assert (Ho1 := destroyed_own [_] _ _ _ Hd1 Ho).
  destruct (dtor_ok (XVal v) s1 _ (or_intror Logic.I) ltac:(discriminate) Ho1) as (s2 & E2 & Hd2).
  assert (Hc1 : x_calls s1 = S (x_calls s)) by (destruct Hd1 as (_ & _ & _ & ->); cbn; lia).
  assert (Hd := destroyed_app _ _ _ _ _ Hd1 Hd2). cbn [app] in Hd. rewrite Hc1 in E2.
  unfold p_drop_kv, glue, dbind. cbn [fst snd]. rewrite E1.
  assert (Ham : among (x_calls s) 2 = (if crash (x_calls s) then 1 else 0) + (if crash (S (x_calls s)) then 1 else 0)).
  { change 2 with (1 + 1). rewrite among_app, !among_1, Nat.add_1_r. reflexivity. }
  destruct (crash (x_calls s)), (crash (S (x_calls s))); rewrite E2; eexists _, s2, [XKey k; XVal v]; splits;
    try reflexivity; try exact Hd; cbn [ends].
  - exists [], [XKey k; XVal v], [], [XKey k; XVal v], []. cbn [concat app]. splits; auto.
    cbn [dtors filter length]. rewrite Nat.add_0_r. exact Ham.
  - exists [], [XKey k; XVal v], []. cbn [concat app]. splits; auto. cbn [dtors filter length]. rewrite Nat.add_0_r. exact Ham.
  - exists [], [XKey k; XVal v], []. cbn [concat app]. splits; auto. cbn [dtors filter length]. rewrite Nat.add_0_r. exact Ham.
  - split; [reflexivity|]. exact Ham.
Qed.

Lemma wspec_vec {T} (f : T -> D fin) (u : T -> list xthing) id l : (forall x, wspec (f x) [u x]) ->
  wspec (p_drop_vec f id l) (map u (rev l) ++ [[XBuf id]]).
Proof. intros H. unfold p_drop_vec. apply wspec_then; [|apply wspec_free]. apply wspec_each1. auto. Qed.
End DtorProof.

Section DtorTree.
Context {B K V : Type} (crash : nat -> bool) (bdrop : bool) (gv : list (xthing K V)) (cfg : config).
Notation xnode := (xnode B K V).
Notation wspec := (wspec crash gv).
Notation xown := (xown gv).
Notation among := (panics_among crash).

Lemma wspec_bare (n : xnode) : wspec (p_drop_bare crash bdrop n) [bnd_things bdrop (x_bid n)].
Proof.
  unfold p_drop_bare, bnd_things. destruct bdrop; [apply wspec_dtor; discriminate|].
  intros s L Ho. exists Done, s, []. splits; [reflexivity|apply destroyed_nil|split; reflexivity].
Qed.

Lemma wspec_read {A} (m : D K V A) (a : A) (k : A -> D K V fin) us :
  (forall s L, xown s (concat us ++ L) -> m s = Some (a, s)) -> wspec (k a) us -> wspec (dbind m k) us.
Proof. intros Hm Hk s L Ho. unfold dbind. rewrite (Hm s L Ho). exact (Hk s L Ho). Qed.

Lemma concat_units_perm (f : xnode -> list (xthing K V)) (cs : list xnode) : (forall c, In c cs -> Permutation (concat (units bdrop c)) (f c)) ->
  Permutation (concat (flat_map (units bdrop) cs)) (flat_map f cs).
Proof.
  induction cs as [|c cs IH]; intros H; cbn [flat_map]; [reflexivity|]. rewrite concat_app. apply Permutation_app; [apply H; now left|].
  apply IH. intros d Hd. apply H. now right.
Qed.

Lemma concat_map {A C} (f : A -> list C) l : concat (map f l) = flat_map f l.
Proof. symmetry. apply flat_map_concat_map. Qed.

(** What the units of a well-formed node are: all it owns but its bounds. *)
Lemma units_things (n : xnode) : Permutation (concat (units bdrop n)) (XBuf (x_id n) :: xthings_ch bdrop (x_children n)).
Proof.
  induction n as [b bid id es|b bid id cs IH] using xnode_ind'; cbn [units x_id x_children xthings_ch].
  - rewrite concat_app, concat_map. cbn [concat]. rewrite app_nil_r.
    rewrite (Permutation_flat_map_ _ _ _ (Permutation_sym (Permutation_rev es))). perm.
  - rewrite !concat_app, concat_map. cbn [concat]. rewrite app_nil_r.
    rewrite (concat_units_perm (fun c => XBuf (x_id c) :: xthings_ch bdrop (x_children c))).
    2:{ intros c Hc. rewrite Forall_forall in IH. now apply IH. }
    rewrite (Permutation_flat_map_ _ _ _ (Permutation_sym (Permutation_rev cs))).
    clear. induction cs as [|c cs IHcs]; cbn [flat_map]; [reflexivity|]. rewrite xthings_eq.
    transitivity ((bnd_things bdrop (x_bid c) ++ XBuf (x_id c) :: xthings_ch bdrop (x_children c)) ++
      (flat_map (fun c => XBuf (x_id c) :: xthings_ch bdrop (x_children c)) cs ++ flat_map (fun c => bnd_things bdrop (x_bid c)) cs ++ [XBuf id])); [perm|].
    rewrite IHcs. perm.
Qed.

Lemma all_units_things (t : xcontainer B K V) : Permutation (concat (all_units bdrop t)) (xthings_c bdrop t).
Proof.
  unfold all_units, xthings_c. rewrite xthings_eq, concat_app, units_things. cbn [concat]. rewrite app_nil_r. perm.
Qed.

Lemma wspec_node level (n : xnode) : xwf cfg level n -> wspec (p_drop_node crash bdrop level n) (units bdrop n).
Proof.
  revert n; induction level as [|l IH]; intros n Hwf; cbn [p_drop_node].
  - apply xwf_leaf in Hwf as (b & bid & id & es & -> & Hl). cbn [units x_id].
    apply (wspec_read _ es).
    2:{ apply (wspec_vec crash gv (p_drop_kv crash) xkv_things). apply wspec_kv. }
    intros s L Ho. destruct (dspec_read_leaf gv b bid id es [XBuf id] (or_introl eq_refl) s (flat_map xkv_things es ++ L)) as (es' & s' & E & Ec & HQ & Ho').
    { eapply xown_perm; [|exact Ho]. rewrite concat_app, concat_map. cbn [concat].
      rewrite (Permutation_flat_map_ _ _ _ (Permutation_sym (Permutation_rev es))). perm. }
    revert E. unfold xread_leaf, dbind, xuse, dret. cbn [x_id x_children]. destruct (xlive s (XBuf id)); [reflexivity|discriminate].
  - apply xwf_inner in Hwf as (b & bid & id & cs & -> & Hl & Hcs). cbn [x_id].
    apply (wspec_read _ cs).
    2:{ cbn [units]. apply wspec_then.
        - apply wspec_each. intros c Hc. apply IH. rewrite Forall_forall in Hcs. now apply Hcs.
        - apply (wspec_vec crash gv (p_drop_bare crash bdrop) (fun c => bnd_things bdrop (x_bid c))). apply wspec_bare. }
    intros s L Ho.
    destruct (dspec_read_inner bdrop gv b bid id cs (XBuf id :: flat_map (xthings bdrop) cs) (part_refl _) s L) as (cs' & s' & E & Ec & HQ & Ho').
    { eapply xown_perm; [|exact Ho]. rewrite units_things. cbn [x_id x_children xthings_ch]. perm. }
    subst cs'. revert E. unfold xread_inner, dbind, xuse. cbn [x_id x_children]. destruct (xlive s (XBuf id)); [|discriminate].
    assert (Hsame : forall (l : list xnode) (s0 : xmem K V) u s1, dseq (fun c => use_bnd bdrop (x_bid c)) l s0 = Some (u, s1) -> s1 = s0).
    { clear. induction l as [|c l IHl]; intros s0 u s1; cbn [dseq]; [unfold dret; congruence|].
      unfold dbind, use_bnd, xuse, dret at 1. destruct bdrop; [destruct (xlive s0 _); [|discriminate]|]; apply IHl. }
    destruct (dseq _ cs s) as [[u s1]|] eqn:E1; [|discriminate]. apply Hsame in E1. subst s1. unfold dret. congruence.
Qed.

(** The root's bounds are destroyed even after a panic. *)
Lemma drop_container_ends (t : xcontainer B K V) s L : cwf cfg t -> xown s (xthings_c bdrop t ++ L) ->
  exists o s' d, p_drop_container crash bdrop t s = Some (o, s') /\ destroyed d s s' /\
  match o with
  | Done => d = concat (all_units bdrop t) /\ among (x_calls s) (dtors d) = 0
  | Unwinding => exists b u a, all_units bdrop t = b ++ u :: a /\ d = concat b ++ u ++ last a [] /\
      among (x_calls s) (dtors (concat b)) = 0 /\ among (x_calls s + dtors (concat b)) (dtors u) = 1 /\
      among (x_calls s + dtors (concat b ++ u)) (dtors (last a [])) = 0
  | Aborted => exists b u a p q, all_units bdrop t = b ++ u :: a /\ u ++ last a [] = p ++ q /\ d = concat b ++ p /\
      among (x_calls s) (dtors (concat b)) = 0 /\ among (x_calls s + dtors (concat b)) (dtors u) <> 0 /\
      among (x_calls s + dtors (concat b)) (dtors p) = 2
  end.
Proof.
  intros Hwf Ho. apply (xown_perm gv _ _ _ (Permutation_app_tail L (Permutation_sym (all_units_things t)))) in Ho.
  unfold all_units in *. set (r := bnd_things bdrop (x_bid (snd t))) in *. set (us := units bdrop (snd t)) in *.
  rewrite concat_app, <- app_assoc in Ho.
  destruct (wspec_node _ _ Hwf s _ Ho) as (o1 & s1 & d1 & E1 & Hd1 & He1). fold us in He1.
  unfold p_drop_container, glue, dbind. rewrite E1.
  assert (Hc1 : x_calls s1 = x_calls s + dtors d1) by apply Hd1.
  destruct o1; cbn [ends] in He1.
  - destruct He1 as [-> Ha]. assert (Ho1 := destroyed_own _ _ _ _ _ Hd1 Ho).
    destruct (wspec_bare (snd t) s1 L Ho1) as (o & s' & d & E & Hd & He). fold r in He. rewrite E. exists o, s', (concat us ++ d).
    splits; [reflexivity|eapply destroyed_app; eauto|]. rewrite Hc1 in He. destruct o; cbn [ends] in He.
    + destruct He as [-> Hc]. cbn [concat] in *. rewrite app_nil_r in *. split; [rewrite concat_app; cbn; now rewrite app_nil_r|].
      rewrite dtors_app, among_app. lia.
    + destruct He as (b & u & a & Eu & -> & H1 & H2). destruct b as [|x b]; [|destruct b; discriminate].
      injection Eu as -> <-. cbn [concat app] in *. exists us, u, []. cbn [last]. rewrite app_nil_r. splits; auto.
      change (dtors (@nil (xthing K V))) with 0 in H2. now rewrite Nat.add_0_r in H2.
    + destruct He as (b & u & a & p & q & Eu & Ep & -> & H1 & H2). destruct b as [|x b]; [|destruct b; discriminate].
      injection Eu as -> <-. cbn [concat app] in *. exists us, (p ++ q), [], p, q. cbn [last]. rewrite app_nil_r. change (dtors (@nil (xthing K V))) with 0 in H2.
      rewrite Nat.add_0_r in H2. splits; auto; [now rewrite <- Ep|rewrite dtors_app, among_app; lia].
  - destruct He1 as (b & u & a & Eu & -> & H1 & H2).
    assert (Ho1 : xown s1 (concat [r] ++ concat a ++ L)).
    { eapply destroyed_own; [exact Hd1|]. eapply xown_perm; [|exact Ho]. rewrite Eu, concat_app. cbn [concat]. perm. }
    destruct (wspec_bare (snd t) s1 _ Ho1) as (o & s' & d & E & Hd & He). fold r in He. rewrite E. rewrite Hc1 in He.
    assert (El : last (a ++ [r]) [] = r) by apply last_last.
    destruct o; cbn [ends] in He.
    + destruct He as [-> Hc]. cbn [concat] in *. rewrite app_nil_r in *. exists Unwinding, s', ((concat b ++ u) ++ r).
      splits; [reflexivity|eapply destroyed_app; eauto|]. exists b, u, (a ++ [r]). rewrite El. splits; auto.
      * rewrite Eu, <- app_assoc. reflexivity.
      * now rewrite <- app_assoc.
    + destruct He as (b' & u' & a' & Eu' & -> & H1' & H2'). destruct b' as [|x b']; [|destruct b'; discriminate].
      injection Eu' as Hr <-. subst u'. cbn [concat app] in *. exists Aborted, s', ((concat b ++ u) ++ r). splits; [reflexivity|eapply destroyed_app; eauto|].
      exists b, u, (a ++ [r]), (u ++ r), []. rewrite El. splits; auto.
      * rewrite Eu, <- app_assoc. reflexivity.
      * now rewrite app_nil_r.
      * now rewrite <- app_assoc.
      * lia.
      * rewrite dtors_app, among_app. change (dtors (@nil (xthing K V))) with 0 in H2'. rewrite Nat.add_0_r, dtors_app, Nat.add_assoc in H2'. lia.
    + exfalso. destruct He as (b' & u' & a' & p' & q' & Eu' & Ep & -> & H1' & H2'). destruct b' as [|x b']; [|destruct b'; discriminate].
      injection Eu' as Hr <-. assert (Hn : dtors p' <= 1).
      { assert (Hle : dtors r <= 1) by (unfold r, bnd_things; destruct bdrop; cbn; lia). rewrite Hr, Ep, dtors_app in Hle. lia. }
      assert (Hle2 : forall c n, among c n <= n).
      { clear. intros c n. unfold panics_among. rewrite <- (seq_length n c) at 2. induction (seq c n) as [|x l IH]; cbn [filter length]; [lia|]. destruct (crash x); cbn [length]; lia. }
      match type of H2' with among ?c ?n = _ => specialize (Hle2 c n) end. lia.
  - destruct He1 as (b & u & a & p & q & Eu & Ep & -> & H1 & H2). exists Aborted, s1, (concat b ++ p). splits; [reflexivity|exact Hd1|].
    exists b, u, (a ++ [r]), p, (q ++ last (a ++ [r]) []). splits; auto.
    + rewrite Eu, <- app_assoc. reflexivity.
    + rewrite Ep, <- app_assoc. reflexivity.
    + rewrite Ep, dtors_app, among_app. lia.
Qed.
End DtorTree.

Section DtorRun.
Context {B K V : Type} (crash : nat -> bool) (bdrop : bool) (gv : list (xthing K V)) (P : Params B K).
Notation xforest := (xforest B K V).
Notation mop := (mop B K V).
Notation fwf := (fwf bdrop).
Notation xforest_things := (xforest_things bdrop).

Lemma last_cut {A} (l : list (list A)) : concat l = concat (removelast l) ++ last l [].
Proof.
  destruct l as [|x l]; [reflexivity|]. rewrite (app_removelast_last []) at 1 by discriminate. rewrite concat_app. cbn [concat]. now rewrite app_nil_r.
Qed.

(** What was not destroyed. *)
Lemma drop_container_leak cfg (t : xcontainer B K V) s L : cwf cfg t -> xown gv s (xthings_c bdrop t ++ L) ->
  exists o s' d leak, p_drop_container crash bdrop t s = Some (o, s') /\ destroyed d s s' /\
    Permutation (xthings_c bdrop t) (d ++ leak) /\ (o = Done -> leak = []).
Proof.
  intros Hwf Ho. destruct (drop_container_ends crash bdrop gv cfg t s L Hwf Ho) as (o & s' & d & E & Hd & HR).
  assert (Hp := all_units_things bdrop t). destruct o.
  - destruct HR as [-> _]. exists Done, s', (concat (all_units bdrop t)), []. splits; auto. now rewrite app_nil_r.
  - destruct HR as (b & u & a & Eu & -> & _). exists Unwinding, s', (concat b ++ u ++ last a []), (concat (removelast a)). splits; auto; [|discriminate].
    rewrite <- Hp, Eu, concat_app. cbn [concat]. rewrite (last_cut a). perm.
  - destruct HR as (b & u & a & p & q & Eu & Ep & -> & _). exists Aborted, s', (concat b ++ p), (concat (removelast a) ++ q). splits; auto; [|discriminate].
    rewrite <- Hp, Eu, concat_app. cbn [concat]. rewrite (last_cut a).
    transitivity (concat b ++ (u ++ last a []) ++ concat (removelast a)); [perm|]. rewrite Ep. perm.
Qed.

Lemma fwf_unset (F : xforest) i : fwf F -> fwf (set_nth i None F).
Proof. intros HF. apply Forall_set; [exact HF|exact Logic.I]. Qed.

(** One call. *)
Lemma zstep_spec (F : xforest) (o : mop) s L : fwf F -> unwind_ok bdrop o ->
  xown gv s (xforest_things F ++ xgiven o ++ L) ->
  exists r s', zstep crash bdrop P F o s = Some (r, s') /\
  match r with
  | Some (x, F') => fwf F' /\ exists lost, xown gv s' (match x with Some x => x | None => [] end ++ xforest_things F' ++ lost ++ L) /\
      (x <> None -> lost = [])
  | None => exists H, xown gv s' (H ++ L)
  end.
Proof.
  intros HF Hu Ho.
  assert (Hx : match o with MDrop _ => True | _ => exists r s', zstep crash bdrop P F o s = Some (r, s') /\
    match r with
    | Some (x, F') => fwf F' /\ exists lost, xown gv s' (match x with Some x => x | None => [] end ++ xforest_things F' ++ lost ++ L) /\
      (x <> None -> lost = [])
    | None => exists H, xown gv s' (H ++ L)
    end end).
  { destruct (xstep_spec0 crash bdrop gv P F o HF Hu s L) as (r & s1 & E & Ec & HR).
    { eapply xown_perm; [|exact Ho]. perm. }
    destruct o; try exact Logic.I; cbn [zstep]; unfold dbind; rewrite E; (destruct r as [[x F1]|F1];
      [destruct HR as (_ & [HF1 _] & Ho1); exists (Some (Some x, F1)), s1; split; [reflexivity|]; split; [exact HF1|];
         exists []; split; [|reflexivity]; cbn [fst snd] in Ho1; eapply xown_perm; [|exact Ho1]; perm
      |destruct HR as (_ & [HF1 _] & leak & Ho1 & _); exists (Some (None, F1)), s1; split; [reflexivity|]; split; [exact HF1|];
         exists leak; split; [|congruence]; eapply xown_perm; [|exact Ho1]; perm]). }
  destruct o as [cfg|i k v|i k v|i Q BR q|i Q BR q v|i|i]; try exact Hx. clear Hx. cbn [zstep].
  change (xgiven (MDrop i)) with (@nil (xthing K V)) in Ho. cbn [app] in Ho.
  destruct (xtree_at F i) as [[cfg t]|] eqn:Et.
  2:{ exists (Some (Some [], F)), s. split; [reflexivity|]. split; [exact HF|]. exists []. split; [exact Ho|reflexivity]. }
  destruct (fwf_at bdrop F i cfg t HF Et) as [Hw Hc]. destruct (xforest_at bdrop F i cfg t Et) as (rest & Hp & _ & Hp').
  destruct (drop_container_leak cfg t s (rest ++ L) Hw) as (f & s' & d & leak & E & Hd & Hl & Hdone).
  { eapply xown_perm; [|exact Ho]. rewrite Hp. perm. }
  assert (Ho' : xown gv s' (leak ++ rest ++ L)).
  { eapply destroyed_own; [exact Hd|]. eapply xown_perm; [|exact Ho]. rewrite Hp, Hl. perm. }
  unfold dbind. rewrite E. destruct f.
  - exists (Some (Some [], set_nth i None F)), s'. split; [reflexivity|]. split; [now apply fwf_unset|].
    exists []. split; [|reflexivity]. rewrite (Hdone eq_refl) in Ho'. eapply xown_perm; [|exact Ho']. rewrite Hp'. perm.
  - exists (Some (None, set_nth i None F)), s'. split; [reflexivity|]. split; [now apply fwf_unset|].
    exists leak. split; [|congruence]. eapply xown_perm; [|exact Ho']. rewrite Hp'. perm.
  - exists None, s'. split; [reflexivity|]. exists (leak ++ rest). now rewrite <- app_assoc.
Qed.

Lemma zrun_spec (os : list mop) (F : xforest) s L : fwf F -> Forall (unwind_ok bdrop) os ->
  xown gv s (xforest_things F ++ flat_map xgiven os ++ L) ->
  exists outs oF s', zrun crash bdrop P F os s = Some ((outs, oF), s') /\
  match oF with
  | Some F' => fwf F' /\ length outs = length os /\ exists lost,
      xown gv s' (got_back outs ++ xforest_things F' ++ lost ++ L) /\ (Forall (fun o => o <> None) outs -> lost = [])
  | None => exists H, xown gv s' H
  end.
Proof.
  revert F s L; induction os as [|o os IH]; intros F s L HF Hu Ho; cbn [zrun flat_map].
  - exists [], (Some F), s. splits; auto. exists []. split; [|reflexivity]. eapply xown_perm; [|exact Ho]. cbn. perm.
  - inversion Hu as [|? ? Hu1 Hu2]; subst. cbn [flat_map] in Ho.
    destruct (zstep_spec F o s (flat_map xgiven os ++ L) HF Hu1) as (r & s1 & E & HR).
    { eapply xown_perm; [|exact Ho]. perm. }
    unfold dbind. rewrite E. destruct r as [[x F1]|].
    2:{ destruct HR as [H HR]. exists [], None, s1. split; [reflexivity|]. eexists. exact HR. }
    destruct HR as (HF1 & lost1 & Ho1 & Hl1).
    destruct (IH F1 s1 (match x with Some x => x | None => [] end ++ lost1 ++ L) HF1 Hu2) as (outs & oF & s' & E' & HR').
    { eapply xown_perm; [|exact Ho1]. perm. }
    unfold dbind. rewrite E'. exists (x :: outs), oF, s'. split; [reflexivity|]. destruct oF as [F'|]; [|exact HR'].
    destruct HR' as (HF' & Hlen & lost & Ho' & Hlost). splits; [exact HF'|cbn; lia|].
    exists (lost ++ lost1). split.
    + eapply xown_perm; [|exact Ho']. rewrite got_back_cons. perm.
    + inversion 1 as [|? ? Hx Hxs]; subst. rewrite (Hlost Hxs), (Hl1 Hx). reflexivity.
Qed.
End DtorRun.

(** A state reached by a program. *)
Lemma zrun_init {B K V} crash bdrop (P : Params B K) (os : list (mop B K V)) : Forall (unwind_ok bdrop) os ->
  exists outs oF s, zrun crash bdrop P [] os xinit = Some ((outs, oF), s) /\
  match oF with
  | Some F => fwf bdrop F /\ length outs = length os /\ exists lost,
      xown (flat_map xgiven os) s (got_back outs ++ xforest_things bdrop F ++ lost) /\ (Forall (fun o => o <> None) outs -> lost = [])
  | None => exists H, xown (flat_map xgiven os) s H
  end.
Proof.
  intros Hu. destruct (zrun_spec crash bdrop (flat_map xgiven os) P os [] xinit [] ltac:(constructor) Hu) as (outs & oF & s & E & HR).
  - eapply xown_perm; [|apply xown_init, xgiven_not_obj]. cbn. now rewrite app_nil_r.
  - exists outs, oF, s. split; [exact E|]. destruct oF as [F|]; [|exact HR]. destruct HR as (H1 & H2 & lost & H3 & H4).
    splits; auto. exists lost. now rewrite app_nil_r in H3.
Qed.
