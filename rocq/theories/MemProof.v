(** Ownership: the model with explicit buffers and destructors agrees with Model.v and accounts for everything. *)
From Verif Require Export MemSpec Main.

(** ** Functions on elements do not look beyond their bounds *)
Section Natural.
Context {B K T T' : Type} (P : Params B K) (f : T' -> T) (bnd : T -> B) (bnd' : T' -> B).
Context (Hb : forall x, bnd' x = bnd (f x)).

Lemma enumerate_map (l : list T') : enumerate (map f l) = map (fun ix => (fst ix, f (snd ix))) (enumerate l).
Proof.
  unfold enumerate. rewrite map_length. generalize 0 as s. induction l as [|x l IH]; intros s; cbn; [reflexivity|].
  now rewrite IH.
Qed.

Lemma set_nth_map i x (l : list T') : set_nth i (f x) (map f l) = map f (set_nth i x l).
Proof. revert i; induction l as [|y l IH]; intros [|i]; cbn; congruence. Qed.

Lemma nth_error_map_ i (l : list T') : nth_error (map f l) i = option_map f (nth_error l i).
Proof. revert i; induction l as [|y l IH]; intros [|i]; cbn; auto. Qed.

Lemma slice_swap_map i j (l : list T') : slice_swap i j (map f l) = res_map (map f) (slice_swap i j l).
Proof.
  unfold slice_swap. rewrite !nth_error_map_.
  destruct (nth_error l i), (nth_error l j); cbn; try reflexivity. now rewrite !set_nth_map.
Qed.

Lemma removelast_map (l : list T') : removelast (map f l) = map f (removelast l).
Proof. induction l as [|x [|y l] IH]; cbn in *; congruence. Qed.

Lemma last_map (l : list T') d : last (map f l) (f d) = f (last l d).
Proof. induction l as [|x [|y l] IH]; cbn in *; congruence. Qed.

Lemma swap_remove_map i (l : list T') :
  swap_remove i (map f l) = res_map (fun r => (f (fst r), map f (snd r))) (swap_remove i l).
Proof.
  unfold swap_remove. rewrite nth_error_map_. destruct (nth_error l i); cbn; [|reflexivity].
  now rewrite last_map, set_nth_map, removelast_map.
Qed.

Lemma push_map cap (l : list T') x : push cap (map f l) (f x) = res_map (map f) (push cap l x).
Proof. unfold push. rewrite map_length. destruct (_ =? _); cbn; [reflexivity|]. now rewrite map_app. Qed.

Lemma skipn_map_ i (l : list T') : skipn i (map f l) = map f (skipn i l).
Proof. revert l; induction i as [|i IH]; intros [|x l]; cbn; auto. Qed.

Lemma best_candidate_map cs b : best_candidate_for_group P bnd (map f cs) b = best_candidate_for_group P bnd' cs b.
Proof.
  unfold best_candidate_for_group. rewrite map_map. f_equal. f_equal. apply map_ext. intros x. now rewrite Hb.
Qed.

Lemma wc_loop1_map ov ivs s :
  fold_left (wc_loop1 P bnd (f ov)) (map (fun ix => (fst ix, f (snd ix))) ivs) s = fold_left (wc_loop1 P bnd' ov) ivs s.
Proof.
  revert s; induction ivs as [|[i x] ivs IH]; intros s; cbn [map fold_left fst snd]; [reflexivity|].
  rewrite IH. f_equal. destruct s. unfold wc_loop1. now rewrite !Hb.
Qed.

Lemma wc_loop2_map ov i vi jvs s :
  fold_left (wc_loop2 P bnd (f ov) i (f vi)) (map (fun ix => (fst ix, f (snd ix))) jvs) s
  = fold_left (wc_loop2 P bnd' ov i vi) jvs s.
Proof.
  revert s; induction jvs as [|[j x] jvs IH]; intros s; cbn [map fold_left fst snd]; [reflexivity|].
  rewrite IH. f_equal. destruct s as [[? ?] ?]. unfold wc_loop2. now rewrite !Hb.
Qed.

Lemma wc_outer_map ov ivs s :
  wc_outer P bnd (f ov) (map (fun ix => (fst ix, f (snd ix))) ivs) s = wc_outer P bnd' ov ivs s.
Proof.
  revert s; induction ivs as [|[i x] ivs IH]; intros s; cbn [map wc_outer fst snd]; [reflexivity|].
  now rewrite IH, wc_loop2_map.
Qed.

Lemma worst_combination_map values ov :
  worst_combination P bnd (map f values) (f ov) = worst_combination P bnd' values ov.
Proof.
  unfold worst_combination. destruct values as [|v0 vs]; [reflexivity|].
  set (values := v0 :: vs). change (map f (v0 :: vs)) with (map f values). cbn [map]. 
  change (f v0 :: map f vs) with (map f values). rewrite enumerate_map, wc_loop1_map.
  destruct (fold_left _ _ _) as [g i1]. rewrite wc_outer_map, map_length. reflexivity.
Qed.

Lemma seed_split_groups_map values ov :
  seed_split_groups P bnd (map f values) (f ov)
  = res_map (fun r => (map f (fst r), f (snd r))) (seed_split_groups P bnd' values ov).
Proof.
  unfold seed_split_groups. rewrite worst_combination_map. destruct (worst_combination _ _ _ _) as [[i1 i2]| | |]; cbn [bind res_map]; auto.
  rewrite slice_swap_map. destruct (slice_swap _ _ _) as [vs| | |]; cbn [bind res_map]; auto.
  rewrite map_length, nth_error_map_. destruct (_ <? _); cbn; [|reflexivity].
  destruct (nth_error vs i2); cbn; [|reflexivity]. now rewrite set_nth_map.
Qed.

Definition groups_map (r : B * B * list T' * list T') : B * B * list T * list T :=
  let '(b1, b2, g1, g2) := r in (b1, b2, map f g1, map f g2).

Lemma split_loop_map fuel cap min values g1 group2 b1 b2 :
  split_loop P bnd fuel cap min (map f values) g1 (map f group2) b1 b2
  = res_map groups_map (split_loop P bnd' fuel cap min values g1 group2 b1 b2).
Proof.
  revert values g1 group2 b1 b2; induction fuel as [|fuel IH]; intros values g1 group2 b1 b2; cbn [split_loop]; rewrite map_length.
  - destruct (_ <? _); reflexivity.
  - destruct (_ <? _); [|reflexivity].
    rewrite skipn_map_, !best_candidate_map.
    destruct (best_candidate_for_group P bnd' _ b1) as [[c1 v1]|]; cbn [unwrap bind res_map]; [|reflexivity].
    destruct (best_candidate_for_group P bnd' _ b2) as [[c2 v2]|]; cbn [unwrap bind res_map]; [|reflexivity].
    rewrite !map_length, !nth_error_map_.
    destruct (if n64_lt P v1 v2 then _ else _).
    + destruct (nth_error _ c1) as [x|]; cbn [option_map unwrap bind res_map]; [|reflexivity].
      rewrite slice_swap_map. destruct (slice_swap _ _ _) as [vs| | |]; cbn [bind res_map]; auto.
      rewrite IH, Hb. reflexivity.
    + destruct (nth_error _ c2) as [x|]; cbn [option_map unwrap bind res_map]; [|reflexivity].
      rewrite swap_remove_map. destruct (swap_remove _ _) as [[y vs]| | |]; cbn [bind res_map fst snd]; auto.
      rewrite push_map. destruct (push _ _ _) as [g2| | |]; cbn [bind res_map]; auto.
      rewrite IH, Hb. reflexivity.
Qed.

Lemma split_map cap min values ov :
  split P bnd cap min (map f values) (f ov) = res_map groups_map (split P bnd' cap min values ov).
Proof.
  unfold split. rewrite map_length. destruct (_ <? _); [reflexivity|].
  rewrite seed_split_groups_map. destruct (seed_split_groups _ _ _ _) as [[vs seed]| | |]; cbn [bind res_map fst snd]; auto.
  change (@nil T) with (map f []). rewrite push_map. destruct (push _ _ _) as [g2| | |]; cbn [bind res_map]; auto.
  rewrite !nth_error_map_. destruct (nth_error vs 0) as [v0|]; cbn [option_map unwrap bind res_map]; [|reflexivity].
  destruct (nth_error g2 0) as [w0|]; cbn [option_map unwrap bind res_map]; [|reflexivity].
  rewrite map_length, split_loop_map, !Hb. reflexivity.
Qed.

Lemma position_map (g : T -> bool) (l : list T') : position g (map f l) = position (fun x => g (f x)) l.
Proof. induction l as [|x l IH]; cbn; [reflexivity|]. now rewrite IH. Qed.

Lemma filter_map_ (g : T -> bool) (l : list T') : filter g (map f l) = map f (filter (fun x => g (f x)) l).
Proof. induction l as [|x l IH]; cbn; [reflexivity|]. destruct (g (f x)); cbn; now rewrite IH. Qed.
End Natural.

(** ** What nodes own *)
Section Own.
Context {B K V : Type}.
Notation mnode := (mnode B K V).
Notation thing := (thing K V).
Notation mem := (mem K V).

Lemma mnode_ind' (R : mnode -> Prop) :
  (forall b id es, R (MNode b id (CLeaf es))) ->
  (forall b id cs, Forall R cs -> R (MNode b id (CInner cs))) -> forall n, R n.
Proof.
  intros Hl Hi. fix IH 1. intros [b id [cs|es]].
  - apply Hi. induction cs as [|c cs IHcs]; constructor; [apply IH|assumption].
  - apply Hl.
Qed.

Lemma m_bounds_forget (n : mnode) : m_bounds n = node_bounds (forget n).
Proof. destruct n as [b id [cs|es]]; reflexivity. Qed.

Lemma map_bounds_forget (cs : list mnode) : map m_bounds cs = map node_bounds (map forget cs).
Proof. rewrite map_map. apply map_ext, m_bounds_forget. Qed.

Definition things_o {A} (th : A -> list thing) (o : option A) : list thing := match o with Some a => th a | None => [] end.

Definition forget_e (e : mentry B K V) : entry B K V :=
  match e with MEInner c => EInner (forget_c c) | MELeaf kv => ELeaf kv end.
Definition things_e (e : mentry B K V) : list thing :=
  match e with MEInner c => things_c c | MELeaf kv => kv_things kv end.

(** *** Accounting: everything made is destroyed or in [H] *)

Variable (given : list thing).

Record own (s : mem) (H : list thing) : Prop := {
  own_given : Forall not_buf given;
  own_cloned : Forall not_buf (m_cloned s);
  own_all : Permutation (map TBuf (seq 0 (m_next s)) ++ m_cloned s ++ given) (m_gone s ++ H)
}.

Lemma own_perm s H H' : Permutation H H' -> own s H -> own s H'.
Proof. intros Hp [H1 H2 H3]. split; auto. now rewrite <- Hp. Qed.


Lemma bufs_none (l : list thing) : Forall not_buf l -> bufs l = [].
Proof. induction 1 as [|[i|k|v] l Hx _ IH]; cbn; [reflexivity|destruct Hx|exact IH|exact IH]. Qed.

Lemma bufs_bufs l : bufs (map TBuf l : list thing) = l.
Proof. induction l; cbn; [reflexivity|]. f_equal. exact IHl. Qed.

Lemma own_bufs s H : own s H -> Permutation (seq 0 (m_next s)) (bufs (m_gone s) ++ bufs H).
Proof.
  intros [H1 H2 H3]. apply (Permutation_flat_map_ (fun x => match x with TBuf i => [i] | _ => [] end)) in H3.
  rewrite !flat_map_app in H3. fold (bufs (m_gone s)) (bufs H) (bufs (m_cloned s)) (bufs given) (bufs (map (@TBuf K V) (seq 0 (m_next s)))) in H3.
  rewrite bufs_bufs, (bufs_none _ H1), (bufs_none _ H2), app_nil_r in H3. exact H3.
Qed.

Lemma in_bufs i (l : list thing) : In i (bufs l) <-> In (TBuf i) l.
Proof.
  unfold bufs. rewrite in_flat_map. split.
  - intros ([j|k|v] & Hin & Hi); cbn in Hi; try tauto. destruct Hi as [->|[]]. exact Hin.
  - intros H. exists (TBuf i). split; [exact H|]. now left.
Qed.

Lemma own_live s H id : own s H -> In (TBuf id) H -> live s id = true.
Proof.
  intros Ho Hin. apply own_bufs in Ho. unfold live. apply andb_true_iff. split.
  - apply Nat.ltb_lt. assert (Hi : In id (seq 0 (m_next s))).
    { rewrite Ho. apply in_or_app. right. now apply in_bufs. }
    apply in_seq in Hi. lia.
  - apply negb_true_iff. destruct (existsb (is_buf id) (m_gone s)) eqn:E; [|reflexivity]. exfalso.
    apply existsb_exists in E as ([j|k|v] & Hj & Ej); cbn in Ej; try discriminate.
    apply Nat.eqb_eq in Ej. subst j.
    assert (Hnd : NoDup (bufs (m_gone s) ++ bufs H)) by (eapply Permutation_NoDup; [exact Ho|apply seq_NoDup]).
    apply in_bufs in Hj. apply in_bufs in Hin. apply in_split in Hj as (l1 & l2 & E). rewrite E in Hnd.
    rewrite <- app_assoc in Hnd. apply NoDup_remove_2 in Hnd. apply Hnd.
    rewrite !in_app_iff. tauto.
Qed.

Definition sim {A' A} (m : M K V A') (r : res A) (H : list thing) (R : A' -> A -> list thing -> Prop) : Prop :=
  forall s, own s H ->
  match r with
  | Ok a => exists a' s' H', m s = Ok (a', s') /\ R a' a H' /\ own s' H'
  | Panic => m s = Panic
  | UB => m s = UB
  | OutOfFuel => m s = OutOfFuel
  end.

Lemma sim_bind {A' A C' C} (m : M K V A') (r : res A) (k' : A' -> M K V C') (k : A -> res C) H R R' :
  sim m r H R -> (forall a' a H', R a' a H' -> sim (k' a') (k a) H' R') ->
  sim (mbind m k') (bind r k) H R'.
Proof.
  intros Hm Hk s Ho. specialize (Hm s Ho). unfold mbind. destruct r as [a| | |]; cbn [bind].
  - destruct Hm as (a' & s' & H' & -> & HR & Ho'). cbn [bind]. exact (Hk a' a H' HR s' Ho').
  - now rewrite Hm.
  - now rewrite Hm.
  - now rewrite Hm.
Qed.

Lemma sim_bind_l {A' A C'} (m : M K V A') (a0 : A) (k' : A' -> M K V C') (r : res C') H (R : A' -> A -> list thing -> Prop) R' :
  sim m (Ok a0) H R -> (forall a' H', R a' a0 H' -> sim (k' a') r H' R') -> sim (mbind m k') r H R'.
Proof.
  intros Hm Hk s Ho. specialize (Hm s Ho). unfold mbind. destruct Hm as (a' & s' & H' & -> & HR & Ho').
  cbn [bind]. exact (Hk a' H' HR s' Ho').
Qed.

Lemma sim_mono {A' A} (m : M K V A') (r : res A) H (R R' : A' -> A -> list thing -> Prop) :
  sim m r H R -> (forall a' a H', R a' a H' -> R' a' a H') -> sim m r H R'.
Proof.
  intros Hm HR s Ho. specialize (Hm s Ho). destruct r as [a| | |]; auto.
  destruct Hm as (a' & s' & H' & E & HRa & Ho'). exists a', s', H'. auto.
Qed.

Lemma sim_perm {A' A} (m : M K V A') (r : res A) H H0 R : Permutation H H0 -> sim m r H0 R -> sim m r H R.
Proof. intros Hp Hm s Ho. apply Hm. eapply own_perm; eassumption. Qed.

Lemma sim_ret {A' A} (a' : A') (a : A) H (R : A' -> A -> list thing -> Prop) : R a' a H -> sim (mret a') (Ok a) H R.
Proof. intros HR s Ho. exists a', s, H. auto. Qed.

Lemma sim_panic {A' A} H (R : A' -> A -> list thing -> Prop) : sim (lift Panic) Panic H R.
Proof. intros s Ho. reflexivity. Qed.

(** Nothing changes hands. *)
Lemma sim_lift {A' A} (r' : res A') (r : res A) H (R : A' -> A -> Prop) :
  match r', r with Ok a', Ok a => R a' a | Panic, Panic => True | UB, UB => True | OutOfFuel, OutOfFuel => True | _, _ => False end ->
  sim (lift r') r H (fun a' a H' => R a' a /\ H' = H).
Proof.
  intros HR s Ho. destruct r' as [a'| | |], r as [a| | |]; try contradiction; cbn; try reflexivity.
  exists a', s, H. auto.
Qed.

(** Steps that have no counterpart in Model.v. *)
Lemma sim_use {A' A} id (k' : unit -> M K V A') (r : res A) H R :
  In (TBuf id) H -> sim (k' tt) r H R -> sim (mbind (use_buf id) k') r H R.
Proof.
  intros Hin Hk s Ho. unfold mbind, use_buf. rewrite (own_live s H id Ho Hin). cbn [bind]. exact (Hk s Ho).
Qed.

Lemma sim_new {A' A} (k' : nat -> M K V A') (r : res A) H R :
  (forall id, sim (k' id) r (TBuf id :: H) R) -> sim (mbind new_vec k') r H R.
Proof.
  intros Hk s Ho. unfold mbind, new_vec. cbn [bind]. apply Hk. destruct Ho as [H1 H2 H3].
  split; cbn [m_next m_gone m_cloned]; auto.
  replace (seq 0 (S (m_next s))) with (seq 0 (m_next s) ++ [m_next s]).
  2:{ change [m_next s] with (seq (0 + m_next s) 1). rewrite <- seq_app. f_equal. lia. }
  rewrite map_app. cbn [map].
  transitivity (TBuf (m_next s) :: (map TBuf (seq 0 (m_next s)) ++ m_cloned s ++ given)); [perm|].
  rewrite H3. perm.
Qed.

Lemma sim_destroy {A' A} x (k' : unit -> M K V A') (r : res A) H H0 R :
  Permutation H (x :: H0) -> sim (k' tt) r H0 R -> sim (mbind (destroy x) k') r H R.
Proof.
  intros Hp Hk s Ho. apply (own_perm _ _ _ Hp) in Ho. unfold mbind.
  assert (E : destroy x s = Ok (tt, {| m_next := m_next s; m_gone := x :: m_gone s; m_cloned := m_cloned s |})).
  { destruct x as [id|k|v]; [|reflexivity|reflexivity]. cbn. rewrite (own_live s _ id Ho); [reflexivity|now left]. }
  rewrite E. cbn [bind]. apply Hk. destruct Ho as [H1 H2 H3]. split; cbn [m_next m_gone m_cloned]; auto.
  rewrite H3. perm.
Qed.

(** Reading children. *)
Lemma sim_read_inner {A' A} (n : mnode) (k' : list mnode -> M K V A') (k : list (node B K V) -> res A) H R :
  In (TBuf (m_id n)) H ->
  (forall b id cs, n = MNode b id (CInner cs) -> sim (k' cs) (k (map forget cs)) H R) ->
  sim (mbind (mread_inner n) k') (bind (read_inner (node_children (forget n))) k) H R.
Proof.
  intros Hin Hk. unfold mread_inner. destruct n as [b id [cs|es]]; cbn [forget node_children read_inner bind m_children m_id].
  - specialize (Hk b id cs eq_refl). intros s Ho. specialize (Hk s Ho). unfold mbind in *. unfold use_buf.
    cbn [m_id] in Hin. rewrite (own_live s H id Ho Hin). cbn [bind lift]. exact Hk.
  - intros s Ho. unfold mbind, use_buf. cbn [m_id] in Hin. rewrite (own_live s H id Ho Hin). reflexivity.
Qed.

Lemma sim_read_leaf {A' A} (n : mnode) (k' : list (K * V) -> M K V A') (k : list (K * V) -> res A) H R :
  In (TBuf (m_id n)) H ->
  (forall b id es, n = MNode b id (CLeaf es) -> sim (k' es) (k es) H R) ->
  sim (mbind (mread_leaf n) k') (bind (read_leaf (node_children (forget n))) k) H R.
Proof.
  intros Hin Hk. unfold mread_leaf. destruct n as [b id [cs|es]]; cbn [forget node_children read_leaf bind m_children m_id].
  - intros s Ho. unfold mbind, use_buf. cbn [m_id] in Hin. rewrite (own_live s H id Ho Hin). reflexivity.
  - specialize (Hk b id es eq_refl). intros s Ho. specialize (Hk s Ho). unfold mbind in *. unfold use_buf.
    cbn [m_id] in Hin. rewrite (own_live s H id Ho Hin). cbn [bind lift]. exact Hk.
Qed.

Lemma things_id (n : mnode) F : In (TBuf (m_id n)) (things n ++ F).
Proof. destruct n as [b id [cs|es]]; cbn; now left. Qed.

Lemma things_in (cs : list mnode) c : In c cs -> exists rest, Permutation (flat_map things cs) (things c ++ rest).
Proof.
  intros H. apply in_split in H as (l1 & l2 & ->). exists (flat_map things l1 ++ flat_map things l2).
  rewrite flat_map_app. cbn [flat_map]. perm.
Qed.

Lemma things_set_nth i (c : mnode) cs : nth_error cs i = Some c -> exists rest,
  Permutation (flat_map things cs) (things c ++ rest) /\
  forall c', Permutation (flat_map things (set_nth i c' cs)) (things c' ++ rest).
Proof.
  intros H. destruct (nth_error_split_set i c c cs H) as (l1 & l2 & E & _ & _).
  exists (flat_map things l1 ++ flat_map things l2). split.
  - rewrite E, flat_map_app. cbn [flat_map]. perm.
  - intros c'. destruct (nth_error_split_set i c c' cs H) as (m1 & m2 & E1 & L1 & ->).
    assert (Hp : Permutation (m1 ++ m2) (l1 ++ l2)).
    { apply (Permutation_cons_inv (a := c)). transitivity cs; [rewrite E1|rewrite E]; perm. }
    apply (Permutation_flat_map_ things) in Hp. rewrite !flat_map_app in *. cbn [flat_map]. rewrite <- Hp. perm.
Qed.
End Own.

Section Sim.
Context {B K V : Type} (P : Params B K) (cfg : config) (given : list (thing K V)).
Notation mnode := (mnode B K V).
Notation thing := (thing K V).
Notation sim := (sim given).
Notation cap := (max_children cfg).
Notation minc := (min_children cfg).

Definition gets {A' A} (fg : A' -> A) (th : A' -> list thing) (F : list thing) : A' -> A -> list thing -> Prop :=
  fun a' a H' => a = fg a' /\ Permutation H' (th a' ++ F).

Definition forget_ins (r : mnode * option (mcontainer B K V)) : node B K V * option (container B K V) :=
  (forget (fst r), option_map forget_c (snd r)).
Definition things_ins (r : mnode * option (mcontainer B K V)) : list thing :=
  things (fst r) ++ things_o things_c (snd r).

Lemma sim_children_at {A' A} level (n : mnode) (k' : children mnode (K * V) -> M K V A')
    (k : children (node B K V) (K * V) -> res A) H R :
  In (TBuf (m_id n)) H ->
  (forall b id cs l, level = S l -> n = MNode b id (CInner cs) -> sim (k' (CInner cs)) (k (CInner (map forget cs))) H R) ->
  (forall b id es, level = 0 -> n = MNode b id (CLeaf es) -> sim (k' (CLeaf es)) (k (CLeaf es)) H R) ->
  sim (mbind (mchildren_at level n) k') (bind (children_at level (forget n)) k) H R.
Proof.
  intros Hin Hi Hl s Ho. unfold mchildren_at, children_at, mread_inner, mread_leaf, mbind, use_buf.
  destruct level as [|l]; rewrite (own_live given s H _ Ho Hin); destruct n as [b id [cs|es]];
    cbn [bind lift m_children read_inner read_leaf forget node_children mret]; try reflexivity.
  - exact (Hl b id es eq_refl eq_refl s Ho).
  - exact (Hi b id cs l eq_refl eq_refl s Ho).
Qed.

Lemma try_push_map {T T'} (f : T' -> T) c (l : list T') x :
  try_push c (map f l) (f x) = match try_push c l x with inl l => inl (map f l) | inr y => inr (f y) end.
Proof. unfold try_push. rewrite map_length. destruct (_ =? _); [reflexivity|]. now rewrite map_app. Qed.

Lemma entry_bounds_forget (e : mentry B K V) : m_entry_bounds P e = entry_bounds P (forget_e e).
Proof. destruct e as [[l n]|[k v]]; cbn; [apply m_bounds_forget|reflexivity]. Qed.

Lemma split_perm {T} (bnd : T -> B) c mn vs ov :
  length vs = c -> post (split P bnd c mn vs ov) (c = 0) (fun r => Permutation (ov :: vs) (snd (fst r) ++ snd r)).
Proof.
  intros E. assert (H := split_spec P bnd (fun _ : K => True) rel_any (any_laws P _) (fun _ => []) c mn vs ov E).
  eapply post_mono; [apply H| auto |].
  - unfold elts_ok. apply Forall_forall. intros x _. exact Logic.I.
  - intros [[[b1 b2] g1] g2] (Hp & _). exact Hp.
Qed.

Lemma sim_split {T' T A' A} (f : T' -> T) (bnd : T -> B) (bnd' : T' -> B) (th : T' -> list thing) c mn vs ov
    (k' : B * B * list T' * list T' -> M K V A') (k : B * B * list T * list T -> res A) H R :
  (forall x, bnd' x = bnd (f x)) -> length vs = c ->
  (forall b1 b2 g1 g2, Permutation (flat_map th g1 ++ flat_map th g2) (th ov ++ flat_map th vs) ->
    sim (k' (b1, b2, g1, g2)) (k (b1, b2, map f g1, map f g2)) H R) ->
  sim (mbind (lift (split P bnd' c mn vs ov)) k') (bind (split P bnd c mn (map f vs) (f ov)) k) H R.
Proof.
  intros Hb Hlen Hk. rewrite (split_map P f bnd bnd' Hb).
  assert (Hp := split_perm bnd' c mn vs ov Hlen).
  intros s Ho. unfold mbind, lift, res_map. destruct (split P bnd' c mn vs ov) as [[[[b1 b2] g1] g2]| | |];
    cbn [bind groups_map]; try reflexivity.
  apply Hk; [|exact Ho]. cbn [post fst snd] in Hp.
  apply (Permutation_flat_map_ th) in Hp. rewrite flat_map_app in Hp. rewrite <- Hp. reflexivity.
Qed.

Lemma mself_insert_sim level (n : mnode) e F :
  sim (mself_insert P cfg level n e) (self_insert P cfg level (forget n) (forget_e e))
    (things n ++ things_e e ++ F) (gets forget_ins things_ins F).
Proof.
  unfold mself_insert, self_insert. apply sim_children_at; [apply things_id| |].
  - intros b id cs l -> ->. destruct e as [[el en]|kv]; cbn [forget_e forget_c fst snd]; [|apply sim_panic].
    destruct (negb _); [apply sim_panic|]. rewrite try_push_map.
    unfold try_push. destruct (Nat.eqb_spec (length cs) cap) as [E|E].
    + apply sim_new. intros id2.
      apply (sim_split forget node_bounds m_bounds things); [apply m_bounds_forget|exact E|].
      intros b1 b2 g1 g2 Hp. apply sim_ret. split; [reflexivity|].
      unfold things_ins. cbn [fst snd things_o things things_c things_e m_id].
      transitivity (TBuf id :: TBuf id2 :: (things en ++ flat_map things cs) ++ F); [perm|].
      rewrite <- Hp. perm.
    + apply sim_ret. split.
      * unfold forget_ins. cbn [fst snd option_map forget]. rewrite map_app, m_bounds_forget. cbn. now rewrite m_bounds_forget.
      * unfold things_ins. cbn [fst snd things_o things things_e things_c m_id]. rewrite flat_map_app. cbn [flat_map]. perm.
  - intros b id es -> ->. destruct e as [[el en]|kv]; cbn [forget_e]; [apply sim_panic|].
    replace (try_push cap es kv) with (try_push cap (map (fun x => x) es) kv) at 2 by now rewrite map_id.
    rewrite (try_push_map (fun x : K * V => x)).
    unfold try_push. destruct (Nat.eqb_spec (length es) cap) as [E|E].
    + apply sim_new. intros id2.
      rewrite <- (map_id es) at 2.
      apply (sim_split (fun x : K * V => x) _ _ kv_things); [reflexivity|exact E|].
      intros b1 b2 g1 g2 Hp. rewrite !map_id. apply sim_ret. split; [reflexivity|].
      unfold things_ins. cbn [fst snd things_o things things_c things_e m_id].
      transitivity (TBuf id :: TBuf id2 :: (kv_things kv ++ flat_map kv_things es) ++ F); [perm|].
      rewrite <- Hp. perm.
    + rewrite map_id. apply sim_ret. split.
      * unfold forget_ins. cbn [fst snd option_map forget m_bounds node_bounds]. now destruct kv.
      * unfold things_ins. cbn [fst snd things_o things things_e m_id]. rewrite flat_map_app. cbn [flat_map]. perm.
Qed.

Lemma target_level_forget (e : mentry B K V) : m_target_level e = target_level (forget_e e).
Proof. destruct e as [[l n]|kv]; reflexivity. Qed.

Lemma sim_lift_eq {A' A C' C} (f : A' -> A) (r' : res A') (r : res A) (k' : A' -> M K V C') (k : A -> res C) H R :
  r = res_map f r' -> (forall a', r' = Ok a' -> sim (k' a') (k (f a')) H R) ->
  sim (mbind (lift r') k') (bind r k) H R.
Proof.
  intros -> Hk s Ho. unfold mbind, lift. destruct r' as [a'| | |]; cbn; try reflexivity. now apply Hk.
Qed.

Lemma unwrap_map {A' A} (f : A' -> A) o : unwrap (option_map f o) = res_map f (unwrap o).
Proof. now destruct o. Qed.

(** The common tail of [insert] and [insert_unique]: child [i] was changed and perhaps split. *)
Lemma child_tail_sim l b id cs i child child' sib eb F :
  nth_error cs i = Some child ->
  sim (match sib with
       | Some new_child =>
         mself_insert P cfg (S l)
           (MNode (b_union_all (bops P) (map m_bounds (set_nth i child' cs))) id (CInner (set_nth i child' cs)))
           (MEInner new_child)
       | None => mret (MNode (b_union (bops P) b eb) id (CInner (set_nth i child' cs)), None)
       end)
      (match option_map forget_c sib with
       | Some new_child =>
         self_insert P cfg (S l)
           (Node (b_union_all (bops P) (map node_bounds (set_nth i (forget child') (map forget cs))))
                 (CInner (set_nth i (forget child') (map forget cs)))) (EInner new_child)
       | None => Ok (Node (b_union (bops P) b eb) (CInner (set_nth i (forget child') (map forget cs))), None)
       end)
      (things (MNode b id (CInner (set_nth i child' cs))) ++ things_o things_c sib ++ F) (gets forget_ins things_ins F).
Proof.
  intros Hc. rewrite set_nth_map. destruct sib as [nc|]; cbn [option_map].
  - rewrite <- map_bounds_forget. exact (mself_insert_sim (S l) _ (MEInner nc) F).
  - apply sim_ret. split; [reflexivity|]. unfold things_ins. cbn [fst snd things_o things]. perm.
Qed.

Lemma mnode_insert_sim level (n : mnode) e F :
  sim (mnode_insert P cfg level n e) (node_insert P cfg level (forget n) (forget_e e))
    (things n ++ things_e e ++ F) (gets forget_ins things_ins F).
Proof.
  revert n F; induction level as [|l IH]; intros n F; cbn [mnode_insert node_insert]; rewrite target_level_forget.
  - destruct (negb _); [apply sim_panic|]. apply mself_insert_sim.
  - destruct (negb _); [|apply mself_insert_sim].
    apply sim_read_inner; [apply things_id|]. intros b id cs ->.
    rewrite entry_bounds_forget, map_bounds_forget.
    apply (sim_lift_eq (fun x => x)); [now destruct (unwrap _)|]. intros i _.
    apply (sim_lift_eq forget); [rewrite nth_error_map_; apply unwrap_map|]. intros child Hc.
    assert (Hc' : nth_error cs i = Some child) by (destruct (nth_error cs i); cbn in Hc; congruence).
    destruct (things_set_nth i child cs Hc') as (rest & Hp & Hp').
    eapply sim_bind.
    { eapply sim_perm; [|apply (IH child (TBuf id :: rest ++ F))]. cbn [things]. rewrite Hp. perm. }
    intros [child' sib] [c s] H' [E HP]. cbn beta iota. unfold forget_ins in E. cbn [fst snd] in E. injection E as -> ->.
    eapply sim_perm; [|apply (child_tail_sim l b id cs i child child' sib (entry_bounds P (forget_e e)) F Hc')].
    rewrite HP. unfold things_ins. cbn [fst snd things]. rewrite Hp'. perm.
Qed.

(** *** get_mut *)
Definition lens {N' N} (fg : N' -> N) (th : N' -> list thing) (n0 : list thing) (F : list thing)
    (r' : option (V * (V -> N'))) (r : option (V * (V -> N))) (H' : list thing) : Prop :=
  Permutation H' (n0 ++ F) /\
  match r', r with
  | None, None => True
  | Some (v', put'), Some (v, put) =>
    v' = v /\ (forall w, put w = fg (put' w)) /\ forall w, Permutation (TVal v :: th (put' w)) (TVal w :: n0)
  | _, _ => False
  end.

Lemma entries_lens {Q} (BR : Borrowed B K Q) (es : list (K * V)) q v put :
  entries_get_mut BR es q = Some (v, put) ->
  forall w, Permutation (TVal v :: flat_map kv_things (put w)) (TVal w :: flat_map kv_things es).
Proof.
  intros E w. assert (H := entries_get_mut_spec BR es q). rewrite E in H.
  destruct H as (l1 & k & l2 & -> & _ & _ & Hput). rewrite Hput, !flat_map_app. cbn [flat_map]. unfold kv_things at 2 5. cbn [fst snd]. perm.
Qed.

Lemma mnode_get_mut_sim {Q} (BR : Borrowed B K Q) level (n : mnode) q F :
  sim (mnode_get_mut P BR level n q) (node_get_mut P BR level (forget n) q) (things n ++ F)
    (lens forget things (things n) F).
Proof.
  revert n F; induction level as [|l IH]; intros n F; cbn [mnode_get_mut node_get_mut].
  - apply sim_read_leaf; [apply things_id|]. intros b id es ->. apply sim_ret. split; [reflexivity|].
    destruct (entries_get_mut BR es q) as [[v put]|] eqn:E; cbn [option_map fst snd]; [|exact Logic.I].
    split; [reflexivity|]. split; [reflexivity|]. intros w. cbn [things m_id].
    apply (entries_lens BR) with (w := w) in E.
    transitivity (TBuf id :: TVal v :: flat_map kv_things (put w)); [perm|]. rewrite E. perm.
  - apply sim_read_inner; [apply things_id|]. intros b id cs ->.
    set (loop' := (fix loop (cs : list mnode) : M K V (option (V * (V -> list mnode))) := _)).
    set (loop := (fix loop (cs : list (node B K V)) : res (option (V * (V -> list (node B K V)))) := _)).
    assert (E : forall cs F, sim (loop' cs) (loop (map forget cs)) (flat_map things cs ++ F)
        (lens (map forget) (flat_map things) (flat_map things cs) F)).
    { clear cs. induction cs as [|c cs IHcs]; intros F'; cbn [loop' loop map].
      - apply sim_ret. split; [reflexivity|exact Logic.I].
      - eapply sim_bind with (R := lens forget things (things c) (flat_map things cs ++ F')).
        + rewrite m_bounds_forget. destruct (b_contains _ _ _).
          * eapply sim_perm; [|apply IH]. cbn [flat_map]. perm.
          * apply sim_ret. split; [cbn [flat_map]; perm|exact Logic.I].
        + intros [[v' put']|] [[v put]|] H' [HP HR]; try contradiction.
          * destruct HR as (-> & Hput & Hth). apply sim_ret. split; [rewrite HP; cbn [flat_map]; perm|].
            split; [reflexivity|]. split; [intros w; cbn [map]; now rewrite Hput|].
            intros w. cbn [flat_map].
            transitivity ((TVal v :: things (put' w)) ++ flat_map things cs); [perm|]. rewrite Hth. perm.
          * fold loop' loop. eapply sim_bind.
            { eapply sim_perm; [|apply (IHcs (things c ++ F'))]. rewrite HP. perm. }
            intros [[v' put']|] [[v put]|] H2 [HP2 HR2]; try contradiction; apply sim_ret;
              (split; [rewrite HP2; cbn [flat_map]; perm|]); cbn [option_map fst snd]; [|exact Logic.I].
            destruct HR2 as (-> & Hput & Hth).
            split; [reflexivity|]. split; [intros w; cbn [map]; now rewrite Hput|].
            intros w. cbn [flat_map].
            transitivity (things c ++ (TVal v :: flat_map things (put' w))); [perm|]. rewrite Hth. perm. }
    eapply sim_bind.
    { eapply sim_perm; [|apply (E cs (TBuf id :: F))]. cbn [things]. perm. }
    intros [[v' put']|] [[v put]|] H2 [HP2 HR2]; try contradiction; apply sim_ret;
      (split; [rewrite HP2; cbn [things]; perm|]); cbn [option_map fst snd]; [|exact Logic.I].
    destruct HR2 as (-> & Hput & Hth).
    split; [reflexivity|]. split; [intros w; cbn [forget m_bounds node_bounds]; now rewrite Hput|].
    intros w. cbn [things m_id].
    transitivity (TBuf id :: (TVal v :: flat_map things (put' w))); [perm|]. rewrite Hth. perm.
Qed.

(** *** insert_unique *)
Definition forget_uni (r : option V * mnode * option (mcontainer B K V)) : option V * node B K V * option (container B K V) :=
  (fst (fst r), forget (snd (fst r)), option_map forget_c (snd r)).
Definition the_value (o : option V) : list thing := match o with Some v => [TVal v] | None => [] end.
Definition things_uni (r : option V * mnode * option (mcontainer B K V)) : list thing :=
  the_value (fst (fst r)) ++ things (snd (fst r)) ++ things_o things_c (snd r).

Lemma plain_insert_sim level (n : mnode) k v F :
  sim (let! (n, sibling) := mnode_insert P cfg level n (MELeaf (k, v)) in mret (None, n, sibling))
      (let* (n, sibling) := node_insert P cfg level (forget n) (ELeaf (k, v)) in Ok (None, n, sibling))
      (things n ++ [TKey k; TVal v] ++ F) (gets forget_uni things_uni F).
Proof.
  eapply sim_bind; [apply (mnode_insert_sim level n (MELeaf (k, v)) F)|].
  intros [n' sib] [a b] H' [E HP]. unfold forget_ins in E. cbn [fst snd] in E. injection E as -> ->.
  apply sim_ret. split; [reflexivity|]. exact HP.
Qed.

Lemma mnode_insert_unique_sim level (n : mnode) k v F :
  sim (mnode_insert_unique P cfg level n k v) (node_insert_unique P cfg level (forget n) k v)
    (things n ++ [TKey k; TVal v] ++ F) (gets forget_uni things_uni F).
Proof.
  revert n F; induction level as [|l IH]; intros n F.
  - cbn [mnode_insert_unique node_insert_unique].
    apply sim_read_leaf; [apply things_id|]. intros b id es ->.
    destruct (entries_get_mut (self_borrow P) es k) as [[old put]|] eqn:E.
    + eapply sim_destroy with (H0 := things (MNode b id (CLeaf es) : mnode) ++ TVal v :: F); [perm|].
      apply sim_ret. split; [reflexivity|]. unfold things_uni. cbn [fst snd the_value things_o things m_id].
      apply entries_lens with (w := v) in E.
      transitivity (TBuf id :: (TVal old :: flat_map kv_things (put v)) ++ F); [rewrite E|]; perm.
    + apply plain_insert_sim.
  - cbn [mnode_insert_unique node_insert_unique].
    apply sim_read_inner; [apply things_id|]. intros b id cs ->.
    rewrite enumerate_map, filter_map_. cbn [snd fst].
    rewrite (filter_ext _ (fun ic : nat * mnode => b_contains (bops P) (node_bounds (forget (snd ic))) (key_bounds P k)))
      by (intros ic; now rewrite m_bounds_forget).
    destruct (filter _ (enumerate cs)) as [|[i child] [|x y]] eqn:Ef; cbn [map fst snd].
    + exact (plain_insert_sim (S l) (MNode b id (CInner cs)) k v F).
    + assert (Hc : nth_error cs i = Some child).
      { apply in_enumerate. assert (Hin : In (i, child) [(i, child)]) by now left. rewrite <- Ef in Hin.
        now apply filter_In in Hin. }
      destruct (things_set_nth i child cs Hc) as (rest & Hp & Hp').
      eapply sim_bind.
      { eapply sim_perm; [|apply (IH child (TBuf id :: rest ++ F))]. cbn [things]. rewrite Hp. perm. }
      intros [[old child'] sib] [[o c] s] H' [E HP]. cbn beta iota. unfold forget_uni in E. cbn [fst snd] in E.
      injection E as -> -> ->.
      assert (HT := child_tail_sim l b id cs i child child' sib (key_bounds P k) (the_value old ++ F) Hc).
      assert (HP' : Permutation H' (things (MNode b id (CInner (set_nth i child' cs))) ++ things_o things_c sib ++ the_value old ++ F)).
      { rewrite HP. unfold things_uni. cbn [fst snd things]. rewrite Hp'. perm. }
      eapply sim_perm; [exact HP'|].
      destruct sib as [nc|]; cbn [option_map] in *.
      * eapply sim_bind; [exact HT|]. intros [n' sib'] [a c] H2 [E2 HP2]. unfold forget_ins in E2. cbn [fst snd] in E2.
        injection E2 as -> ->. apply sim_ret. split; [reflexivity|]. rewrite HP2. unfold things_uni, things_ins.
        cbn [fst snd]. perm.
      * apply sim_ret. split; [unfold forget_uni; cbn [fst snd option_map forget]; now rewrite set_nth_map|].
        unfold things_uni. cbn [fst snd things_o things m_id]. perm.
    + eapply sim_bind.
      { apply (mnode_get_mut_sim (self_borrow P) (S l) (MNode b id (CInner cs)) k ([TKey k; TVal v] ++ F)). }
      intros [[v' put']|] [[v0 put]|] H2 [HP2 HR2]; try contradiction.
      * destruct HR2 as (-> & Hput & Hth).
        eapply sim_destroy with (H0 := things (MNode b id (CInner cs)) ++ TVal v :: F); [rewrite HP2; perm|].
        apply sim_ret. split; [unfold forget_uni; cbn [fst snd option_map]; now rewrite Hput|].
        unfold things_uni. cbn [fst snd the_value things_o].
        transitivity ((TVal v0 :: things (put' v)) ++ F); [rewrite Hth|]; perm.
      * eapply sim_perm; [exact HP2|]. exact (plain_insert_sim (S l) (MNode b id (CInner cs)) k v F).
Qed.

(** *** drop *)
Definition gone_all (F : list thing) {A' A} : A' -> A -> list thing -> Prop := fun _ _ H' => Permutation H' F.

Lemma sim_destroy_last {A} x H H0 (a : A) : Permutation H (x :: H0) ->
  sim (destroy x) (Ok a) H (gone_all H0).
Proof.
  intros Hp s Ho. assert (Hs := sim_destroy given x (fun _ => mret tt) (Ok a) H H0 (gone_all H0) Hp).
  destruct (Hs ltac:(apply sim_ret, Permutation_refl) s Ho) as (a' & s' & H' & E & HR & Ho').
  unfold mbind in E. destruct (destroy x s) as [[[] s0]| | |] eqn:Ed; cbn in E; try discriminate.
  injection E as <- <-. exists tt, s0, H'. auto.
Qed.

Lemma mseq_entries_sim es F : sim (mseq destroy_entry es) (Ok tt) (flat_map kv_things es ++ F) (gone_all F).
Proof.
  induction es as [|[k v] es IH]; cbn [mseq].
  - apply sim_ret, Permutation_refl.
  - assert (Hs : sim (let! _ := destroy (TKey k) in let! _ := destroy (TVal v) in mseq destroy_entry es) (Ok tt)
      (flat_map kv_things ((k, v) :: es) ++ F) (gone_all F)).
    { eapply sim_destroy with (H0 := TVal v :: flat_map kv_things es ++ F); [cbn [flat_map]; unfold kv_things at 1; cbn [fst snd]; perm|].
      eapply sim_destroy with (H0 := flat_map kv_things es ++ F); [perm|]. exact IH. }
    intros s Ho. specialize (Hs s Ho). unfold destroy_entry. unfold mbind in *. cbn [fst snd] in *.
    destruct (destroy (TKey k) s) as [[[] s1]| | |]; cbn [bind] in *; exact Hs.
Qed.

Lemma flat_map_rev_perm {A C} (f : A -> list C) l : Permutation (flat_map f (rev l)) (flat_map f l).
Proof. apply Permutation_flat_map_. symmetry. apply Permutation_rev. Qed.

Lemma mdrop_node_sim level (n : mnode) F :
  sim (mdrop_node level n) (drop_node level (forget n)) (things n ++ F) (gone_all F).
Proof.
  revert n F; induction level as [|l IH]; intros n F; cbn [mdrop_node drop_node].
  - apply sim_read_leaf; [apply things_id|]. intros b id es ->.
    change (Ok (rev es)) with (bind (Ok tt) (fun _ => Ok (rev es))).
    eapply sim_bind.
    { eapply sim_perm; [|apply (mseq_entries_sim (rev es) (TBuf id :: F))]. cbn [things]. rewrite flat_map_rev_perm. perm. }
    intros [] [] H' HP. apply sim_destroy_last. exact HP.
  - apply sim_read_inner; [apply things_id|]. intros b id cs ->.
    set (loop := (fix loop (cs : list (node B K V)) : res (list (K * V)) := _)).
    assert (E : forall cs F, sim (mseq (mdrop_node l) cs) (loop (map forget cs)) (flat_map things cs ++ F) (gone_all F)).
    { clear cs. induction cs as [|c cs IHcs]; intros F'; cbn [mseq loop map].
      - apply sim_ret, Permutation_refl.
      - fold loop. eapply sim_bind.
        { eapply sim_perm; [|apply (IH c (flat_map things cs ++ F'))]. cbn [flat_map]. perm. }
        intros [] d H' HP. specialize (IHcs F'). intros s Ho. apply (own_perm _ _ _ _ HP) in Ho.
        specialize (IHcs s Ho). destruct (loop (map forget cs)) as [ds| | |]; cbn [bind]; try exact IHcs. }
    specialize (E cs (TBuf id :: F)). intros s Ho.
    assert (Ho' : own given s (flat_map things cs ++ TBuf id :: F)).
    { eapply own_perm; [|exact Ho]. cbn [things]. perm. }
    specialize (E s Ho'). unfold mbind. destruct (loop (map forget cs)) as [ds| | |].
    + destruct E as ([] & s' & H' & -> & HP & Ho2). cbn [bind].
      exact (sim_destroy_last (TBuf id) H' F ds HP s' Ho2).
    + now rewrite E.
    + now rewrite E.
    + now rewrite E.
Qed.

(** *** branch, insertion at the root *)
Lemma mbranch_sim (root sib : mcontainer B K V) F :
  sim (mbranch P cfg root sib) (branch P cfg (forget_c root) (forget_c sib)) (things_c root ++ things_c sib ++ F)
    (gets forget_c things_c F).
Proof.
  unfold mbranch, branch. cbn [forget_c fst snd]. destruct (negb _); [apply sim_panic|].
  apply sim_new. intros id.
  change (@nil (node B K V)) with (map (@forget B K V) []). rewrite push_map.
  apply (sim_lift_eq (map forget)); [reflexivity|]. intros v1 E1. rewrite push_map.
  apply (sim_lift_eq (map forget)); [reflexivity|]. intros v2 E2.
  apply sim_ret. unfold push in E1, E2. destruct (_ =? _); [discriminate|]. injection E1 as <-.
  destruct (_ =? _); [discriminate|]. injection E2 as <-. split.
  - unfold forget_c. cbn [fst snd forget]. now rewrite !m_bounds_forget.
  - unfold things_c. cbn [fst snd things app flat_map]. perm.
Qed.

Lemma minsert_entry_sim (root : mcontainer B K V) e F :
  sim (minsert_entry P cfg root e) (insert_entry P cfg (forget_c root) (forget_e e)) (things_c root ++ things_e e ++ F)
    (gets forget_c things_c F).
Proof.
  unfold minsert_entry, insert_entry. cbn [forget_c fst snd]. eapply sim_bind; [apply mnode_insert_sim|].
  intros [n' [sib|]] [a b] H' [E HP]; unfold forget_ins in E; cbn [fst snd option_map] in E; injection E as -> ->;
    eapply sim_perm; try exact HP; unfold things_ins; cbn [fst snd things_o].
  - eapply sim_perm; [|apply (mbranch_sim (fst root, n') sib F)]. unfold things_c at 2. cbn [snd]. perm.
  - apply sim_ret. split; [reflexivity|]. unfold things_c. cbn [snd]. perm.
Qed.

Definition forget_v (r : option V * mcontainer B K V) : option V * container B K V := (fst r, forget_c (snd r)).
Definition things_v (r : option V * mcontainer B K V) : list thing := the_value (fst r) ++ things_c (snd r).

Lemma mcontainer_insert_unique_sim (root : mcontainer B K V) k v F :
  sim (mcontainer_insert_unique P cfg root k v) (container_insert_unique P cfg (forget_c root) k v)
    (things_c root ++ [TKey k; TVal v] ++ F) (gets forget_v things_v F).
Proof.
  unfold mcontainer_insert_unique, container_insert_unique. cbn [forget_c fst snd].
  eapply sim_bind; [apply mnode_insert_unique_sim|].
  intros [[old n'] [sib|]] [[o a] b] H' [E HP]; unfold forget_uni in E; cbn [fst snd option_map] in E; injection E as -> -> ->;
    eapply sim_perm; try exact HP; unfold things_uni; cbn [fst snd things_o].
  - eapply sim_bind.
    { eapply sim_perm; [|apply (mbranch_sim (fst root, n') sib (the_value old ++ F))]. unfold things_c at 2. cbn [snd]. perm. }
    intros r r0 H2 [-> HP2]. apply sim_ret. split; [reflexivity|]. rewrite HP2. unfold things_v. cbn [fst snd]. perm.
  - apply sim_ret. split; [reflexivity|]. unfold things_v, things_c. cbn [fst snd]. perm.
Qed.

Lemma mtry_unbranch_sim (root : mcontainer B K V) F :
  sim (mtry_unbranch root) (try_unbranch (forget_c root)) (things_c root ++ F) (gets forget_c things_c F).
Proof.
  destruct root as [level n]. unfold mtry_unbranch, try_unbranch. cbn [forget_c fst snd things_c]. destruct level as [|l].
  - apply sim_read_leaf; [apply things_id|]. intros b id es ->. apply sim_ret. split; reflexivity.
  - apply sim_read_inner; [apply things_id|]. intros b id cs ->. rewrite map_length.
    destruct (Nat.eqb_spec (length cs) 1) as [E|E].
    + destruct cs as [|c [|? ?]]; try discriminate. cbn [map swap_remove nth_error set_nth last removelast].
      apply (sim_lift_eq (fun r => (forget (fst r), map forget (snd r)))); [reflexivity|].
      intros [c' cs'] E'. injection E' as <- <-. cbn [fst snd map m_bounds m_id].
      assert (Hd := mdrop_node_sim (S l) (MNode b id (CInner [])) (things c ++ F)).
      intros s Ho. specialize (Hd s). cbn [things flat_map app] in Hd. unfold things_c in Ho. cbn [snd things flat_map app] in Ho. rewrite app_nil_r in Ho.
      specialize (Hd Ho). cbn [forget map drop_node node_children read_inner bind] in Hd.
      destruct Hd as ([] & s' & H' & E' & HP & Ho'). unfold mbind at 1. rewrite E'. cbn [bind].
      exists (l, c), s', H'. split; [reflexivity|]. split; [|exact Ho']. split; [reflexivity|]. exact HP.
    + apply sim_ret. split; reflexivity.
Qed.

(** *** remove *)
Definition forget_cc (c : mcc B K V) : children_container B K V :=
  match c with MCCInner l _ cs => CCInner l (map forget cs) | MCCLeaf _ es => CCLeaf es end.
Definition things_cc (c : mcc B K V) : list thing :=
  match c with MCCInner _ id cs => TBuf id :: flat_map things cs | MCCLeaf id es => TBuf id :: flat_map kv_things es end.

Definition forget_rem (r : option V * mnode * list (mcc B K V)) : option V * node B K V * list (children_container B K V) :=
  (fst (fst r), forget (snd (fst r)), map forget_cc (snd r)).
Definition things_rem (r : option V * mnode * list (mcc B K V)) : list thing :=
  the_value (fst (fst r)) ++ things (snd (fst r)) ++ flat_map things_cc (snd r).

Definition removes (level : nat) (F : list thing) : (option V * mnode * list (mcc B K V)) ->
    (option V * node B K V * list (children_container B K V)) -> list thing -> Prop :=
  fun a' a H' => gets forget_rem things_rem F a' a H' /\
    (fst (fst a') = None -> snd a' = []) /\
    NoDup (map mcc_level (snd a')) /\ Forall (fun cc => mcc_level cc < level) (snd a').

Lemma sim_shallow_len {A' A} level (n : mnode) (k' : nat -> M K V A') (k : nat -> res A) H R :
  (forall m, sim (k' m) (k m) H R) -> sim (mbind (mshallow_len level n) k') (bind (shallow_len level (forget n)) k) H R.
Proof.
  intros Hk. unfold mshallow_len, shallow_len. destruct level, n as [b id [cs|es]];
    intros s Ho; unfold mbind, lift; cbn [m_children read_inner read_leaf forget node_children bind mret]; try reflexivity.
  - apply (Hk _ s Ho).
  - rewrite map_length. apply (Hk _ s Ho).
Qed.

Lemma sim_container_children {A' A} l (n : mnode) (k' : mcc B K V -> M K V A') (k : children_container B K V -> res A) H R :
  (forall cc, mcc_level cc = l -> things_cc cc = things n -> sim (k' cc) (k (forget_cc cc)) H R) ->
  sim (mbind (mcontainer_children (l, n)) k') (bind (container_children (l, forget n)) k) H R.
Proof.
  intros Hk. unfold mcontainer_children, container_children. cbn [fst snd]. destruct l as [|l], n as [b id [cs|es]];
    intros s Ho; unfold mbind, lift; cbn [m_children read_inner read_leaf forget node_children bind mret m_id]; try reflexivity.
  - apply (Hk (MCCLeaf id es) eq_refl eq_refl s Ho).
  - apply (Hk (MCCInner (S l) id cs) eq_refl eq_refl s Ho).
Qed.

Lemma mnode_remove_sim {Q} (BR : Borrowed B K Q) level (n : mnode) q F :
  sim (mnode_remove P cfg BR level n q) (node_remove P cfg BR level (forget n) q) (things n ++ F) (removes level F).
Proof.
  revert n F; induction level as [|l IH]; intros n F; cbn [mnode_remove node_remove].
  - apply sim_read_leaf; [apply things_id|]. intros b id es ->.
    assert (Hpos := position_spec (fun kv => q_eq BR (borrow BR (fst kv)) q) es).
    destruct (position _ es) as [i|].
    + destruct Hpos as (x & Hi & _).
      destruct (swap_remove_spec i es) as (y & es' & E & _ & Hp & _); [now apply nth_error_lt in Hi|].
      rewrite E. apply (sim_lift_eq (fun x => x)); [reflexivity|]. intros [kv es2] E2. injection E2 as <- <-.
      apply (Permutation_flat_map_ (@kv_things K V)) in Hp. cbn [flat_map] in Hp. unfold kv_things at 2 in Hp. 
      eapply sim_destroy with (H0 := TBuf id :: TVal (snd y) :: flat_map kv_things es' ++ F).
      { cbn [things]. rewrite Hp. perm. }
      apply sim_ret. split; [split; [reflexivity|]|].
      * unfold things_rem. cbn [fst snd the_value flat_map things m_id]. perm.
      * cbn [fst snd map]. split; [congruence|]. split; constructor.
    + apply sim_ret. split; [split; [reflexivity|]|].
      * unfold things_rem. cbn [fst snd the_value flat_map]. perm.
      * cbn [fst snd map]. split; [auto|]. split; constructor.
  - apply sim_read_inner; [apply things_id|]. intros b id cs ->. rewrite map_length. cbn [m_bounds m_id forget node_bounds].
    set (loop' := (fix loop (i : nat) (cs0 : list mnode) : M K V (option V * mnode * list (mcc B K V)) := _)).
    set (loop := (fix loop (i : nat) (cs0 : list (node B K V)) : res (option V * node B K V * list (children_container B K V)) := _)).
    assert (E : forall i cs F, sim (loop' i cs) (loop i (map forget cs)) (TBuf id :: flat_map things cs ++ F) (removes (S l) F)).
    { clear cs F. induction i as [|i IHi]; intros cs F; cbn [loop' loop].
      - apply sim_ret. split; [split; [reflexivity|]|].
        + unfold things_rem. cbn [fst snd the_value flat_map things]. perm.
        + cbn [fst snd map]. split; [auto|]. split; constructor.
      - fold loop' loop. rewrite nth_error_map_.
        apply (sim_lift_eq forget); [apply unwrap_map|]. intros child Hc.
        assert (Hc' : nth_error cs i = Some child) by (destruct (nth_error cs i); cbn in Hc; congruence).
        destruct (things_set_nth i child cs Hc') as (rest & Hp & Hp').
        rewrite m_bounds_forget. destruct (b_intersects _ _ _).
        2:{ apply IHi. }
        eapply sim_bind.
        { eapply sim_perm; [|apply (IH child (TBuf id :: rest ++ F))]. rewrite Hp. perm. }
        intros [[value child'] unders] [[v0 c0] u0] H' [[E HP] [Hn [Hnd Hlv]]]. cbn beta iota.
        unfold forget_rem in E. cbn [fst snd] in E. injection E as -> -> ->. cbn [fst snd] in Hn, Hnd, Hlv.
        rewrite set_nth_map. unfold things_rem in HP. cbn [fst snd] in HP. destruct value as [value|].
        + apply sim_shallow_len. intros len.
          destruct (len <? minc).
          * rewrite swap_remove_map.
            destruct (swap_remove_spec i (set_nth i child' cs)) as (x & cs' & Es & Hx & Hpx & _).
            { rewrite set_nth_length. now apply nth_error_lt in Hc'. }
            assert (x = child').
            { rewrite nth_error_set_nth, Nat.eqb_refl in Hx. apply nth_error_lt in Hc'.
              destruct (Nat.ltb_spec i (length cs)); [congruence|lia]. }
            subst x. rewrite Es. cbn [res_map bind fst snd].
            assert (Hrest : Permutation rest (flat_map things cs')).
            { apply (Permutation_app_inv_l (things child')). rewrite <- Hp'.
              now apply (Permutation_flat_map_ (@things B K V)) in Hpx. }
            (* the two binds of the conditional *)
            intros s Ho.
            assert (Hs : sim (let! cc := mcontainer_children (l, child') in
                 mret (Some value, MNode (b_union_all (bops P) (map m_bounds cs')) id (CInner cs'), unders ++ [cc]))
               (let* cc := container_children (l, forget child') in
                 Ok (Some value, Node (b_union_all (bops P) (map node_bounds (map forget cs'))) (CInner (map forget cs')),
                   map forget_cc unders ++ [cc])) H' (removes (S l) F)).
            { apply sim_container_children. intros cc Hccl Hcct. apply sim_ret. split; [split|].
              - unfold forget_rem. cbn [fst snd forget]. now rewrite map_app, map_bounds_forget.
              - rewrite HP. unfold things_rem. cbn [fst snd things the_value]. rewrite flat_map_app. cbn [flat_map].
                rewrite Hcct, Hrest. perm.
              - cbn [fst snd]. split; [congruence|]. split.
                + rewrite map_app. cbn [map]. rewrite Hccl.
                  eapply Permutation_NoDup; [apply Permutation_cons_append|].
                  constructor; [|exact Hnd]. intros Hin. apply in_map_iff in Hin as (cc2 & E2 & Hin).
                  rewrite Forall_forall in Hlv. specialize (Hlv _ Hin). lia.
                + apply Forall_app. split; [eapply Forall_impl; [|exact Hlv]; cbn; lia|].
                  constructor; [lia|constructor]. }
            specialize (Hs s Ho). unfold mbind, lift, mret in *. cbn [bind] in *.
            destruct (container_children (l, forget child')) as [cc| | |]; cbn [bind] in *;
              destruct (mcontainer_children (l, child') s) as [[cc' s']| | |]; cbn [bind] in *; exact Hs.
          * cbn [bind]. intros s Ho. unfold mbind, mret at 1. cbn [bind]. 
            eapply (sim_ret given); [|exact Ho]. split; [split|].
            -- unfold forget_rem. cbn [fst snd forget]. now rewrite map_bounds_forget.
            -- rewrite HP. unfold things_rem. cbn [fst snd things]. rewrite Hp'. perm.
            -- cbn [fst snd]. split; [congruence|]. split; [exact Hnd|].
               eapply Forall_impl; [|exact Hlv]; cbn; lia.
        + rewrite (Hn eq_refl) in HP. cbn [flat_map the_value] in HP.
          eapply sim_perm; [|apply IHi]. rewrite HP, Hp'. perm. }
    specialize (E (length cs) cs F). eapply sim_perm; [|exact E]. cbn [things]. perm.
Qed.

(** *** The array of underfull nodes *)
Definition forget_ch (c : children mnode (K * V)) : children (node B K V) (K * V) :=
  match c with CInner cs => CInner (map forget cs) | CLeaf es => CLeaf es end.
Definition things_ch (c : children mnode (K * V)) : list thing :=
  match c with CInner cs => flat_map things cs | CLeaf es => flat_map kv_things es end.
Definition forget_slot (o : mslot (B := B) (K := K) (V := V)) : option (children (node B K V) (K * V)) :=
  option_map (fun p => forget_ch (snd p)) o.
Definition things_slot (o : mslot (B := B) (K := K) (V := V)) : list thing :=
  match o with Some (id, c) => TBuf id :: things_ch c | None => [] end.

Lemma sim_ret_bind {A0 A' A} (a0 : A0) (k' : A0 -> M K V A') (r : res A) H R :
  sim (k' a0) r H R -> sim (mbind (mret a0) k') r H R.
Proof. intros Hs s Ho. exact (Hs s Ho). Qed.

Lemma mstore_all_sim ccs arr F :
  NoDup (map mcc_level ccs) -> (forall cc, In cc ccs -> nth_error arr (mcc_level cc) = Some None) ->
  sim (mstore_all arr ccs) (store_all (map forget_slot arr) (map forget_cc ccs))
    (flat_map things_slot arr ++ flat_map things_cc ccs ++ F)
    (gets (map forget_slot) (flat_map things_slot) F).
Proof.
  revert arr F; induction ccs as [|cc ccs IH]; intros arr F Hnd Hnone; cbn [mstore_all store_all map].
  - apply sim_ret. split; [reflexivity|]. cbn [flat_map]. perm.
  - unfold mstore_underfull, store_underfull.
    replace (cc_level (forget_cc cc)) with (mcc_level cc) by (now destruct cc).
    rewrite map_length. assert (Hslot := Hnone cc (or_introl eq_refl)). unfold mslot in *.
    assert (Hlt := nth_error_lt _ _ _ Hslot). apply Nat.ltb_lt in Hlt. rewrite Hlt.
    inversion Hnd as [|? ? Hnin Hnd']; subst.
    replace (Some (cc_leak (forget_cc cc))) with (forget_slot (Some (mcc_leak cc))) by (now destruct cc).
    rewrite set_nth_map. cbn [bind].
    apply sim_ret_bind.
    eapply sim_perm; [|apply IH; [exact Hnd'|]].
    + destruct (nth_error_split_set _ _ (Some (mcc_leak cc)) _ Hslot) as (a1 & a2 & -> & _ & ->).
      rewrite !flat_map_app. cbn [flat_map].
      replace (things_slot (Some (mcc_leak cc))) with (things_cc cc) by (now destruct cc).
      cbn [things_slot]. perm.
    + intros cc2 Hin. rewrite nth_error_set_nth. destruct (Nat.eqb_spec (mcc_level cc) (mcc_level cc2)) as [E|E].
      * elim Hnin. rewrite E. now apply in_map.
      * apply Hnone. now right.
Qed.

Lemma minsert_entries_sim es (root : mcontainer B K V) F :
  sim (minsert_entries P cfg root es) (insert_entries P cfg (forget_c root) (map forget_e es))
    (things_c root ++ flat_map things_e es ++ F) (gets forget_c things_c F).
Proof.
  revert root F; induction es as [|e es IH]; intros root F; cbn [minsert_entries insert_entries map].
  - apply sim_ret. split; reflexivity.
  - eapply sim_bind.
    { eapply sim_perm; [|apply (minsert_entry_sim root e (flat_map things_e es ++ F))]. cbn [flat_map]. perm. }
    intros r r0 H' [-> HP]. eapply sim_perm; [exact HP|]. apply IH.
Qed.

Lemma mreinsert_sim arr (root : mcontainer B K V) level F :
  sim (mreinsert P cfg root level arr) (reinsert P cfg (forget_c root) level (map forget_slot arr))
    (things_c root ++ flat_map things_slot arr ++ F) (gets forget_c things_c F).
Proof.
  revert root level F; induction arr as [|[[id ch]|] arr IH]; intros root level F; cbn [mreinsert reinsert map forget_slot option_map].
  - apply sim_ret. split; reflexivity.
  - cbn [snd].
    assert (Hcc : forall cc, mcc_id cc = id -> things_cc cc = TBuf id :: things_ch ch ->
       flat_map things_e (mcc_entries cc) = things_ch ch -> map forget_e (mcc_entries cc) = cc_entries (forget_cc cc) ->
       sim (let! _ := use_buf (mcc_id cc) in let! root := minsert_entries P cfg root (mcc_entries cc) in
            let! _ := destroy (TBuf (mcc_id cc)) in mreinsert P cfg root (S level) arr)
           (let* root := insert_entries P cfg (forget_c root) (cc_entries (forget_cc cc)) in
            reinsert P cfg root (S level) (map forget_slot arr))
           (things_c root ++ flat_map things_slot (Some (id, ch) :: arr) ++ F) (gets forget_c things_c F)).
    { intros cc Hid Hth Hen Hfe. rewrite Hid. cbn [flat_map things_slot].
      apply sim_use; [apply in_or_app; right; now left|].
      rewrite <- Hfe. eapply sim_bind.
      { eapply sim_perm; [|apply (minsert_entries_sim (mcc_entries cc) root (TBuf id :: flat_map things_slot arr ++ F))].
        rewrite Hen. perm. }
      intros r r0 H' [-> HP]. eapply sim_destroy with (H0 := things_c r ++ flat_map things_slot arr ++ F); [rewrite HP; perm|].
      apply IH. }
    destruct level as [|l], ch as [cs|es]; cbn [mwrap_children wrap_children forget_ch snd fst read_inner read_leaf bind];
      try (intros s Ho; reflexivity).
    + specialize (Hcc (MCCLeaf id es) eq_refl eq_refl). intros s Ho. apply (Hcc) in Ho.
      * exact Ho.
      * cbn [mcc_entries things_ch]. clear. induction es as [|kv es IHe]; [reflexivity|]. cbn [map flat_map things_e]. now rewrite IHe.
      * cbn [mcc_entries cc_entries forget_cc]. rewrite map_map. reflexivity.
    + specialize (Hcc (MCCInner (S l) id cs) eq_refl eq_refl). intros s Ho. apply (Hcc) in Ho.
      * exact Ho.
      * cbn [mcc_entries things_ch]. clear. induction cs as [|c cs IHc]; [reflexivity|]. cbn [map flat_map things_e things_c snd]. now rewrite IHc.
      * cbn [mcc_entries cc_entries forget_cc]. rewrite !map_map. reflexivity.
  - cbn [flat_map things_slot app]. apply IH.
Qed.

Lemma mcontainer_remove_sim {Q} (BR : Borrowed B K Q) (root : mcontainer B K V) q F :
  sim (mcontainer_remove P cfg BR root q) (container_remove P cfg BR (forget_c root) q)
    (things_c root ++ F) (gets forget_v things_v F).
Proof.
  unfold mcontainer_remove, container_remove. cbn [forget_c fst snd].
  eapply sim_bind; [apply mnode_remove_sim|].
  intros [[value n'] unders] [[v0 n0] u0] H' [[E HP] [Hn [Hnd Hlv]]]. cbn beta iota.
  unfold forget_rem in E. cbn [fst snd] in E. injection E as -> -> ->. cbn [fst snd] in Hn, Hnd, Hlv.
  unfold things_rem in HP. cbn [fst snd] in HP.
  assert (Hrep : map forget_slot (repeat None (fst root)) = repeat None (fst root)).
  { generalize (fst root) as m. clear. induction m; cbn; congruence. }
  assert (Hrep0 : flat_map things_slot (repeat None (fst root)) = []).
  { generalize (fst root) as m. clear. induction m; cbn; congruence. }
  destruct value as [value|].
  - rewrite <- Hrep. eapply sim_bind.
    { eapply sim_perm; [|apply (mstore_all_sim unders (repeat None (fst root)) ([TVal value] ++ things n' ++ F) Hnd)].
      - rewrite Hrep0, HP. cbn [the_value]. perm.
      - intros cc Hin. rewrite nth_error_repeat; [reflexivity|]. rewrite Forall_forall in Hlv. now apply Hlv. }
    intros arr arr0 H2 [-> HP2].
    eapply sim_bind.
    { eapply sim_perm; [|apply (mtry_unbranch_sim (fst root, n') (flat_map things_slot arr ++ [TVal value] ++ F))].
      rewrite HP2. unfold things_c. cbn [snd the_value]. perm. }
    intros r r0 H3 [-> HP3]. eapply sim_bind.
    { eapply sim_perm; [|apply (mreinsert_sim arr r 0 ([TVal value] ++ F))]. rewrite HP3. perm. }
    intros r2 r0 H4 [-> HP4]. apply sim_ret. split; [reflexivity|]. rewrite HP4. unfold things_v. cbn [fst snd the_value]. perm.
  - rewrite (Hn eq_refl) in *. cbn [map mstore_all store_all bind]. apply sim_ret_bind. apply sim_ret.
    split; [reflexivity|]. rewrite HP. unfold things_v, things_c. cbn [fst snd the_value flat_map]. perm.
Qed.

(** *** clone *)
Lemma sim_clone_entry {A' A} kv (k' : K * V -> M K V A') (r : res A) H R :
  sim (k' kv) r (kv_things kv ++ H) R -> sim (mbind (clone_entry kv) k') r H R.
Proof.
  intros Hk s Ho. unfold mbind, clone_entry. cbn [bind]. apply Hk. destruct Ho as [H1 H2 H3].
  split; cbn [m_next m_gone m_cloned]; auto.
  { constructor; [exact Logic.I|]. constructor; [exact Logic.I|exact H2]. }
  unfold kv_things. transitivity (TKey (fst kv) :: TVal (snd kv) :: map TBuf (seq 0 (m_next s)) ++ m_cloned s ++ given); [perm|].
  rewrite H3. perm.
Qed.

Lemma mclone_vec_sim es new F :
  sim (mclone_vec cfg es new) (clone_vec cfg es new) (flat_map kv_things new ++ F)
    (gets (fun x => x) (flat_map kv_things) F).
Proof.
  revert new F; induction es as [|kv es IH]; intros new F; cbn [mclone_vec clone_vec].
  - apply sim_ret. split; reflexivity.
  - apply sim_clone_entry. apply (sim_lift_eq (fun x => x)); [now destruct (push _ _ _)|].
    intros new' E. unfold push in E. destruct (_ =? _); [discriminate|]. injection E as <-.
    eapply sim_perm; [|apply IH]. rewrite flat_map_app. cbn [flat_map]. perm.
Qed.

Lemma mclone_node_sim level (n : mnode) F :
  sim (mclone_node cfg level n) (clone_node cfg level (forget n)) (things n ++ F)
    (gets forget things (things n ++ F)).
Proof.
  revert n F; induction level as [|l IH]; intros n F; cbn [mclone_node clone_node].
  - apply sim_read_leaf; [apply things_id|]. intros b id es ->. destruct (_ <? _); [apply sim_panic|].
    apply sim_new. intros id2. eapply sim_bind.
    { eapply sim_perm; [|apply (mclone_vec_sim es [] (TBuf id2 :: things (MNode b id (CLeaf es) : mnode) ++ F))]. reflexivity. }
    intros es' es0 H' [-> HP]. apply sim_ret. split; [reflexivity|]. rewrite HP. cbn [things]. perm.
  - apply sim_read_inner; [apply things_id|]. intros b id cs ->.
    apply sim_new. intros id2.
    set (loop' := (fix loop (cs new : list mnode) : M K V (list mnode) := _)).
    set (loop := (fix loop (cs new : list (node B K V)) : res (list (node B K V)) := _)).
    assert (E : forall cs new F, sim (loop' cs new) (loop (map forget cs) (map forget new))
        (flat_map things new ++ flat_map things cs ++ F)
        (gets (map forget) (flat_map things) (flat_map things cs ++ F))).
    { clear cs F. induction cs as [|c cs IHcs]; intros new F; cbn [loop' loop map].
      - apply sim_ret. split; reflexivity.
      - fold loop' loop. eapply sim_bind.
        { eapply sim_perm; [|apply (IH c (flat_map things new ++ flat_map things cs ++ F))]. cbn [flat_map]. perm. }
        intros c' c0 H' [-> HP]. rewrite push_map. apply (sim_lift_eq (map forget)); [reflexivity|].
        intros new' E. unfold push in E. destruct (_ =? _); [discriminate|]. injection E as <-.
        specialize (IHcs (new ++ [c']) (things c ++ F)).
        eapply sim_mono; [eapply sim_perm; [|exact IHcs]|].
        + rewrite HP, flat_map_app. cbn [flat_map]. perm.
        + intros a' a H2 [-> HP2]. split; [reflexivity|]. rewrite HP2. cbn [flat_map]. perm. }
    eapply sim_bind.
    { eapply sim_perm; [|apply (E cs [] (TBuf id2 :: TBuf id :: F))]. cbn [things flat_map]. perm. }
    intros cs' cs0 H' [-> HP]. apply sim_ret. split; [reflexivity|]. rewrite HP. cbn [things]. perm.
Qed.

Lemma mtree_clone_sim (t : mcontainer B K V) F :
  sim (mtree_clone cfg t) (rtree_clone cfg (forget_c t)) (things_c t ++ F) (gets forget_c things_c (things_c t ++ F)).
Proof.
  unfold mtree_clone, rtree_clone. cbn [forget_c fst snd]. eapply sim_bind; [apply mclone_node_sim|].
  intros n n0 H' [-> HP]. apply sim_ret. split; [reflexivity|]. exact HP.
Qed.
End Sim.
