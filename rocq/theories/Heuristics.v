(** The heuristics: which child insertion descends into, how a node is split, which seeds are picked. *)
From Verif Require Export Main.

Section Cmp.
Context {T : Type} (cmp : T -> T -> comparison) (L : cmp_laws cmp).

Lemma cmp_refl a : cmp a a = Eq.
Proof. assert (H := cmp_flip _ L a a). now destruct (cmp a a). Qed.

Lemma cmp_lt_le a b c : cmp a b = Lt -> cmp b c <> Gt -> cmp a c = Lt.
Proof.
  intros H1 H2. destruct (cmp a c) eqn:E; [|reflexivity|].
  - assert (cmp c a <> Gt) by (rewrite (cmp_flip _ L a c), E; discriminate).
    assert (H3 := cmp_le_trans _ L b c a H2 H). rewrite (cmp_flip _ L a b), H1 in H3. now elim H3.
  - elim (cmp_le_trans _ L a b c); [rewrite H1; discriminate|exact H2|exact E].
Qed.

Lemma cmp_le_lt a b c : cmp a b <> Gt -> cmp b c = Lt -> cmp a c = Lt.
Proof.
  intros H1 H2. destruct (cmp a c) eqn:E; [|reflexivity|].
  - assert (cmp c a <> Gt) by (rewrite (cmp_flip _ L a c), E; discriminate).
    assert (H3 := cmp_le_trans _ L c a b H H1). rewrite (cmp_flip _ L b c), H2 in H3. now elim H3.
  - elim (cmp_le_trans _ L a b c); [exact H1|rewrite H2; discriminate|exact E].
Qed.

Lemma cmp_eq_sym a b : cmp a b = Eq -> cmp b a = Eq.
Proof. intros H. now rewrite (cmp_flip _ L a b), H. Qed.

(** [min_by] returns the first minimum. *)
Lemma min_by_from_first l best pre :
  (forall y, In y pre -> cmp best y = Lt) ->
  exists pre' post', pre ++ best :: l = pre' ++ min_by_from cmp best l :: post'
    /\ (forall y, In y pre' -> cmp (min_by_from cmp best l) y = Lt)
    /\ (forall y, In y post' -> cmp (min_by_from cmp best l) y <> Gt).
Proof.
  intros Hpre. assert (G : forall mid, (forall y, In y mid -> cmp best y <> Gt) ->
    exists pre' post', pre ++ best :: mid ++ l = pre' ++ min_by_from cmp best l :: post'
    /\ (forall y, In y pre' -> cmp (min_by_from cmp best l) y = Lt)
    /\ (forall y, In y post' -> cmp (min_by_from cmp best l) y <> Gt)).
  2:{ exact (G [] ltac:(intros ? [])). }
  revert best pre Hpre; induction l as [|y l IH]; intros best pre Hpre mid Hmid; cbn [min_by_from].
  - exists pre, mid. rewrite app_nil_r. auto.
  - assert (Ha : mid ++ y :: l = (mid ++ [y]) ++ l) by now rewrite <- app_assoc.
    destruct (cmp best y) eqn:E.
    + rewrite Ha. apply IH; [exact Hpre|]. intros z Hz. apply in_app_or in Hz as [Hz|[<-|[]]]; [auto|congruence].
    + rewrite Ha. apply IH; [exact Hpre|]. intros z Hz. apply in_app_or in Hz as [Hz|[<-|[]]]; [auto|congruence].
    + destruct (IH y (pre ++ best :: mid)) with (mid := @nil T) as (p1 & p2 & E1 & E2 & E3).
      * assert (Hy : cmp y best = Lt) by now rewrite (cmp_flip _ L best y), E.
        intros z Hz. apply in_app_or in Hz as [Hz|[<-|Hz]].
        -- eapply cmp_lt_le; [exact Hy|]. rewrite (Hpre z Hz). discriminate.
        -- exact Hy.
        -- eapply cmp_lt_le; [exact Hy|auto].
      * intros ? [].
      * exists p1, p2. rewrite <- E1, <- app_assoc. auto.
Qed.

Lemma min_by_first l x : min_by cmp l = Some x ->
  exists pre post', l = pre ++ x :: post' /\ (forall y, In y pre -> cmp x y = Lt) /\ (forall y, In y post' -> cmp x y <> Gt).
Proof.
  destruct l as [|a l]; [discriminate|]. intros [= <-].
  destruct (min_by_from_first l a []) as (p1 & p2 & H); [intros ? []|]. exists p1, p2. exact H.
Qed.
End Cmp.

Lemma cmp_laws_volume_laws {B} (VO : VolumeOps B) : cmp_laws (n64_cmp VO) -> volume_laws VO.
Proof.
  intros L. split; split; intros; try apply (cmp_flip _ L); eapply (cmp_le_trans _ L); eassumption.
Qed.

Section Select.
Context {B K : Type} (P : Params B K) (VL : volume_laws (vops P)).
Let volL := vl_volume _ VL.
Let difL := vl_difference _ VL.

Lemma select_cmp_laws b : cmp_laws (select_cmp P b).
Proof.
  set (p := fun x : nat * B => (b_union (bops P) (snd x) b, snd x)).
  assert (F : forall x y, n64_cmp (vops P) (volume_increase P (snd y) b) (volume_increase P (snd x) b)
                        = CompOpp (n64_cmp (vops P) (volume_increase P (snd x) b) (volume_increase P (snd y) b)))
    by (intros x y; exact (cmp_flip _ difL (p x) (p y))).
  constructor.
  - intros x y. unfold select_cmp. rewrite (F x y).
    destruct (n64_cmp _ (volume_increase P (snd x) b) _); cbn; try reflexivity. exact (cmp_flip _ volL (Some (snd x)) (Some (snd y))).
  - intros x y z. unfold select_cmp.
    assert (T1 := cmp_le_trans _ difL (p x) (p y) (p z)). assert (T2 := cmp_lt_le _ difL (p x) (p y) (p z)).
    assert (T3 := cmp_le_lt _ difL (p x) (p y) (p z)). cbv zeta in T1, T2, T3. subst p. cbn [fst snd] in T1, T2, T3.
    fold (volume_increase P (snd x) b) in T1, T2, T3. fold (volume_increase P (snd y) b) in T1, T2, T3. fold (volume_increase P (snd z) b) in T1, T2, T3.
    set (ix := volume_increase P (snd x) b) in *. set (iy := volume_increase P (snd y) b) in *.
    set (iz := volume_increase P (snd z) b) in *. intros H1 H2.
    assert (Hxy : n64_cmp (vops P) ix iy <> Gt) by (destruct (n64_cmp _ ix iy); congruence).
    assert (Hyz : n64_cmp (vops P) iy iz <> Gt) by (destruct (n64_cmp _ iy iz); congruence).
    assert (Hxz := T1 Hxy Hyz).
    destruct (n64_cmp _ ix iz) eqn:E; try congruence.
    assert (E1 : n64_cmp (vops P) ix iy = Eq).
    { destruct (n64_cmp _ ix iy) eqn:E1; [reflexivity| |congruence]. specialize (T2 eq_refl Hyz). congruence. }
    assert (E2 : n64_cmp (vops P) iy iz = Eq).
    { destruct (n64_cmp _ iy iz) eqn:E2; [reflexivity| |congruence]. specialize (T3 Hxy eq_refl). congruence. }
    rewrite E1 in H1. rewrite E2 in H2. exact (cmp_le_trans _ volL (Some (snd x)) (Some (snd y)) (Some (snd z)) H1 H2).
Qed.

Lemma enumerate_app {T} (l : list T) pre i x post' : enumerate l = pre ++ (i, x) :: post' ->
  i = length pre /\ nth_error l i = Some x
  /\ (forall j y, nth_error l j = Some y -> j < i -> In (j, y) pre)
  /\ (forall j y, nth_error l j = Some y -> i < j -> In (j, y) post').
Proof.
  intros E. assert (H := enumerate_nth l (length pre)). rewrite E, nth_error_middle in H.
  destruct (nth_error l (length pre)) as [x'|] eqn:Hx; [|discriminate]. injection H as -> <-.
  split; [reflexivity|]. split; [exact Hx|].
  split; intros j y Hj Hlt; assert (H := enumerate_nth l j); rewrite Hj, E in H.
  - rewrite nth_error_app1 in H by lia. eapply nth_error_In, H.
  - rewrite nth_error_app2 in H by lia. replace (j - length pre) with (S (j - length pre - 1)) in H by lia.
    cbn in H. eapply nth_error_In, H.
Qed.

Lemma select_least bs eb i : select P bs eb = Some i -> least_enlargement P bs eb i.
Proof.
  unfold select. destruct (min_by _ _) as [[i' x]|] eqn:E; [|discriminate]. cbn. intros [= ->].
  apply (min_by_first _ (select_cmp_laws eb)) in E as (pre & post' & E & Hpre & Hpost).
  destruct (enumerate_app bs pre i x post' E) as (_ & Hx & H1 & H2).
  unfold least_enlargement. exists x. split; [exact Hx|]. intros j y Hj.
  change (n64_sub (vops P) (volume (vops P) (b_union (bops P) x eb)) (volume (vops P) x)) with (volume_increase P x eb).
  change (n64_sub (vops P) (volume (vops P) (b_union (bops P) y eb)) (volume (vops P) y)) with (volume_increase P y eb).
  destruct (Nat.lt_trichotomy j i) as [Hlt|[->|Hgt]].
  - specialize (Hpre _ (H1 j y Hj Hlt)). unfold select_cmp in Hpre. cbn [snd] in Hpre.
    destruct (n64_cmp _ (volume_increase P x eb) _); auto; discriminate.
  - rewrite Hx in Hj. injection Hj as <-. right. split; [exact (cmp_refl _ difL (_, _))|]. right. split; [exact (cmp_refl _ volL (Some x))|lia].
  - specialize (Hpost _ (H2 j y Hj Hgt)). unfold select_cmp in Hpost. cbn [snd] in Hpost.
    destruct (n64_cmp _ (volume_increase P x eb) _); auto; [|congruence].
    right. split; [reflexivity|]. destruct (n64_cmp _ (volume _ x) _); auto; [|congruence].
    right. split; [reflexivity|lia].
Qed.
End Select.

(** One step of the descent. *)
Section Descend.
Context {B K V : Type} (P : Params B K) (cfg : config) (VL : volume_laws (vops P)).
Notation tree := (rtree B K V).

Lemma self_insert_children level (n n' : node B K V) cs b m sib :
  n = Node b (CInner cs) -> length cs <= max_children cfg ->
  self_insert P cfg (S level) n (EInner (level, m)) = Ok (n', sib) ->
  exists b' cs', n' = Node b' (CInner cs') /\
    match sib with
    | None => cs' = cs ++ [m]
    | Some s => exists b'' cs'', s = (S level, Node b'' (CInner cs'')) /\ Permutation (cs' ++ cs'') (cs ++ [m])
    end.
Proof.
  intros -> Hlen E. unfold self_insert in E. cbn [children_at node_children read_inner bind] in E.
  destruct (Nat.eqb_spec (S level - 1) level) as [_|]; [|lia]. cbn [negb] in E.
  unfold try_push in E. destruct (Nat.eqb_spec (length cs) (max_children cfg)) as [Hf|Hf].
  - assert (H := split_spec P node_bounds (fun _ => True) rel_any (any_laws P _) (fun _ : node B K V => @nil K)
        (max_children cfg) (min_children cfg) cs m Hf).
    destruct (split P node_bounds (max_children cfg) (min_children cfg) cs m) as [[[[b1 b2] g1] g2]| | |]; cbn [bind] in E; try discriminate.
    injection E as <- <-. cbn [post] in H. destruct H as (Hp & _); [apply Forall_forall; intros; exact I|].
    eexists _, _; split; [reflexivity|]. eexists _, _; split; [reflexivity|]. rewrite <- Hp. perm.
  - injection E as <- <-. eexists _, _; split; reflexivity.
Qed.

Lemma insert_descends ok (t : tree) l n k v n' sib :
  reachable P cfg ok t -> node_at t (S l) n -> ok k ->
  node_insert P cfg (S l) n (ELeaf (k, v)) = Ok (n', sib) ->
  exists b cs b' cs', n = Node b (CInner cs) /\ n' = Node b' (CInner cs') /\
  exists i c c' new, nth_error cs i = Some c /\ least_enlargement P (map node_bounds cs) (key_bounds P k) i
    /\ length new <= 1 /\ Permutation (entries c' ++ flat_map entries new) ((k, v) :: entries c)
    /\ match sib with
       | None => cs' = set_nth i c' cs ++ new
       | Some s => exists b'' cs'', s = (S l, Node b'' (CInner cs'')) /\ Permutation (cs' ++ cs'') (set_nth i c' cs ++ new)
       end.
Proof.
  intros Hr Hat Hk E. apply inv_any in Hr. destruct (node_at_wf _ _ _ _ _ _ _ _ _ Hr Hat) as [Hw _].
  destruct (wf_inv _ _ _ _ _ _ _ Hw) as (b & cs & ->). exists b, cs.
  assert (Hw' := Hw). rewrite wf_inner in Hw'. destruct Hw' as (_ & Hlen & Hcs).
  cbn [node_insert target_level] in E. destruct (Nat.eqb_spec 0 (S l)); [lia|]. cbn [negb node_children read_inner bind entry_bounds] in E.
  destruct (select P (map node_bounds cs) (key_bounds P k)) as [i|] eqn:Es; cbn [unwrap bind] in E; [|discriminate].
  destruct (nth_error cs i) as [c|] eqn:Ec; cbn [unwrap bind] in E; [|discriminate].
  assert (Hc : child_ok cfg ok rel_any 0 False l c) by (eapply Forall_nth_error; eassumption).
  assert (Hins := node_insert_spec P cfg ok rel_any (any_laws P ok) 0 False False ltac:(tauto) ltac:(tauto) ltac:(tauto)
                    l c (ELeaf (k, v)) (proj1 Hc) ltac:(tauto) Hk (Nat.le_0_l _)).
  destruct (node_insert P cfg l c (ELeaf (k, v))) as [[c' new]| | |]; cbn [bind] in E; try discriminate.
  cbn [post ins_post entry_entries] in Hins. apply (select_least P VL) in Es.
  destruct new as [[lv m]|].
  - destruct Hins as (-> & Hp & _).
    destruct (self_insert_children l _ n' (set_nth i c' cs) _ m sib eq_refl ltac:(rewrite set_nth_length; exact Hlen) E)
      as (b' & cs' & -> & Hs).
    exists b', cs'. split; [reflexivity|]. split; [reflexivity|]. exists i, c, c', [m]. repeat split; auto.
    cbn [flat_map]. rewrite app_nil_r, Hp. perm.
  - destruct Hins as (Hp & _). injection E as <- <-.
    eexists _, _. split; [reflexivity|]. split; [reflexivity|]. exists i, c, c', []. repeat split; auto.
    + cbn. rewrite app_nil_r, Hp. perm.
    + now rewrite app_nil_r.
Qed.
End Descend.

(** Splitting. *)
Section SplitThm.
Context {B T : Type} (O : BoundsOps B) (VO : VolumeOps B) (bnd : T -> B).
Let P : Params B T := {| bops := O; vops := VO; key_bounds := bnd; key_eq := fun _ _ => false |}.

Lemma map_singleton_flat (l : list T) : flat_map (fun x => [x]) l = l.
Proof. induction l; cbn; congruence. Qed.

Lemma split_partition cap min values ov : 1 <= cap -> length values = cap ->
  exists b1 b2 g1 g2, split P bnd cap min values ov = Ok (b1, b2, g1, g2)
  /\ Permutation (g1 ++ g2) (ov :: values) /\ 1 <= length g1 <= cap /\ 1 <= length g2 <= cap
  /\ (2 * min <= cap -> min <= length g1 /\ min <= length g2).
Proof.
  intros Hc Hl.
  assert (H := split_spec P bnd (fun _ => True) rel_any (any_laws P _) (fun x => [x]) cap min values ov Hl
     ltac:(apply Forall_forall; intros; exact I)).
  apply post_exists in H as ([[[b1 b2] g1] g2] & E & Hp & H1 & H2 & Hs & Hm & _); [|lia].
  exists b1, b2, g1, g2. split; [exact E|]. split; [symmetry; exact Hp|].
  assert (Hlen := Permutation_length Hp). rewrite app_length in Hlen. cbn in Hlen.
  repeat split; try lia; intros H; specialize (Hm H); lia.
Qed.

Lemma split_covers incl cap min values ov b1 b2 g1 g2 : bounds_laws O incl -> length values = cap ->
  split P bnd cap min values ov = Ok (b1, b2, g1, g2) ->
  (forall x, In x g1 -> incl b1 (bnd x)) /\ (forall x, In x g2 -> incl b2 (bnd x)).
Proof.
  intros BL Hl E.
  assert (H := split_spec P bnd (fun _ => True) (rel_cover P incl) (cover_laws P _ incl BL) (fun x => [x]) cap min values ov Hl).
  rewrite E in H. cbn [post] in H. destruct H as (_ & _ & _ & _ & _ & H1 & H2).
  { apply Forall_forall. intros x _ y [<-|[]]. apply (incl_refl _ _ BL). }
  rewrite !map_singleton_flat in H1, H2. split; [exact H1|exact H2].
Qed.

Lemma split_exact cap min values ov b1 b2 g1 g2 : semilattice_laws O -> length values = cap ->
  split P bnd cap min values ov = Ok (b1, b2, g1, g2) ->
  b1 = b_union_all O (map bnd g1) /\ b2 = b_union_all O (map bnd g2).
Proof.
  intros SL Hl E.
  assert (H := split_spec P bnd (fun _ => True) (rel_exact P) (exact_laws P SL _ ltac:(cbn; discriminate)) (fun x => [x]) cap min values ov Hl).
  rewrite E in H. cbn [post] in H. destruct H as (_ & _ & _ & _ & _ & H1 & H2).
  { apply Forall_forall. intros x _. apply (rel_key _ _ _ (exact_laws P SL (fun _ => True) ltac:(cbn; discriminate))). exact I. }
  rewrite !map_singleton_flat in H1, H2. rewrite !(sl_union_all _ SL). split; [exact H1|exact H2].
Qed.
End SplitThm.

(** Seeds: the chosen pair maximises the volume of the union of the pair *and the overflowing value*. *)
Section Seeds.
Context {B K T : Type} (P : Params B K) (bnd : T -> B) (VL : volume_laws (vops P)).
Notation VO := (vops P).
Notation vol := (volume VO).
Let volL := vl_volume _ VL.
Let v (o : option B) := match o with Some b => vol b | None => n64_neg_inf VO end.
Notation "a ∪ b" := (b_union (bops P) a b) (at level 50, left associativity).
Notation le a b := (n64_cmp VO a b <> Gt).

(** The measure the code maximises for the pair of indices [(i, j)], [j = length values] standing for the
    overflowing value. *)
Definition pair_measure (values : list T) (ov : T) (i j : nat) : option (N64 VO) :=
  match nth_error values i with
  | None => None
  | Some x =>
    if j =? length values then Some (vol (bnd x ∪ bnd ov))
    else option_map (fun y => vol (bnd x ∪ (bnd y ∪ bnd ov))) (nth_error values j)
  end.

Lemma n64_gt_false a b : n64_gt P a b = false -> le a b.
Proof. unfold n64_gt. destruct (n64_cmp VO a b); congruence. Qed.
Lemma n64_gt_true a b : n64_gt P (v a) (v b) = true -> le (v b) (v a).
Proof. unfold n64_gt. assert (H := cmp_flip _ volL a b). change (n64_cmp VO (v b) (v a) = CompOpp (n64_cmp VO (v a) (v b))) in H. rewrite H. now destruct (n64_cmp VO (v a) (v b)). Qed.
Lemma le_refl_ a : le (v a) (v a).
Proof. assert (H := cmp_refl _ volL a). change (n64_cmp VO (v a) (v a) = Eq) in H. rewrite H. discriminate. Qed.
Lemma le_trans_ a b c : le (v a) (v b) -> le (v b) (v c) -> le (v a) (v c).
Proof. exact (cmp_le_trans _ volL a b c). Qed.

Lemma wc_loop1_max values ov ivs g i1 :
  (forall i x, In (i, x) ivs -> nth_error values i = Some x) ->
  forall g1 j, fold_left (wc_loop1 P bnd ov) ivs (v g, i1) = (g1, j) ->
  exists g', g1 = v g' /\ le (v g) (v g') /\ (forall i x, In (i, x) ivs -> le (vol (bnd x ∪ bnd ov)) (v g'))
  /\ ((g', j) = (g, i1) \/ pair_measure values ov j (length values) = Some (v g')).
Proof.
  revert g i1; induction ivs as [|[i x] ivs IH]; intros g i1 Hin g1 j; cbn [fold_left].
  - intros [= <- <-]. exists g. split; [reflexivity|]. split; [apply le_refl_|]. split; [intros ? ? []|now left].
  - unfold wc_loop1 at 2. change (vol (bnd x ∪ bnd ov)) with (v (Some (bnd x ∪ bnd ov))). destruct (n64_gt P _ (v g)) eqn:Eg; intros E.
    + destruct (IH _ _ ltac:(intros; apply Hin; now right) g1 j E) as (g' & -> & H1 & H2 & H3). exists g'. split; [reflexivity|].
      split; [eapply le_trans_; [apply (n64_gt_true _ _ Eg)|exact H1]|]. split.
      * intros i' x' [[= <- <-]|H]; [exact H1|eauto].
      * right. destruct H3 as [[= -> ->]|H3]; [|exact H3].
        unfold pair_measure. rewrite (Hin i x (or_introl eq_refl)), Nat.eqb_refl. reflexivity.
    + destruct (IH _ _ ltac:(intros; apply Hin; now right) g1 j E) as (g' & -> & H1 & H2 & H3). exists g'. split; [reflexivity|].
      split; [exact H1|]. split; [|exact H3].
      intros i' x' [[= <- <-]|H]; [|eauto]. apply (le_trans_ (Some (bnd x ∪ bnd ov)) g g'); [apply n64_gt_false, Eg|exact H1].
Qed.

Lemma wc_loop2_max values ov i x jvs g i1 i2 : nth_error values i = Some x ->
  (forall j y, In (j, y) jvs -> nth_error values j = Some y) ->
  forall g1 j1 j2, fold_left (wc_loop2 P bnd ov i x) jvs (v g, i1, i2) = (g1, j1, j2) ->
  exists g', g1 = v g' /\ le (v g) (v g') /\ (forall j y, In (j, y) jvs -> le (vol (bnd x ∪ (bnd y ∪ bnd ov))) (v g'))
  /\ ((g', j1, j2) = (g, i1, i2) \/ pair_measure values ov j1 j2 = Some (v g')).
Proof.
  intros Hi. revert g i1 i2; induction jvs as [|[j y] jvs IH]; intros g i1 i2 Hin g1 j1 j2; cbn [fold_left].
  - intros [= <- <- <-]. exists g. split; [reflexivity|]. split; [apply le_refl_|]. split; [intros ? ? []|now left].
  - unfold wc_loop2 at 2. change (vol (bnd x ∪ (bnd y ∪ bnd ov))) with (v (Some (bnd x ∪ (bnd y ∪ bnd ov)))). destruct (n64_gt P _ (v g)) eqn:Eg; intros E.
    + destruct (IH _ _ _ ltac:(intros; apply Hin; now right) g1 j1 j2 E) as (g' & -> & H1 & H2 & H3). exists g'. split; [reflexivity|].
      split; [eapply le_trans_; [apply (n64_gt_true _ _ Eg)|exact H1]|]. split.
      * intros i' x' [[= <- <-]|H]; [exact H1|eauto].
      * right. destruct H3 as [[= -> -> ->]|H3]; [|exact H3].
        unfold pair_measure. assert (Hj := Hin j y (or_introl eq_refl)). rewrite Hi, Hj.
        destruct (Nat.eqb_spec j (length values)) as [->|]; [|reflexivity].
        apply nth_error_lt in Hj. lia.
    + destruct (IH _ _ _ ltac:(intros; apply Hin; now right) g1 j1 j2 E) as (g' & -> & H1 & H2 & H3). exists g'. split; [reflexivity|].
      split; [exact H1|]. split; [|exact H3].
      intros i' x' [[= <- <-]|H]; [|eauto]. apply (le_trans_ (Some (bnd x ∪ (bnd y ∪ bnd ov))) g g'); [apply n64_gt_false, Eg|exact H1].
Qed.

Lemma wc_outer_max values ov ivs g i1 i2 :
  (forall i x, In (i, x) ivs -> nth_error values i = Some x) ->
  forall g1 j1 j2, wc_outer P bnd ov ivs (v g, i1, i2) = (g1, j1, j2) ->
  exists g', g1 = v g' /\ le (v g) (v g')
  /\ (forall pre i x mid j y post', ivs = pre ++ (i, x) :: mid ++ (j, y) :: post' -> le (vol (bnd x ∪ (bnd y ∪ bnd ov))) (v g'))
  /\ ((g', j1, j2) = (g, i1, i2) \/ pair_measure values ov j1 j2 = Some (v g')).
Proof.
  revert g i1 i2; induction ivs as [|[i x] ivs IH]; intros g i1 i2 Hin g2 j1 j2; cbn [wc_outer].
  - intros [= <- <- <-]. exists g. split; [reflexivity|]. split; [apply le_refl_|]. split; [|now left].
    intros pre i x mid j y post' H. apply (f_equal (@length _)) in H. rewrite app_length in H. cbn in H. lia.
  - destruct (fold_left (wc_loop2 P bnd ov i x) ivs (v g, i1, i2)) as [[g1 a1] a2] eqn:E1. intros E2.
    destruct (wc_loop2_max values ov i x ivs g i1 i2 (Hin i x (or_introl eq_refl)) ltac:(intros; apply Hin; now right) _ _ _ E1)
      as (h1 & -> & A1 & A2 & A3).
    destruct (IH h1 a1 a2 ltac:(intros; apply Hin; now right) _ _ _ E2) as (g' & -> & B1 & B2 & B3). exists g'. split; [reflexivity|].
    split; [eapply le_trans_; eassumption|]. split.
    + intros pre i' x' mid j y post' H. destruct pre as [|p pre]; cbn in H.
      * injection H as <- <- ->. apply (le_trans_ (Some (bnd x ∪ (bnd y ∪ bnd ov))) h1 g'); [|exact B1]. apply (A2 j y), in_or_app. right. now left.
      * injection H as _ H. eauto.
    + destruct B3 as [[= -> -> ->]|B3]; [exact A3|now right].
Qed.

Lemma enumerate_two {U} (l : list U) i j x y : nth_error l i = Some x -> nth_error l j = Some y -> i < j ->
  exists pre mid post', enumerate l = pre ++ (i, x) :: mid ++ (j, y) :: post'.
Proof.
  intros Hi Hj Hlt. assert (Ei := enumerate_nth l i). assert (Ej := enumerate_nth l j). rewrite Hi in Ei. rewrite Hj in Ej.
  cbn in Ei, Ej. apply nth_error_split in Ei as (pre & rest & E & Hl). rewrite E in Ej.
  rewrite nth_error_app2 in Ej by lia. replace (j - length pre) with (S (j - length pre - 1)) in Ej by lia. cbn in Ej.
  apply nth_error_split in Ej as (mid & post' & E' & _). exists pre, mid, post'. now rewrite E, E'.
Qed.

(** For volumes above negative infinity, the seeds maximise the measure. *)
Lemma worst_combination_max values ov i1 i2 :
  (forall b, n64_cmp VO (n64_neg_inf VO) (vol b) = Lt) ->
  worst_combination P bnd values ov = Ok (i1, i2) ->
  exists m, pair_measure values ov i1 i2 = Some m
  /\ forall i j m', i < j -> pair_measure values ov i j = Some m' -> le m' m.
Proof.
  intros Hinf E. unfold worst_combination in E. destruct values as [|v0 vs] eqn:Ev; [discriminate|]. rewrite <- Ev in *.
  destruct (fold_left _ (enumerate values) _) as [g a1] eqn:E1.
  destruct (wc_outer _ _ _ _ _) as [[g' b1] b2] eqn:E2. injection E as <- <-.
  assert (Hin : forall i x, In (i, x) (enumerate values) -> nth_error values i = Some x) by (intros i x; apply in_enumerate).
  destruct (wc_loop1_max values ov _ None _ Hin _ _ E1) as (h & -> & A1 & A2 & A3).
  destruct (wc_outer_max values ov _ h _ _ Hin _ _ _ E2) as (h' & -> & B1 & B2 & B3).
  assert (Ha : pair_measure values ov a1 (length values) = Some (v h)).
  { destruct A3 as [[= -> ->]|A3]; [|exact A3]. exfalso. apply (A2 0 v0); [apply in_enumerate; now rewrite Ev|].
    assert (H := cmp_flip _ volL None (Some (bnd v0 ∪ bnd ov))). cbv zeta beta iota in H. cbn [v]. rewrite H, Hinf. reflexivity. }
  assert (Hb : pair_measure values ov b1 b2 = Some (v h')) by (destruct B3 as [[= -> -> ->]|B3]; assumption).
  exists (v h'). split; [exact Hb|]. intros i j m' Hlt Hm. unfold pair_measure in Hm.
  destruct (nth_error values i) as [x|] eqn:Hi; [|discriminate].
  destruct (Nat.eqb_spec j (length values)) as [->|Hne].
  - injection Hm as <-. apply (le_trans_ (Some (bnd x ∪ bnd ov)) h h'); [|exact B1]. apply (A2 i x), in_enumerate, Hi.
  - destruct (nth_error values j) as [y|] eqn:Hj; [|discriminate]. injection Hm as <-.
    destruct (enumerate_two values i j x y Hi Hj Hlt) as (pre & mid & post' & En). eapply B2, En.
Qed.
End Seeds.
