(** Replacing the volume of boxes that never arise: a split or a choice among boxes of a set closed under unions depends on
    the volumes of the boxes of that set only (C42, C44, C81 for floats). *)
From Verif Require Export HeurProof CheckProof.

Definition with_volume {B K} (P : Params B K) (vol : B -> N64 (vops P)) : Params B K :=
  {| bops := bops P;
     vops := {| N64 := N64 (vops P); volume := vol; n64_sub := n64_sub (vops P); n64_cmp := n64_cmp (vops P); n64_neg_inf := n64_neg_inf (vops P) |};
     key_bounds := key_bounds P; key_eq := key_eq P |}.

Lemma bind_ext {A A'} (m m' : res A) (k k' : A -> res A') : m = m' -> (forall x, m' = Ok x -> k x = k' x) -> bind m k = bind m' k'.
Proof. intros -> H. destruct m'; cbn; auto. Qed.

Section Ext.
Context {B K : Type} (P : Params B K) (vol : B -> N64 (vops P)) (G : B -> Prop).
Context (Gvol : forall b, G b -> vol b = volume (vops P) b) (Gunion : forall a b, G a -> G b -> G (b_union (bops P) a b)).
Notation P2 := (with_volume P vol).

Lemma ext_increase a b : G a -> G b -> volume_increase P2 a b = volume_increase P a b.
Proof. intros Ha Hb. unfold volume_increase. cbn. rewrite !Gvol by auto. reflexivity. Qed.

Lemma ext_min_by {T} (R : T -> Prop) (c1 c2 : T -> T -> comparison) : (forall x y, R x -> R y -> c1 x y = c2 x y) ->
  forall l best, R best -> Forall R l -> min_by_from c1 best l = min_by_from c2 best l.
Proof.
  intros Hc. induction l as [|y l IH]; intros best Hb Hl; cbn [min_by_from]; [reflexivity|]. inversion Hl; subst.
  rewrite (Hc best y) by assumption. apply IH; [|assumption]. now destruct (c2 best y).
Qed.

Lemma ext_select bs eb : G eb -> Forall G bs -> select P2 bs eb = select P bs eb.
Proof.
  intros Hb Hbs. unfold select, min_by. apply Forall_enumerate in Hbs. destruct (enumerate bs) as [|x l]; [reflexivity|]. inversion Hbs; subst.
  f_equal. f_equal. apply (ext_min_by (fun iv => G (snd iv))); auto. intros a b Ha Hb'. unfold select_cmp.
  rewrite !ext_increase by auto. cbn. now rewrite !Gvol by auto.
Qed.

Lemma ext_least bs eb i : G eb -> Forall G bs -> least_enlargement P2 bs eb i -> least_enlargement P bs eb i.
Proof.
  intros Hb Hbs (x & Ex & H). exists x. split; [exact Ex|]. intros j y Ey. specialize (H j y Ey). cbn in H.
  assert (Hx := Forall_nth_error _ _ _ _ Hbs Ex). assert (Hy := Forall_nth_error _ _ _ _ Hbs Ey). cbn beta in Hx, Hy.
  rewrite !Gvol in H by auto. exact H.
Qed.

Lemma ext_fold {A S} (R : A -> Prop) (f1 f2 : S -> A -> S) : (forall s x, R x -> f1 s x = f2 s x) ->
  forall l s, Forall R l -> fold_left f1 l s = fold_left f2 l s.
Proof.
  intros Hf. induction l as [|x l IH]; intros s Hl; cbn [fold_left]; [reflexivity|]. inversion Hl; subst. rewrite Hf by assumption. now apply IH.
Qed.

Section Split.
Context {T : Type} (bnd : T -> B).
Notation good := (fun x => G (bnd x)).

Lemma ext_worst values ov : Forall good values -> G (bnd ov) -> worst_combination P2 bnd values ov = worst_combination P bnd values ov.
Proof.
  intros Hv Ho. unfold worst_combination. destruct values as [|v0 vs] eqn:Ev; [reflexivity|]. rewrite <- Ev in *. clear Ev.
  assert (He := Forall_enumerate _ _ Hv).
  rewrite (ext_fold (fun iv => G (bnd (snd iv))) (wc_loop1 P2 bnd ov) (wc_loop1 P bnd ov)); [|intros [g i1] [i x] Hx; cbn [snd] in Hx; unfold wc_loop1; cbn; now rewrite Gvol by auto|exact He].
  cbn [with_volume vops n64_neg_inf]. destruct (fold_left _ _ _) as [g i1].
  assert (E : forall s, wc_outer P2 bnd ov (enumerate values) s = wc_outer P bnd ov (enumerate values) s); [|now rewrite E].
  induction He as [|[i vi] r Hvi Hr IH]; intros s; cbn [wc_outer]; [reflexivity|].
  rewrite (ext_fold (fun iv => G (bnd (snd iv))) (wc_loop2 P2 bnd ov i vi) (wc_loop2 P bnd ov i vi)); [apply IH| |exact Hr].
  intros [[g' i1'] i2'] [j vj] Hj. cbn [snd] in *. unfold wc_loop2. cbn. now rewrite Gvol by auto.
Qed.

Lemma ext_candidate cs b : Forall good cs -> G b -> best_candidate_for_group P2 bnd cs b = best_candidate_for_group P bnd cs b.
Proof.
  intros Hc Hb. unfold best_candidate_for_group.
  assert (E : map (fun v => n64_sub (vops P) (vol (b_union (bops P) (bnd v) b)) (vol b)) cs
    = map (fun v => n64_sub (vops P) (volume (vops P) (b_union (bops P) (bnd v) b)) (volume (vops P) b)) cs).
  { apply map_ext_Forall. eapply Forall_impl; [|exact Hc]. intros v Hv. cbn beta in *. now rewrite !Gvol by auto. }
  exact (f_equal (fun l => min_by (fun x y => n64_cmp (vops P) (snd x) (snd y)) (enumerate l)) E).
Qed.

Lemma ext_split_loop fuel cap min values g1 group2 b1 b2 : Forall good values -> G b1 -> G b2 ->
  split_loop P2 bnd fuel cap min values g1 group2 b1 b2 = split_loop P bnd fuel cap min values g1 group2 b1 b2.
Proof.
  revert values g1 group2 b1 b2. induction fuel as [|fuel IH]; intros values g1 group2 b1 b2 Hv H1 H2; cbn [split_loop];
    (destruct (g1 <? length values); [|reflexivity]); [reflexivity|].
  assert (Hr : Forall good (skipn g1 values)).
  { rewrite <- (firstn_skipn g1 values) in Hv. now apply Forall_app in Hv. }
  refine (bind_ext _ _ _ _ (f_equal unwrap (ext_candidate _ _ Hr H1)) _). intros [c1 v1] _.
  refine (bind_ext _ _ _ _ (f_equal unwrap (ext_candidate _ _ Hr H2)) _). intros [c2 v2] _.
  change (n64_lt P2 v1 v2) with (n64_lt P v1 v2). destruct (if n64_lt P v1 v2 then _ else _).
  - refine (bind_ext _ _ _ _ eq_refl _). intros x Ex. refine (bind_ext _ _ _ _ eq_refl _). intros vs Es.
    apply IH; auto. + eapply slice_swap_Forall; eauto. + apply Gunion; auto.
      destruct (nth_error _ c1) eqn:E; [|discriminate]. injection Ex as ->. exact (Forall_nth_error _ _ _ _ Hr E).
  - refine (bind_ext _ _ _ _ eq_refl _). intros x Ex. refine (bind_ext _ _ _ _ eq_refl _). intros [y vs] Es.
    refine (bind_ext _ _ _ _ eq_refl _). intros g2 _. destruct (swap_remove_Forall good _ _ _ _ Es Hv) as [_ Hvs].
    apply IH; auto. apply Gunion; auto.
    destruct (nth_error _ c2) eqn:E; [|discriminate]. injection Ex as ->. exact (Forall_nth_error _ _ _ _ Hr E).
Qed.

Lemma ext_split cap min values ov : Forall good values -> G (bnd ov) -> split P2 bnd cap min values ov = split P bnd cap min values ov.
Proof.
  intros Hv Ho. unfold split. destruct (length values <? 1); [reflexivity|].
  assert (E : seed_split_groups P2 bnd values ov = seed_split_groups P bnd values ov) by (unfold seed_split_groups; now rewrite ext_worst by assumption).
  rewrite E. destruct (seed_split_groups P bnd values ov) as [[vs seed]| | |] eqn:Es; try reflexivity. cbn [bind].
  destruct (seed_good P G bnd _ _ _ _ Hv Ho Es) as [Hvs Hs]. destruct (push cap [] seed) as [g2| | |] eqn:Eg; try reflexivity. cbn [bind].
  destruct (nth_error vs 0) as [v0|] eqn:Ev; [|reflexivity]. cbn [unwrap bind]. destruct (nth_error g2 0) as [w0|] eqn:Ew; [|reflexivity]. cbn [unwrap bind].
  apply ext_split_loop; auto.
  - exact (Forall_nth_error _ _ _ _ Hvs Ev).
  - unfold push in Eg. destruct (_ =? _); [discriminate|]. injection Eg as <-. injection Ew as <-. exact Hs.
Qed.

Lemma ext_seed_volume values ov i j : Forall good values -> G (bnd ov) -> seed_volume P2 bnd values ov i j = seed_volume P bnd values ov i j.
Proof.
  intros Hv Ho. unfold seed_volume. destruct (nth_error values i) as [x|] eqn:Ex; [|reflexivity]. destruct (nth_error (values ++ [ov]) j) as [y|] eqn:Ey; [|reflexivity].
  assert (Hx := Forall_nth_error _ _ _ _ Hv Ex). assert (Hy : G (bnd y)) by (apply nth_error_In, in_app_iff in Ey; rewrite Forall_forall in Hv; destruct Ey as [Ey|[<-|[]]]; auto).
  cbn. cbn beta in Hx. rewrite Gvol; [reflexivity|]. destruct (j =? length values); auto.
Qed.

Lemma ext_enlargement b x : G b -> G (bnd x) -> enlargement P2 bnd b x = enlargement P bnd b x.
Proof. intros Hb Hx. unfold enlargement. cbn. now rewrite !Gvol by auto. Qed.
Lemma ext_least_of b rest x : G b -> Forall good rest -> least_of P2 bnd b rest x -> least_of P bnd b rest x.
Proof.
  intros Hb Hr [Hin H]. rewrite Forall_forall in Hr. split; [exact Hin|]. intros y Hy. specialize (H y Hy).
  rewrite !ext_enlargement in H by auto. exact H.
Qed.
Lemma ext_distributes n1 n2 g1 b1 g2 b2 rest r : Forall good rest -> G b1 -> G b2 ->
  distributes P2 bnd n1 n2 g1 b1 g2 b2 rest r -> distributes P bnd n1 n2 g1 b1 g2 b2 rest r.
Proof.
  intros Hr H1 H2 H. revert Hr H1 H2. induction H as [|g1 b1 g2 b2 rest x1 x2 rest' r I1 I2 Hc Hp Hd IH|g1 b1 g2 b2 rest x1 x2 rest' r I1 I2 Hc Hp Hd IH]; intros Hr H1 H2; [constructor| |].
  all: assert (Gx1 : G (bnd x1)) by (rewrite Forall_forall in Hr; apply Hr, I1).
  all: assert (Gx2 : G (bnd x2)) by (rewrite Forall_forall in Hr; apply Hr, I2).
  all: rewrite !ext_enlargement in Hc by auto; apply ext_least_of in I1, I2; auto.
  all: assert (Hr' := Hr); rewrite Hp in Hr'; inversion Hr'; subst.
  - eapply dist_1; eauto.
  - eapply dist_2; eauto.
Qed.
Lemma ext_split_result n1 n2 values ov r : Forall good values -> G (bnd ov) -> split_result P2 bnd n1 n2 values ov r -> split_result P bnd n1 n2 values ov r.
Proof.
  intros Hv Ho (s1 & s2 & rest & Hp & Hd). exists s1, s2, rest. split; [exact Hp|].
  assert (Ha : Forall good (s1 :: s2 :: rest)) by (rewrite <- Hp; now constructor). inversion Ha as [|? ? Hs1 Ha']; subst. inversion Ha' as [|? ? Hs2 Ha'']; subst.
  now apply ext_distributes.
Qed.
End Split.
End Ext.
