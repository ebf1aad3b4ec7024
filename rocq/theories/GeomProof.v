(** Proofs about boxes. *)
From Coq Require Import Eqdep_dec.
From Verif Require Export GeomSpec Util.

Section Vectors.
Context {N : Type} (S : ScalarOps N) (L : order_laws S).

Lemma s_refl a : s_le S a a = true.
Proof. destruct (s_total S L a a); assumption. Qed.

Lemma vec_le_cons D (a b : svec N (Datatypes.S D)) :
  vec_le S a b <-> s_le S (fst a) (fst b) = true /\ vec_le S (snd a) (snd b).
Proof.
  unfold vec_le. cbn [vlist]. split.
  - intros H. inversion H; subst. auto.
  - intros [H1 H2]. constructor; assumption.
Qed.

Lemma vec_le_nil (a b : svec N 0) : vec_le S a b.
Proof. constructor. Qed.

Lemma vec_le_refl D (a : svec N D) : vec_le S a a.
Proof. induction D; [apply vec_le_nil|apply vec_le_cons; split; [apply s_refl|apply IHD]]. Qed.

Lemma vec_le_trans D (a b c : svec N D) : vec_le S a b -> vec_le S b c -> vec_le S a c.
Proof.
  induction D as [|D IH]; [intros; apply vec_le_nil|]. rewrite !vec_le_cons. intros [H1 H2] [H3 H4].
  split; [eapply (s_trans S L); eassumption|]. eapply IH; eassumption.
Qed.

Lemma vec_le_antisym D (a b : svec N D) : scalar_antisym S -> vec_le S a b -> vec_le S b a -> a = b.
Proof.
  intros HA. induction D as [|D IH]; [now destruct a, b|]. rewrite !vec_le_cons. intros [H1 H2] [H3 H4].
  destruct a as [a1 a2], b as [b1 b2]. cbn in *. f_equal; [apply HA; assumption|apply IH; assumption].
Qed.

Lemma all_le_spec D (a b : svec N D) : all_le S a b = true <-> vec_le S a b.
Proof.
  unfold all_le, vzip. induction D as [|D IH]; [split; intros; [apply vec_le_nil|reflexivity]|].
  rewrite vec_le_cons. cbn [vlist combine forallb fst snd]. rewrite andb_true_iff, IH. reflexivity.
Qed.

Lemma all_ge_spec D (a b : svec N D) : all_ge S a b = true <-> vec_le S b a.
Proof.
  unfold all_ge, vzip. induction D as [|D IH]; [split; intros; [apply vec_le_nil|reflexivity]|].
  rewrite vec_le_cons. cbn [vlist combine forallb fst snd]. rewrite andb_true_iff, IH. reflexivity.
Qed.

Lemma s_min_l a b : s_le S (s_min S a b) a = true.
Proof. unfold s_min. destruct (s_le S a b) eqn:E; [apply s_refl|]. destruct (s_total S L a b); congruence. Qed.
Lemma s_min_r a b : s_le S (s_min S a b) b = true.
Proof. unfold s_min. destruct (s_le S a b) eqn:E; [exact E|apply s_refl]. Qed.
Lemma s_max_l a b : s_le S a (s_max S a b) = true.
Proof. unfold s_max. destruct (s_le S a b) eqn:E; [exact E|apply s_refl]. Qed.
Lemma s_max_r a b : s_le S b (s_max S a b) = true.
Proof. unfold s_max. destruct (s_le S a b) eqn:E; [apply s_refl|]. destruct (s_total S L a b); congruence. Qed.
Lemma s_min_glb a b c : s_le S c a = true -> s_le S c b = true -> s_le S c (s_min S a b) = true.
Proof. unfold s_min. now destruct (s_le S a b). Qed.
Lemma s_max_lub a b c : s_le S a c = true -> s_le S b c = true -> s_le S (s_max S a b) c = true.
Proof. unfold s_max. now destruct (s_le S a b). Qed.

Ltac vind := intros; match goal with D : nat |- _ => induction D as [|D IH] end;
  [apply vec_le_nil|]; repeat match goal with H : vec_le S _ _ |- _ => apply vec_le_cons in H; destruct H end;
  apply vec_le_cons; cbn [cw_min cw_max vmap2 fst snd vconst]; split.

Lemma cw_min_l D (a b : svec N D) : vec_le S (cw_min S a b) a.
Proof. vind; [apply s_min_l|apply IH]. Qed.
Lemma cw_min_r D (a b : svec N D) : vec_le S (cw_min S a b) b.
Proof. vind; [apply s_min_r|apply IH]. Qed.
Lemma cw_max_l D (a b : svec N D) : vec_le S a (cw_max S a b).
Proof. vind; [apply s_max_l|apply IH]. Qed.
Lemma cw_max_r D (a b : svec N D) : vec_le S b (cw_max S a b).
Proof. vind; [apply s_max_r|apply IH]. Qed.
Lemma cw_min_glb D (a b c : svec N D) : vec_le S c a -> vec_le S c b -> vec_le S c (cw_min S a b).
Proof. vind; [now apply s_min_glb|now apply IH]. Qed.
Lemma cw_max_lub D (a b c : svec N D) : vec_le S a c -> vec_le S b c -> vec_le S (cw_max S a b) c.
Proof. vind; [now apply s_max_lub|now apply IH]. Qed.
Lemma vec_eqb_spec D (a b : svec N D) : vec_eqb S a b = true <-> vec_le S a b /\ vec_le S b a.
Proof.
  unfold vec_eqb, vzip. induction D as [|D IH].
  { split; intros; [split; apply vec_le_nil|reflexivity]. }
  rewrite !vec_le_cons. cbn [vlist combine forallb fst snd]. rewrite andb_true_iff, IH, (s_eq_le S L). tauto.
Qed.

(** *** Boxes *)
Lemma box_incl_refl D (a : saabb N D) : box_incl S a a.
Proof. split; apply vec_le_refl. Qed.
Lemma box_incl_trans D (a b c : saabb N D) : box_incl S a b -> box_incl S b c -> box_incl S a c.
Proof. intros [H1 H2] [H3 H4]. split; eapply vec_le_trans; eassumption. Qed.
Lemma box_incl_antisym D (a b : saabb N D) : scalar_antisym S -> box_incl S a b -> box_incl S b a -> a = b.
Proof.
  intros HA [H1 H2] [H3 H4]. destruct a, b. cbn in *. f_equal; apply vec_le_antisym; assumption.
Qed.

Lemma box_union_l D (a b : saabb N D) : box_incl S (box_union S a b) a.
Proof. split; [apply cw_min_l|apply cw_max_l]. Qed.
Lemma box_union_r D (a b : saabb N D) : box_incl S (box_union S a b) b.
Proof. split; [apply cw_min_r|apply cw_max_r]. Qed.
Lemma box_union_least D (a b c : saabb N D) : box_incl S c a -> box_incl S c b -> box_incl S c (box_union S a b).
Proof. intros [H1 H2] [H3 H4]. split; [apply cw_min_glb|apply cw_max_lub]; assumption. Qed.
Lemma fold_union_spec D (l : list (saabb N D)) b :
  box_incl S (fold_left (box_union S) l b) b /\ (forall x, In x l -> box_incl S (fold_left (box_union S) l b) x)
  /\ forall c, box_incl S c b -> (forall x, In x l -> box_incl S c x) -> box_incl S c (fold_left (box_union S) l b).
Proof.
  revert b; induction l as [|x l IH]; intros b; cbn [fold_left].
  - split; [apply box_incl_refl|]. split; [intros ? []|auto].
  - destruct (IH (box_union S b x)) as (H1 & H2 & H3). split; [|split].
    + eapply box_incl_trans; [exact H1|apply box_union_l].
    + intros y [<-|Hy]; [eapply box_incl_trans; [exact H1|apply box_union_r]|auto].
    + intros c Hc Hl. apply H3; [apply box_union_least; [exact Hc|apply Hl; now left]|].
      intros y Hy. apply Hl. now right.
Qed.

Lemma box_union_all_member D (l : list (saabb N D)) x : In x l -> box_incl S (box_union_all S l) x.
Proof. apply (proj1 (proj2 (fold_union_spec D l (box_empty S)))). Qed.
Lemma box_bounds_laws D : bounds_laws (box_bounds_ops S (D := D)) (box_incl S).
Proof.
  constructor; cbn.
  - apply box_incl_refl.
  - apply box_incl_trans.
  - apply box_union_l.
  - apply box_union_r.
  - intros l b. apply box_union_all_member.
Qed.

(** [incl] in both directions: equal up to equality of scalars. *)
Lemma box_eqb_spec D (a b : saabb N D) : box_eqb S a b = true <-> box_incl S a b /\ box_incl S b a.
Proof. unfold box_eqb, box_incl. rewrite andb_true_iff, !vec_eqb_spec. tauto. Qed.

Lemma box_key_eq_laws D : key_eq_laws (box_eqb S (D := D)).
Proof.
  constructor; intros *; rewrite !box_eqb_spec.
  - split; apply box_incl_refl.
  - tauto.
  - intros [H1 H2] [H3 H4]. split; eapply box_incl_trans; eassumption.
Qed.

Lemma vec_key_eq_laws D : key_eq_laws (vec_eqb S (D := D)).
Proof.
  constructor; intros *; rewrite !vec_eqb_spec.
  - split; apply vec_le_refl.
  - tauto.
  - intros [H1 H2] [H3 H4]. split; eapply vec_le_trans; eassumption.
Qed.

(** *** Tests *)
Lemma in_box_iff D (b : saabb N D) p : box_intersects_point S b p = true <-> in_box S b p.
Proof. unfold box_intersects_point, in_box. now rewrite andb_true_iff, all_le_spec, all_ge_spec. Qed.

Lemma intersects_box_iff D (a b : saabb N D) :
  box_intersects_box S a b = true <-> vec_le S (bmin a) (bmax b) /\ vec_le S (bmin b) (bmax a).
Proof. unfold box_intersects_box. now rewrite andb_true_iff, all_le_spec, all_ge_spec. Qed.

Lemma boxes_meet_iff D (a b : saabb N D) : valid_box S a -> valid_box S b ->
  (box_intersects_box S a b = true <-> boxes_meet S a b).
Proof.
  intros Ha Hb. rewrite intersects_box_iff. split.
  - intros [H1 H2]. exists (cw_max S (bmin a) (bmin b)). split; split; try apply cw_max_l; try apply cw_max_r;
      apply cw_max_lub; assumption.
  - intros (p & [H1 H2] & [H3 H4]). split; eapply vec_le_trans; eassumption.
Qed.

Lemma box_incl_points D (a b : saabb N D) : valid_box S b ->
  (box_incl S a b <-> forall p, in_box S b p -> in_box S a p).
Proof.
  intros Hb. split.
  - intros [H1 H2] p [H3 H4]. split; eapply vec_le_trans; eassumption.
  - intros H. split.
    + apply (H (bmin b)). split; [apply vec_le_refl|exact Hb].
    + apply (H (bmax b)). split; [exact Hb|apply vec_le_refl].
Qed.

Lemma contains_box_meets D (a b : saabb N D) : box_contains_box S a b = box_intersects_box S a b.
Proof. reflexivity. Qed.

Lemma contains_box_complete D (a b : saabb N D) : valid_box S b -> box_incl S a b -> box_contains_box S a b = true.
Proof.
  intros Hb [H1 H2]. rewrite contains_box_meets. apply intersects_box_iff.
  split; eapply vec_le_trans; eassumption.
Qed.

Lemma contains_point_iff D (b : saabb N D) p :
  box_contains_point S b p = true <-> vec_le S p (bmin b) /\ vec_le S (bmax b) p.
Proof. unfold box_contains_point. now rewrite andb_true_iff, all_le_spec, all_ge_spec. Qed.

(** For a valid box, the library's [contains(point)] accepts only when the box is that single point. *)
Lemma contains_point_degenerate D (b : saabb N D) p : valid_box S b -> box_contains_point S b p = true ->
  vec_eqb S (bmin b) p = true /\ vec_eqb S (bmax b) p = true.
Proof.
  intros Hb. rewrite contains_point_iff, !vec_eqb_spec. intros [H1 H2].
  repeat split; try assumption; eapply vec_le_trans; eassumption.
Qed.

(** *** Lookups in trees of boxes and of points *)
Lemma box_valid_eqv D (a b : saabb N D) : box_incl S a b -> box_incl S b a -> valid_box S a -> valid_box S b.
Proof.
  intros [H1 H2] [H3 H4] H. unfold valid_box in *. eapply vec_le_trans; [exact H3|]. eapply vec_le_trans; eassumption.
Qed.

Lemma box_lookup_laws D VO : lookup_laws (box_params S VO) (self_borrow (box_params S VO)) (box_incl S) (valid_box S (D := D)).
Proof.
  assert (H : forall b k q : saabb N D, valid_box S k -> box_eqb S k q = true -> box_incl S b k -> box_contains_box S b q = true).
  { intros b k q Hk Hq Hi. apply box_eqb_spec in Hq as [Hq1 Hq2].
    apply contains_box_complete; [eapply box_valid_eqv; eassumption|]. eapply box_incl_trans; eassumption. }
  constructor; exact H.
Qed.

Lemma point_bounds_valid D (p : svec N D) : valid_box S (point_bounds p).
Proof. apply vec_le_refl. Qed.

Lemma point_lookup_laws D VO : lookup_laws (point_params S VO) (self_borrow (point_params S VO)) (box_incl S) (any_key (K := svec N D)).
Proof.
  assert (H : forall (b : saabb N D) (k q : svec N D), vec_eqb S k q = true -> box_incl S b (point_bounds k) ->
     box_contains_box S b (point_bounds q) = true).
  { intros b k q Hq Hi. apply vec_eqb_spec in Hq as [Hq1 Hq2].
    apply contains_box_complete; [apply point_bounds_valid|].
    destruct Hi as [H1 H2]. split; cbn in *; eapply vec_le_trans; eassumption. }
  constructor; intros b k q _; apply H.
Qed.

Lemma vec_eqb_eq D (a b : svec N D) : scalar_antisym S -> vec_eqb S a b = true -> a = b.
Proof. intros HA H. apply vec_eqb_spec in H as [H1 H2]. now apply vec_le_antisym. Qed.
Lemma box_eqb_eq D (a b : saabb N D) : scalar_antisym S -> box_eqb S a b = true -> a = b.
Proof. intros HA H. apply box_eqb_spec in H as [H1 H2]. now apply box_incl_antisym. Qed.
End Vectors.

(** *** Where [min_value]/[max_value] are least and greatest *)
Section Extremes.
Context {N : Type} (S : ScalarOps N) (L : scalar_laws S).

Lemma vconst_least D (a : svec N D) : vec_le S (vconst D (s_min_value S)) a.
Proof. induction D as [|D IH]; [apply vec_le_nil|]. apply vec_le_cons. split; [apply (s_least S L)|apply IH]. Qed.
Lemma vconst_greatest D (a : svec N D) : vec_le S a (vconst D (s_max_value S)).
Proof. induction D as [|D IH]; [apply vec_le_nil|]. apply vec_le_cons. split; [apply (s_greatest S L)|apply IH]. Qed.

Lemma box_empty_least D (a : saabb N D) : box_incl S a (box_empty S).
Proof. split; [apply vconst_greatest|apply vconst_least]. Qed.

Lemma box_union_all_least D (l : list (saabb N D)) c : (forall x, In x l -> box_incl S c x) -> box_incl S c (box_union_all S l).
Proof. intros H. apply (proj2 (proj2 (fold_union_spec S L D l (box_empty S)))); [apply box_empty_least|exact H]. Qed.

(** Unions by mutual inclusion, hence equal when equality of scalars is identity. *)
Lemma box_semilattice D : scalar_antisym S -> semilattice_laws (box_bounds_ops S (D := D)).
Proof.
  intros HA.
  assert (Hc : forall a b : saabb N D, box_union S a b = box_union S b a).
  { intros a b. apply (box_incl_antisym S _ _ _ HA); apply box_union_least; (apply (box_union_l S L) || apply (box_union_r S L)). }
  assert (Hass : forall a b c : saabb N D, box_union S a (box_union S b c) = box_union S (box_union S a b) c).
  { intros a b c. apply (box_incl_antisym S _ _ _ HA).
    - apply box_union_least; [apply box_union_least|].
      + apply (box_union_l S L).
      + eapply (box_incl_trans S L); [apply (box_union_r S L)|apply (box_union_l S L)].
      + eapply (box_incl_trans S L); [apply (box_union_r S L)|apply (box_union_r S L)].
    - apply box_union_least; [|apply box_union_least].
      + eapply (box_incl_trans S L); [apply (box_union_l S L)|apply (box_union_l S L)].
      + eapply (box_incl_trans S L); [apply (box_union_l S L)|apply (box_union_r S L)].
      + apply (box_union_r S L). }
  assert (He : forall a : saabb N D, box_union S (box_empty S) a = a).
  { intros a. apply (box_incl_antisym S _ _ _ HA); [apply (box_union_r S L)|].
    apply box_union_least; [apply box_empty_least|apply (box_incl_refl S L)]. }
  constructor; cbn; auto.
  - intros a. apply (box_incl_antisym S _ _ _ HA); [apply (box_union_l S L)|apply box_union_least; apply (box_incl_refl S L)].
  - intros l. unfold box_union_all. symmetry. rewrite fold_symmetric; auto.
Qed.

End Extremes.

(** *** [i32] *)
Lemma i32_eq (a b : i32) : i32_val a = i32_val b -> a = b.
Proof.
  destruct a as [a Ha], b as [b Hb]. cbn. intros ->. f_equal. apply UIP_dec, bool_dec.
Qed.

Lemma i32_bounds (a : i32) : (-2147483648 <= i32_val a <= 2147483647)%Z.
Proof.
  destruct a as [a Ha]. cbn. unfold i32_range in Ha. apply andb_prop in Ha as [H1 H2].
  apply Z.leb_le in H1. apply Z.leb_le in H2. lia.
Qed.

Lemma i32_of_val z : i32_val (i32_of z) = wrap32 z.
Proof. reflexivity. Qed.

Lemma i32_laws : scalar_laws i32_ops.
Proof.
  constructor; [constructor| |]; cbn [i32_ops s_le s_eqb s_min_value s_max_value].
  - intros a b c. rewrite !Z.leb_le. lia.
  - intros a b. rewrite !Z.leb_le. lia.
  - intros a b. rewrite !Z.leb_le, Z.eqb_eq. lia.
  - intros a. apply Z.leb_le, i32_bounds.
  - intros a. apply Z.leb_le, i32_bounds.
Qed.

Lemma i32_antisym : scalar_antisym i32_ops.
Proof. intros a b. cbn. rewrite !Z.leb_le. intros H1 H2. apply i32_eq. lia. Qed.
