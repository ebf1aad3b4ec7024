(** Floating-point coordinates: proofs. *)
From Coq Require Import Reals Lra Floats.SpecFloat.
From Flocq Require Import Core BinarySingleNaN.
From Verif Require Export FpSpec GeomProof Main.
Local Open Scope Z_scope.

Section Value.
Context (p e : Z) (Hf : fp_format p e).

Lemma nf_fin_R s m ex : SF2R radix2 (S754_finite s m ex) = ((if s then -1 else 1) * IZR (Z.pos m) * powerRZ 2 ex)%R.
Proof.
  unfold SF2R, F2R. cbn [Fnum Fexp]. rewrite bpow_powerRZ. unfold cond_Zopp. destruct s.
  - rewrite opp_IZR. change (radix_val radix2) with 2. ring.
  - change (radix_val radix2) with 2. ring.
Qed.

(** Finite floats: by Flocq. *)
Lemma fin_le x y : nf_ok p e x = true -> nf_ok p e y = true -> is_finite_SF x = true -> is_finite_SF y = true ->
  SFleb x y = Rle_bool (SF2R radix2 x) (SF2R radix2 y).
Proof.
  intros Hx Hy Fx Fy.
  assert (Vx : valid_binary p e x = true) by (destruct x; exact Hx || discriminate).
  assert (Vy : valid_binary p e y = true) by (destruct y; exact Hy || discriminate).
  assert (H := Bleb_correct p e (SF2B x Vx) (SF2B y Vy)). rewrite !is_finite_SF2B, !B2R_SF2B in H.
  unfold Bleb in H. rewrite !B2SF_SF2B in H. now apply H.
Qed.

Lemma fin_value x : is_finite_SF x = true -> sf_value x = XReal (SF2R radix2 x).
Proof.
  destruct x; try discriminate; intros _; cbn [sf_value]; [reflexivity|]. now rewrite nf_fin_R.
Qed.

Lemma le_value x y : nf_ok p e x = true -> nf_ok p e y = true -> (SFleb x y = true <-> x_le (sf_value x) (sf_value y)).
Proof.
  intros Hx Hy. destruct (is_finite_SF x) eqn:Fx.
  - destruct (is_finite_SF y) eqn:Fy.
    + rewrite (fin_le x y Hx Hy Fx Fy), (fin_value x Fx), (fin_value y Fy). cbn.
      destruct (Rle_bool_spec (SF2R radix2 x) (SF2R radix2 y)); split; intros; try easy; lra.
    + rewrite (fin_value x Fx). destruct y as [|[]| |]; try discriminate; destruct x; try discriminate; destruct s; cbn; split; easy.
  - destruct x as [|[]| |]; try discriminate; destruct y as [[]|[]| |[]]; try discriminate; cbn; split; easy.
Qed.

Lemma eqb_leb x y : nf_ok p e x = true -> nf_ok p e y = true ->
  (SFeqb x y = true <-> SFleb x y = true /\ SFleb y x = true).
Proof.
  intros Hx Hy. unfold SFeqb, SFleb.
  assert (E : SFcompare y x = option_map CompOpp (SFcompare x y)).
  { destruct x as [[]|[]| |[] m ex], y as [[]|[]| |[] m' ex']; try discriminate; try reflexivity; cbn [SFcompare option_map];
      repeat match goal with |- context [Pos.compare_cont Eq ?a ?b] => change (Pos.compare_cont Eq a b) with (a ?= b)%positive end;
      rewrite (Z.compare_antisym ex ex'), (Pos.compare_antisym m m'); destruct (ex ?= ex')%Z; cbn; try reflexivity;
      f_equal; now destruct (m ?= m')%positive. }
  rewrite E. destruct (SFcompare x y) as [[]|]; cbn; split; easy.
Qed.

Lemma x_le_trans a b c : x_le a b -> x_le b c -> x_le a c.
Proof. destruct a, b, c; cbn; try easy. lra. Qed.
Lemma x_le_total a b : x_le a b \/ x_le b a.
Proof. destruct a, b; cbn; auto. lra. Qed.
Lemma x_le_eq a b : a = b <-> x_le a b /\ x_le b a.
Proof.
  split; [intros ->; split; destruct b; cbn; auto; lra|]. destruct a, b; cbn; try easy. intros [H1 H2]. f_equal. lra.
Qed.

Lemma nf_prop (a : nf p e) : nf_ok p e (nf_raw a) = true.
Proof. exact (proj2_sig a). Qed.
Lemma nf_le (a b : nf p e) : s_le (nf_ops p e) a b = true <-> x_le (nf_value a) (nf_value b).
Proof. apply le_value; apply nf_prop. Qed.
Lemma nf_eq (a b : nf p e) : s_eqb (nf_ops p e) a b = true <-> nf_value a = nf_value b.
Proof.
  rewrite x_le_eq, <- !nf_le. apply eqb_leb; apply nf_prop.
Qed.

Lemma nf_order : order_laws (nf_ops p e).
Proof.
  constructor; intros *.
  - rewrite !nf_le. apply x_le_trans.
  - rewrite !nf_le. apply x_le_total.
  - rewrite nf_eq, !nf_le. apply x_le_eq.
Qed.

Lemma Forall2_iff {A} (P Q : A -> A -> Prop) l m : (forall a b, P a b <-> Q a b) -> Forall2 P l m <-> Forall2 Q l m.
Proof. intros H. split; induction 1; constructor; auto; now apply H. Qed.

Lemma vec_le_xle D (a b : svec (nf p e) D) : vec_le (nf_ops p e) a b <-> xle a b.
Proof. apply Forall2_iff. exact nf_le. Qed.
Lemma in_box_x D (b : saabb (nf p e) D) q : in_box (nf_ops p e) b q <-> x_in_box b q.
Proof. unfold in_box, x_in_box. now rewrite !vec_le_xle. Qed.
Lemma valid_x D (b : saabb (nf p e) D) : valid_box (nf_ops p e) b <-> x_valid b.
Proof. apply vec_le_xle. Qed.

Lemma vec_eqb_same D (a b : svec (nf p e) D) : vec_eqb (nf_ops p e) a b = true <-> same_point a b.
Proof.
  unfold vec_eqb, same_point, vzip. induction D as [|D IH].
  { split; intros; [constructor|reflexivity]. }
  cbn [vlist combine forallb fst snd]. rewrite andb_true_iff, IH, nf_eq. split.
  - intros [H1 H2]. now constructor.
  - intros H. inversion H; subst. auto.
Qed.
Lemma box_eqb_same D (a b : saabb (nf p e) D) : box_eqb (nf_ops p e) a b = true <-> same_box a b.
Proof. unfold box_eqb, same_box. now rewrite andb_true_iff, !vec_eqb_same. Qed.

(** *** The finite extremes *)
Lemma digits_max : Z.pos (SpecFloat.digits2_pos (Z.to_pos (2 ^ p - 1))) = p.
Proof.
  destruct Hf as [Hp _]. rewrite Zpos_digits2_pos. apply Zdigits_unique.
  assert (2 ^ p = 2 * 2 ^ (p - 1)) by (rewrite <- Z.pow_succ_r by lia; f_equal; lia).
  assert (1 < 2 ^ (p - 1)) by (apply Z.pow_gt_1; lia).
  rewrite Z2Pos.id by lia. rewrite Z.abs_eq by lia. change (radix_val radix2) with 2. lia.
Qed.

Lemma sf_max_ok s : nf_ok p e (sf_max p e s) = true.
Proof.
  change (SpecFloat.bounded p e (Z.to_pos (2 ^ p - 1)) (e - p) = true). unfold SpecFloat.bounded, SpecFloat.canonical_mantissa. rewrite digits_max.
  destruct Hf as [Hp He]. apply andb_true_intro; split; [|apply Z.leb_le; lia].
  apply Zeq_bool_true. unfold SpecFloat.fexp, SpecFloat.emin. lia.
Qed.

Lemma nf_of_raw x : nf_ok p e x = true -> nf_raw (nf_of p e x) = x.
Proof. intros H. unfold nf_of. destruct (bool_dec (nf_ok p e x) true); [reflexivity|contradiction]. Qed.

Lemma bounded_max m ex : SpecFloat.bounded p e m ex = true -> ex <= e - p /\ (ex = e - p -> (Z.pos m <= 2 ^ p - 1)%Z).
Proof.
  intros H. apply andb_prop in H as [H1 H2]. apply Z.leb_le in H2. split; [exact H2|]. intros ->.
  apply Zeq_bool_eq in H1. unfold SpecFloat.fexp in H1. rewrite Zpos_digits2_pos in H1.
  assert (Hd : Zdigits radix2 (Z.pos m) <= p) by lia.
  assert (H := Zpower_gt_Zdigits radix2 p (Z.pos m) Hd). change (radix_val radix2) with 2 in H. cbn in H. lia.
Qed.

Lemma fin_extreme x : nf_ok p e x = true -> is_finite_SF x = true ->
  SFleb x (sf_max p e false) = true /\ SFleb (sf_max p e true) x = true.
Proof.
  intros Hx Fx. destruct x as [s| | |s m ex]; try discriminate; [split; reflexivity|].
  unfold sf_max. apply bounded_max in Hx as [H1 H2].
  assert (HM : Z.pos (Z.to_pos (2 ^ p - 1)) = 2 ^ p - 1).
  { apply Z2Pos.id. assert (1 < 2 ^ p) by (destruct Hf; apply Z.pow_gt_1; lia). lia. }
  revert HM. generalize (Z.to_pos (2 ^ p - 1)). intros M HM. destruct s; split; try reflexivity; unfold SFleb; cbn [SFcompare];
    repeat match goal with |- context [Pos.compare_cont Eq ?a ?b] => change (Pos.compare_cont Eq a b) with (a ?= b)%positive end.
  - rewrite (Z.compare_antisym ex (e - p)).
    destruct (Z.compare_spec ex (e - p)) as [E|E|E]; cbn; try reflexivity; [|lia].
    specialize (H2 E). destruct (Pos.compare_spec M m) as [F|F|F]; cbn; try reflexivity.
    all: exfalso; lia.
  - destruct (Z.compare_spec ex (e - p)) as [E|E|E]; cbn; try reflexivity; [|lia].
    specialize (H2 E). destruct (Pos.compare_spec m M) as [F|F|F]; cbn; try reflexivity.
    all: exfalso; lia.
Qed.

Lemma finite_value_SF (x : nf p e) : (exists r, nf_value x = XReal r) -> is_finite_SF (nf_raw x) = true.
Proof.
  destruct x as [[s|[]| |s m ex] Hx]; cbn; try reflexivity; try discriminate; intros [r H]; discriminate.
Qed.

Lemma finite_extremes (x : nf p e) : (exists r, nf_value x = XReal r) ->
  s_le (nf_ops p e) x (s_max_value (nf_ops p e)) = true /\ s_le (nf_ops p e) (s_min_value (nf_ops p e)) x = true.
Proof.
  intros H. cbn [nf_ops s_le s_max_value s_min_value]. rewrite !nf_of_raw by apply sf_max_ok.
  apply fin_extreme; [apply nf_prop|now apply finite_value_SF].
Qed.

Lemma finite_le_max D (v : svec (nf p e) D) : finite_point v -> vec_le (nf_ops p e) v (vconst D (s_max_value (nf_ops p e))).
Proof.
  induction D as [|D IH]; intros Hv; [apply vec_le_nil|]. inversion Hv; subst. apply vec_le_cons.
  split; [now apply finite_extremes|now apply IH].
Qed.
Lemma finite_ge_min D (v : svec (nf p e) D) : finite_point v -> vec_le (nf_ops p e) (vconst D (s_min_value (nf_ops p e))) v.
Proof.
  induction D as [|D IH]; intros Hv; [apply vec_le_nil|]. inversion Hv; subst. apply vec_le_cons.
  split; [now apply finite_extremes|now apply IH].
Qed.

Lemma finite_incl_empty D (b : saabb (nf p e) D) : finite_box b -> box_incl (nf_ops p e) b (box_empty (nf_ops p e)).
Proof. intros [H1 H2]. split; [now apply finite_le_max|now apply finite_ge_min]. Qed.
End Value.

Lemma reachable_weaken {B K V} (P : Params B K) cfg (ok ok' : K -> Prop) (t : rtree B K V) :
  (forall k, ok k -> ok' k) -> reachable P cfg ok t -> reachable P cfg ok' t.
Proof.
  intros H. induction 1.
  - apply r_new.
  - eapply r_insert; eauto.
  - eapply r_insert_unique; eauto.
  - eapply r_remove; eauto.
  - eapply r_clone; eauto.
  - eapply r_values; eauto.
Qed.

(** ** Bounds that are least, for any totally ordered coordinates *)
Section Least.
Context {N : Type} (S : ScalarOps N) (L : order_laws S) {D : nat} {K : Type} (VO : VolumeOps (saabb N D))
  (kb : K -> saabb N D) (keq : K -> K -> bool).
Notation box := (saabb N D).
Definition lparams : Params box K := {| bops := box_bounds_ops S; vops := VO; key_bounds := kb; key_eq := keq |}.
Notation P := lparams.
Notation incl := (box_incl S).
Context (ok : K -> Prop) (Hok : forall k, ok k -> incl (kb k) (box_empty S)).
Context (Hkeq : forall k k', keq k' k = true -> incl (kb k') (kb k)).

Definition covers (b : box) (l : list K) : Prop := forall k, In k l -> incl b (kb k).
(** The least box that includes the empty box and every key. *)
Definition rel_least (b : box) (l : list K) : Prop :=
  incl b (box_empty S) /\ covers b l /\ forall c, incl c (box_empty S) -> covers c l -> incl c b.

Lemma covers_app b l m : covers b (l ++ m) <-> covers b l /\ covers b m.
Proof.
  unfold covers. split; [intros H; split; intros k Hk; apply H, in_or_app; auto|].
  intros [H1 H2] k Hk. apply in_app_or in Hk as [Hk|Hk]; auto.
Qed.
Lemma covers_mono b b' l : incl b' b -> covers b l -> covers b' l.
Proof. intros H Hc k Hk. eapply (box_incl_trans S L); [exact H|auto]. Qed.

Lemma least_laws : rel_laws P ok rel_least.
Proof.
  constructor; cbn [P lparams bops key_bounds key_eq box_bounds_ops b_empty b_union b_union_all].
  - intros b l l' Hp (H1 & H2 & H3).
    assert (E : forall c, covers c l <-> covers c l').
    { intros c. split; intros H k Hk; apply H; [now rewrite Hp|now rewrite <- Hp]. }
    split; [exact H1|]. split; [now apply E|]. intros c Hc Hl. apply H3; [exact Hc|now apply E].
  - split; [apply (box_incl_refl S L)|]. split; [intros k []|auto].
  - intros k Hk. split; [now apply Hok|]. split; [intros k' [<-|[]]; apply (box_incl_refl S L)|].
    intros c _ Hc. apply Hc. now left.
  - intros a b l m (A1 & A2 & A3) (B1 & B2 & B3).
    assert (Ul := box_union_l S L D a b). assert (Ur := box_union_r S L D a b).
    split; [eapply (box_incl_trans S L); eassumption|]. split.
    + apply covers_app. split; [exact (covers_mono _ _ _ Ul A2)|exact (covers_mono _ _ _ Ur B2)].
    + intros c Hc Hl. apply covers_app in Hl as [H1 H2]. apply box_union_least; auto.
  - intros bs ls H. unfold box_union_all.
    assert (E : forall a l, rel_least a l -> rel_least (fold_left (box_union S) bs a) (l ++ concat ls)).
    { induction H as [|b l0 bs ls Hb _ IH]; intros a l Ha; cbn [fold_left concat].
      - now rewrite app_nil_r.
      - rewrite app_assoc. apply IH. destruct Ha as (A1 & A2 & A3), Hb as (B1 & B2 & B3).
        assert (Ul := box_union_l S L D a b). assert (Ur := box_union_r S L D a b).
        split; [eapply (box_incl_trans S L); eassumption|]. split.
        + apply covers_app. split; [exact (covers_mono _ _ _ Ul A2)|exact (covers_mono _ _ _ Ur B2)].
        + intros c Hc Hl. apply covers_app in Hl as [H1 H2]. apply box_union_least; auto. }
    apply (E (box_empty S) []). split; [apply (box_incl_refl S L)|]. split; [intros k []|auto].
  - intros b l k k' (H1 & H2 & H3) Hin Hk E.
    assert (Ul := box_union_l S L D b (kb k)).
    split; [eapply (box_incl_trans S L); eassumption|]. split; [eapply covers_mono; eassumption|].
    intros c Hc Hl. apply box_union_least; [now apply H3|]. eapply (box_incl_trans S L); [apply Hl, Hin|now apply Hkeq].
Qed.

Lemma least_unique b b' l : rel_least b l -> rel_least b' l -> box_eqb S b b' = true.
Proof. intros (A1 & A2 & A3) (B1 & B2 & B3). apply (box_eqb_spec S L). auto. Qed.

Context {V : Type} (cfg : config).

Lemma least_inv (t : rtree box K V) : reachable P cfg ok t -> wf_root cfg ok rel_least 0 False False t.
Proof. apply (reachable_wf P cfg ok _ least_laws); try tauto; lia. Qed.

(** The bounds of the children together. *)
Lemma least_children level (n : node box K V) : wf cfg ok rel_least 0 False level n ->
  rel_least (box_union_all S (child_bounds kb n)) (keys n).
Proof.
  intros Hw. destruct level; destruct (wf_inv _ _ _ _ _ _ _ Hw) as (b & x & ->); unfold child_bounds; cbn [node_children].
  - rewrite wf_leaf in Hw. destruct Hw as (_ & _ & Hok').
    rewrite keys_leaf, flat_map_concat_map. apply (rel_union_all _ _ _ least_laws).
    induction Hok' as [|[k v] es Hk _ IH]; constructor; [|exact IH]. apply (rel_key _ _ _ least_laws), Hk.
  - rewrite wf_inner in Hw. destruct Hw as (_ & _ & Hcs). rewrite keys_inner.
    exact (children_rel P cfg ok rel_least least_laws 0 False _ _ Hcs).
Qed.

Lemma least_bvh (t : rtree box K V) i n : reachable P cfg ok t -> node_at t i n ->
  rel_least (node_bounds n) (keys n) /\ box_eqb S (node_bounds n) (box_union_all S (child_bounds kb n)) = true.
Proof.
  intros Hr Hat. apply least_inv in Hr. destruct (node_at_wf _ _ _ _ _ _ _ _ _ Hr Hat) as [Hw _].
  assert (H := wf_rel _ _ _ _ _ _ _ Hw). split; [exact H|]. eapply least_unique; [exact H|]. eapply least_children, Hw.
Qed.

(** The crate's own check of the bounds accepts the tree. *)
Lemma least_debug level (n : node box K V) : wf cfg ok rel_least 0 False level n ->
  exists b, debug_assert_bvh P (box_eqb S) level n = Ok b /\ rel_least b (keys n).
Proof.
  revert n; induction level as [|l IH]; intros n Hw; assert (Hn := wf_rel _ _ _ _ _ _ _ Hw); assert (Hc := least_children _ n Hw);
    destruct (wf_inv _ _ _ _ _ _ _ Hw) as (b & x & ->); cbn [debug_assert_bvh node_children read_leaf read_inner bind].
  - unfold child_bounds in Hc. cbn [node_children] in Hc. eexists. split; [|exact Hc].
    cbn [P lparams bops box_bounds_ops b_union_all key_bounds]. now rewrite (least_unique _ _ _ Hn Hc).
  - rewrite wf_inner in Hw. destruct Hw as (_ & _ & Hcs).
    set (loop := (fix loop (cs : list (node box K V)) : res (list box) := _)).
    assert (E : exists bs, loop x = Ok bs /\ Forall2 rel_least bs (map keys x)).
    { clear Hc Hn. induction Hcs as [|c cs [Hc _] Hcs IHcs]; [exists []; split; [reflexivity|constructor]|].
      destruct (IH c Hc) as (b1 & E1 & H1). destruct IHcs as (bs & E2 & H2). exists (b1 :: bs).
      cbn [loop]. rewrite E1. cbn [bind]. fold loop. rewrite E2. split; [reflexivity|constructor; assumption]. }
    destruct E as (bs & E & H). rewrite E. cbn [bind].
    apply (rel_union_all _ _ _ least_laws) in H. rewrite <- flat_map_concat_map, <- (keys_inner b x) in H.
    eexists. split; [|exact H]. now rewrite (least_unique _ _ _ Hn H).
Qed.

Lemma least_debug_tree (t : rtree box K V) : reachable P cfg ok t -> exists b, rtree_debug_assert_bvh P (box_eqb S) t = Ok b.
Proof. intros Hr. apply least_inv in Hr as [Hw _]. destruct (least_debug _ _ Hw) as (b & E & _). eauto. Qed.
End Least.
