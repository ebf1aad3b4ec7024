(** Debug builds with floating-point coordinates: boxes in a window have finite volumes (C82). *)
From Coq Require Import Reals Lra Floats.SpecFloat.
From Flocq Require Import Core BinarySingleNaN.
From Verif Require Export FpCheckSpec CheckRun VolProof.

(** ** Boxes all of whose coordinates are in a set *)
Section Coords.
Context {N : Type} (S : ScalarOps N) (G1 : N -> Prop) (D : nat).
Hypothesis (HMAX : forall x, G1 x -> s_min S x (s_max_value S) = x /\ s_min S (s_max_value S) x = x).
Hypothesis (HMIN : forall x, G1 x -> s_max S x (s_min_value S) = x /\ s_max S (s_min_value S) x = x).

Definition in_set (b : saabb N D) : Prop := Forall (fun q => G1 (fst q) /\ G1 (snd q)) (vzip (bmin b) (bmax b)).

Lemma set_union a b : in_set a -> in_set b -> in_set (box_union S a b).
Proof.
  unfold in_set, box_union, cw_min, cw_max. cbn [bmin bmax]. intros Ha Hb. rewrite vzip_vmap2. apply Forall_map, Forall_forall.
  intros [[x y] [z w]] Hin. cbn [fst snd]. assert (H1 := in_combine_l _ _ _ _ Hin). assert (H2 := in_combine_r _ _ _ _ Hin).
  rewrite Forall_forall in Ha, Hb. specialize (Ha _ H1). specialize (Hb _ H2). cbn [fst snd] in Ha, Hb.
  unfold s_min, s_max. destruct (s_le S x z), (s_le S y w); tauto.
Qed.
Lemma set_empty_r a : in_set a -> in_set (box_union S a (box_empty S)).
Proof.
  unfold in_set, box_union, cw_min, cw_max. cbn [bmin bmax box_empty]. intros Ha. rewrite vzip_vmap2. apply Forall_map, Forall_forall.
  intros [[x y] [z w]] Hin. cbn [fst snd]. assert (H1 := in_combine_l _ _ _ _ Hin). apply in_combine_r in Hin. rewrite vzip_const in Hin. apply repeat_spec in Hin. injection Hin as -> ->.
  rewrite Forall_forall in Ha. destruct (Ha _ H1) as [Hx Hy]. cbn [fst snd] in Hx, Hy. destruct (HMAX x Hx) as [-> _], (HMIN y Hy) as [-> _]. now split.
Qed.
Lemma set_empty_l a : in_set a -> in_set (box_union S (box_empty S) a).
Proof.
  unfold in_set, box_union, cw_min, cw_max. cbn [bmin bmax box_empty]. intros Ha. rewrite vzip_vmap2. apply Forall_map, Forall_forall.
  intros [[z w] [x y]] Hin. cbn [fst snd]. assert (H1 := in_combine_r _ _ _ _ Hin). apply in_combine_l in Hin. rewrite vzip_const in Hin. apply repeat_spec in Hin. injection Hin as -> ->.
  rewrite Forall_forall in Ha. destruct (Ha _ H1) as [Hx Hy]. cbn [fst snd] in Hx, Hy. destruct (HMAX x Hx) as [_ ->], (HMIN y Hy) as [_ ->]. now split.
Qed.
Lemma set_empty_union : box_union S (box_empty S) (box_empty S) = box_empty S :> saabb N D.
Proof.
  unfold box_union, box_empty. cbn [bmin bmax].
  assert (H : forall (f : N -> N -> N) x n, f x x = x -> vmap2 f (vconst n x) (vconst n x) = vconst n x).
  { intros f x n Hx. induction n as [|n IH]; [reflexivity|]. cbn [vmap2 vconst fst snd]. now rewrite Hx, IH. }
  unfold cw_min, cw_max. rewrite !H; [reflexivity| |]; unfold s_min, s_max; match goal with |- context [if ?c then _ else _] => destruct c end; reflexivity.
Qed.

Lemma set_run {K V} (P : Params (saabb N D) K) (CK : Checks (vops P)) cfg (ok : K -> Prop) (os : list (op K V)) :
  bops P = box_bounds_ops S ->
  (forall b, in_set b -> vol_fits CK b = true) ->
  (forall a b, in_set a -> in_set b -> sub_fits CK (volume (vops P) a) (volume (vops P) b) = true) ->
  (forall k, ok k -> in_set (key_bounds P k)) ->
  Forall (ok_op ok) os -> (1 <= min_children cfg)%nat \/ (forall k, ~ In (ORemove k) os) ->
  snd (k_run P CK cfg (rtree_new P : rtree (saabb N D) K V) os) = run P cfg (rtree_new P) os.
Proof.
  intros HB Hv Hs Hk Hok Hrm.
  assert (Gu : forall a b, in_set a -> in_set b -> in_set (b_union (bops P) a b)) by (rewrite HB; apply set_union).
  assert (L : rel_laws P ok (rel_win P in_set)).
  { apply win_laws; auto; rewrite HB; [apply set_empty_l|apply set_empty_r|apply set_empty_union|reflexivity]. }
  destruct (ag_krun P CK cfg True in_set ltac:(auto) ltac:(auto) Gu ok _ L 1 True ltac:(lia) Hk
    (win_child P ok in_set cfg) os) with (t := rtree_new P : rtree (saabb N D) K V) as [H|[_ H]]; auto.
  - destruct Hrm as [Hrm|Hrm]; [right; intros _; exact Hrm|left; exact Hrm].
  - apply (grown_wf P cfg ok _ L 1 True False); try tauto; try lia. apply g_new.
  - now elim H.
Qed.
End Coords.

Local Open Scope R_scope.
Local Existing Instance FloatReal.Hprec.
Local Existing Instance FloatReal.Hmax.

Section Floats.
Context (p e : Z) (Hf : fp_format p e) (Hp : (p <= 53)%Z) (He : (e <= 1024)%Z) (k : nat) (Hk : (Z.of_nat k + 1 < e)%Z).
Local Existing Instance fHp.
Local Existing Instance fHe.
Notation small := (@small_coord p e k).
Notation rv := (rv p e).

Lemma pow_bpow n : 2 ^ n = bpow radix2 (Z.of_nat n).
Proof. rewrite bpow_powerRZ. change (IZR radix2) with 2. now rewrite pow_powerRZ. Qed.

Lemma small_rv x : small x -> (exists r, nf_value x = XReal r) /\ Rabs (rv x) <= bpow radix2 (Z.of_nat k).
Proof.
  intros (r & E & Hr). split; [eauto|]. assert (Hx : exists r, nf_value x = XReal r) by eauto. rewrite (fin_rv p e x Hx) in E. injection E as <-.
  rewrite <- pow_bpow. now apply Rabs_le.
Qed.

Lemma frnd_bound x j : (Z.of_nat j < e)%Z -> Rabs x <= bpow radix2 (Z.of_nat j) -> Rabs (rne p e x) <= bpow radix2 (Z.of_nat j).
Proof.
  intros Hj Hx. unfold rne. assert (V := fexp_correct p e (fHp p e Hf)).
  apply abs_round_le_generic; try exact Hx; try typeclasses eauto.
  apply generic_format_bpow. unfold SpecFloat.fexp, emin. destruct Hf. lia.
Qed.

Notation side := (fun q : nf p e * nf p e => sf_into_f64 (SFsub p e (nf_raw (snd q)) (nf_raw (fst q)))).
Lemma small_side x y : small x -> small y -> exists r, rep (side (x, y)) r /\ Rabs r <= bpow radix2 (Z.of_nat (S k)).
Proof.
  intros Hx Hy. destruct (small_rv x Hx) as [Fx Bx], (small_rv y Hy) as [Fy By].
  assert (Hb : Rabs (rne p e (rv y - rv x)) <= bpow radix2 (Z.of_nat (S k))).
  { apply frnd_bound; [lia|]. unfold Rminus. eapply Rle_trans; [apply Rabs_triang|]. rewrite Rabs_Ropp.
    rewrite Nat2Z.inj_succ. unfold Z.succ. rewrite bpow_plus. change (bpow radix2 1) with 2. lra. }
  exists (rne p e (rv y - rv x)). split; [|exact Hb]. apply (side_value p e Hf Hp He x y Fx Fy).
  rewrite frnd_rne. eapply Rle_lt_trans; [exact Hb|]. unfold fmax_. apply bpow_lt. lia.
Qed.

Lemma rep_not_nan x r : rep x r -> f64_is_nan x = false.
Proof. intros H. apply rep_fin in H. now destruct x. Qed.

Lemma into_nan x : f64_is_nan x = true -> f64_is_nan (sf_into_f64 x) = true.
Proof. now destruct x. Qed.

Lemma small_volume D (b : saabb (nf p e) D) : (1 <= D)%nat -> (Z.of_nat (S k) * Z.of_nat D <= 1023)%Z -> in_set small D b ->
  nf_vol_fits p e b = true /\ exists r, rep (nf_volume p e b) r.
Proof.
  intros HD Hkd Hb. unfold in_set in Hb. unfold nf_vol_fits, nf_volume.
  assert (Hlen : length (vzip (bmin b) (bmax b)) = D) by apply vzip_len.
  destruct (vzip (bmin b) (bmax b)) as [|q l]; [cbn in Hlen; lia|]. cbn [length map] in *.
  assert (Hs : Forall (fun q => exists r, rep (side q) r /\ Rabs r <= bpow radix2 (Z.of_nat (S k))) (q :: l)).
  { eapply Forall_impl; [|exact Hb]. intros [x y] [Hx Hy]. now apply small_side. }
  inversion Hs as [|? ? (r & Hr & Hrb) Hl]; subst.
  destruct (products_rep (Z.of_nat (S k)) (map side l) ltac:(lia)) with (acc := side q) (a := r) (j := Z.of_nat (S k)) as (H1 & H2); try assumption; try lia.
  - apply Forall_map. exact Hl.
  - rewrite map_length. nia.
  - split; [|exact H2]. rewrite H1, andb_true_r. apply forallb_forall. intros q' Hq'. rewrite Forall_forall in Hs. destruct (Hs q' Hq') as (r' & Hr' & _).
    apply rep_not_nan in Hr'. destruct (f64_is_nan (SFsub p e (nf_raw (snd q')) (nf_raw (fst q')))) eqn:E; [|reflexivity].
    apply into_nan in E. cbn beta in Hr'. congruence.
Qed.

(** The empty bounds are beyond the window. *)
Lemma max_value_R : exists r, nf_value (s_max_value (nf_ops p e)) = XReal r /\ 2 ^ k < r /\ nf_value (s_min_value (nf_ops p e)) = XReal (- r).
Proof.
  assert (Hpp : (1 < p)%Z) by (destruct Hf; lia).
  exists (IZR (Z.pos (Z.to_pos (2 ^ p - 1))) * powerRZ 2 (e - p)).
  cbn [nf_ops s_max_value s_min_value]. unfold nf_value. rewrite !(nf_of_raw p e) by (apply sf_max_ok; exact Hf).
  unfold sf_max. cbn [sf_value]. split; [f_equal; ring|split; [|f_equal; ring]].
  rewrite Z2Pos.id by (assert (1 < 2 ^ p)%Z by (apply Z.pow_gt_1; lia); lia).
  change (powerRZ 2 (e - p)) with (powerRZ (IZR radix2) (e - p)). rewrite <- bpow_powerRZ, pow_bpow.
  apply Rlt_le_trans with (bpow radix2 (e - 1)); [apply bpow_lt; lia|].
  replace (e - 1)%Z with (p - 1 + (e - p))%Z by lia. rewrite bpow_plus. apply Rmult_le_compat_r; [apply bpow_ge_0|].
  rewrite <- IZR_Zpower by lia. apply IZR_le. change (radix_val radix2) with 2%Z.
  assert (2 ^ p = 2 * 2 ^ (p - 1))%Z by (rewrite <- Z.pow_succ_r by lia; f_equal; lia).
  assert (1 < 2 ^ (p - 1) \/ 2 ^ (p - 1) = 1)%Z by (assert (0 < 2 ^ (p - 1))%Z by (apply Z.pow_pos_nonneg; lia); lia). lia.
Qed.

Lemma small_max x : small x -> s_min (nf_ops p e) x (s_max_value (nf_ops p e)) = x /\ s_min (nf_ops p e) (s_max_value (nf_ops p e)) x = x.
Proof.
  intros (r & E & Hr). destruct max_value_R as (m & Em & Hm & _). unfold s_min. split.
  - rewrite (proj2 (nf_le p e _ _)); [reflexivity|]. rewrite E, Em. cbn. lra.
  - destruct (s_le _ _ _) eqn:H; [|reflexivity]. apply nf_le in H. rewrite E, Em in H. cbn in H. lra.
Qed.
Lemma small_min x : small x -> s_max (nf_ops p e) x (s_min_value (nf_ops p e)) = x /\ s_max (nf_ops p e) (s_min_value (nf_ops p e)) x = x.
Proof.
  intros (r & E & Hr). destruct max_value_R as (m & _ & Hm & Em). unfold s_max. split.
  - destruct (s_le _ _ _) eqn:H; [|reflexivity]. apply nf_le in H. rewrite E, Em in H. cbn in H. lra.
  - rewrite (proj2 (nf_le p e _ _)); [reflexivity|]. rewrite E, Em. cbn. lra.
Qed.

Lemma small_box_set D (b : saabb (nf p e) D) : small_box k b -> in_set small D b.
Proof.
  intros [H1 H2]. apply Forall_forall. intros [x y] Hin. unfold vzip in Hin. cbn [fst snd].
  assert (Hx := in_combine_l _ _ _ _ Hin). assert (Hy := in_combine_r _ _ _ _ Hin).
  unfold small_point in *. rewrite Forall_forall in H1, H2. auto.
Qed.

Lemma small_runs {K V} D (P : Params (saabb (nf p e) D) K) (HV : vops P = nf_volume_ops p e D) (CK : Checks (vops P)) cfg (ok : K -> Prop) (os : list (op K V)) :
  (1 <= D)%nat -> (Z.of_nat (S k) * Z.of_nat D <= 1023)%Z -> bops P = box_bounds_ops (nf_ops p e) ->
  (forall b, in_set small D b -> vol_fits CK b = nf_vol_fits p e b) ->
  (forall x y, sub_fits CK (volume (vops P) x) (volume (vops P) y) = negb (f64_is_nan (f64_sub (nf_volume p e x) (nf_volume p e y)))) ->
  (forall k, ok k -> in_set small D (key_bounds P k)) ->
  Forall (ok_op ok) os -> (1 <= min_children cfg)%nat \/ (forall k, ~ In (ORemove k) os) ->
  snd (k_run P CK cfg (rtree_new P : rtree (saabb (nf p e) D) K V) os) = run P cfg (rtree_new P) os.
Proof.
  intros HD Hk1 HB Hv Hs Hkey Hok Hrm.
  apply (set_run (nf_ops p e) small D small_max small_min P CK cfg ok os HB); try assumption.
  - intros b Hb. rewrite (Hv b Hb). now apply small_volume.
  - intros a b Ha Hb. rewrite Hs. destruct (small_volume D a HD Hk1 Ha) as [_ [ra Hra]], (small_volume D b HD Hk1 Hb) as [_ [rb Hrb]].
    now rewrite (sub_not_nan _ _ _ _ Hra Hrb).
Qed.
End Floats.
