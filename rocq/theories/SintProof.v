(** Proofs about signed coordinates of any width. *)
From Coq Require Import Reals Lra Psatz.
From Flocq Require Import Core Relative.
From Coq Require Import Floats.SpecFloat.
From Verif Require Export SintSpec CheckRun DistProof CheckI32.
From Verif Require Import SphereProof BoxDistProof BoxJoinProof IterProof VolProof VolLaws.
Local Existing Instance FloatReal.Hprec.
Local Existing Instance FloatReal.Hmax.
Local Open Scope Z_scope.

Section Sint.
Context (w : nat).
Notation N := (sint w).
Notation val := (sint_val w).
Notation SO := (sint_ops w).
Notation half := (sint_half w).

Lemma sint_of_val z : val (sint_of w z) = sint_wrap w z.
Proof. reflexivity. Qed.

Lemma sint_wrap_small z : - half <= z < half -> sint_wrap w z = z.
Proof. intros H. unfold sint_wrap. rewrite Z.mod_small; lia. Qed.

Lemma sint_of_small z : - half <= z < half -> val (sint_of w z) = z.
Proof. intros H. rewrite sint_of_val. now apply sint_wrap_small. Qed.

Lemma sint_bounds (x : N) : - half <= val x < half.
Proof.
  destruct x as [z H]. cbn. unfold sint_range in H. apply andb_true_iff in H as [H1 H2]. apply Z.leb_le in H1. apply Z.ltb_lt in H2. lia.
Qed.

Lemma sint_range_iff z : sint_range w z = true <-> - half <= z < half.
Proof. unfold sint_range. rewrite andb_true_iff, Z.leb_le, Z.ltb_lt. tauto. Qed.

Lemma sint_eq (x y : N) : val x = val y -> x = y.
Proof.
  destruct x as [x Hx], y as [y Hy]. cbn. intros ->. f_equal. apply Eqdep_dec.UIP_dec, bool_dec.
Qed.

Lemma sint_int_laws : int_laws SO (sint_arith w) val (- half) (half - 1).
Proof.
  assert (Hs := sint_half_pos w).
  assert (W : forall z, exists n, sint_wrap w z = z + n * (half - 1 - - half + 1)).
  { intros z. exists (- ((z + half) / (2 * half))). unfold sint_wrap. assert (H := Z.div_mod (z + half) (2 * half) ltac:(lia)).
    replace (half - 1 - - half + 1) with (2 * half) by lia. lia. }
  constructor.
  - intros a. assert (H := sint_bounds a). lia.
  - lia.
  - reflexivity.
  - reflexivity.
  - cbn [s_min_value sint_ops]. apply sint_of_small. lia.
  - cbn [s_max_value sint_ops]. apply sint_of_small. lia.
  - intros a b. apply W.
  - intros a b. apply W.
  - intros a b. apply W.
Qed.

Lemma sint_laws : scalar_laws SO.
Proof. exact (int_scalar_laws _ _ _ _ _ sint_int_laws). Qed.

Lemma sint_antisym : scalar_antisym SO.
Proof.
  intros a b H1 H2. apply sint_eq. cbn [sint_ops s_le] in H1, H2. apply Z.leb_le in H1, H2. lia.
Qed.

Lemma sint_checked_ok z c : sint_checked w z = Ok c <-> - half <= z < half /\ c = sint_of w z.
Proof.
  unfold sint_checked. rewrite <- sint_range_iff. destruct (sint_range w z).
  - split; [intros [= <-]; auto|intros [_ ->]; reflexivity].
  - split; [discriminate|intros [H _]; discriminate].
Qed.

Lemma sint_checked_laws : checked_laws (sint_checked_ops w) val (- half) (half - 1).
Proof.
  assert (H : forall z, - half <= z <= half - 1 -> exists c, sint_checked w z = Ok c /\ val c = z).
  { intros z Hz. exists (sint_of w z). split; [apply sint_checked_ok; split; [lia|reflexivity]|]. apply sint_of_small. lia. }
  constructor; intros a b Hab; apply (H _ Hab).
Qed.

(** *** Windows *)
Section Window.
Context (lo hi : Z).
(** The corners, coordinate by coordinate. *)
Definition sbox_in {D} (b : saabb N D) : Prop :=
  Forall (fun p => lo <= val (fst p) <= hi /\ lo <= val (snd p) <= hi) (vzip (bmin b) (bmax b)).

Lemma scorners_in {D} (b : saabb N D) : scorners_in_window lo hi b -> sbox_in b.
Proof.
  intros [H1 H2]. unfold sbox_in, vzip, spoint_in_window in *. apply Forall_forall. intros [x y] Hin.
  rewrite Forall_forall in H1, H2. split; [eapply H1, in_combine_l, Hin|eapply H2, in_combine_r, Hin].
Qed.

Lemma ss_min_val (a b : N) : val (s_min SO a b) = Z.min (val a) (val b).
Proof. unfold s_min. cbn [sint_ops s_le]. destruct (Z.leb_spec (val a) (val b)); lia. Qed.
Lemma ss_max_val (a b : N) : val (s_max SO a b) = Z.max (val a) (val b).
Proof. unfold s_max. cbn [sint_ops s_le]. destruct (Z.leb_spec (val a) (val b)); lia. Qed.
Lemma smin_value : val (s_min_value SO) = - half.
Proof. exact (int_min _ _ _ _ _ sint_int_laws). Qed.
Lemma smax_value : val (s_max_value SO) = half - 1.
Proof. exact (int_max _ _ _ _ _ sint_int_laws). Qed.

Lemma sin_union {D} (a b : saabb N D) : sbox_in a -> sbox_in b -> sbox_in (box_union SO a b).
Proof.
  unfold sbox_in, box_union, cw_min, cw_max. cbn [bmin bmax]. intros Ha Hb. rewrite vzip_vmap2. apply Forall_map, Forall_forall.
  intros [[x y] [z u]] Hin. cbn [fst snd]. assert (H1 := in_combine_l _ _ _ _ Hin). assert (H2 := in_combine_r _ _ _ _ Hin).
  rewrite Forall_forall in Ha, Hb. specialize (Ha _ H1). specialize (Hb _ H2). cbn [fst snd] in Ha, Hb.
  rewrite ss_min_val, ss_max_val. lia.
Qed.

Lemma combine_const {D A} (f : A -> A -> Prop) (c d : A) (v : list (A * A)) x y : In ((x, y)) (vzip (vconst D c) (vconst D d)) -> x = c /\ y = d.
Proof.
  induction D as [|D IH]; cbn; [intros []|]. intros [[= <- <-]|H]; [auto|]. apply IH, H.
Qed.

Lemma sin_empty_r {D} (a : saabb N D) : sbox_in a -> sbox_in (box_union SO a (box_empty SO)).
Proof.
  unfold sbox_in, box_union, cw_min, cw_max. cbn [bmin bmax box_empty]. intros Ha. rewrite vzip_vmap2. apply Forall_map, Forall_forall.
  intros [[x y] [z u]] Hin. cbn [fst snd]. assert (H1 := in_combine_l _ _ _ _ Hin). assert (H2 := in_combine_r _ _ _ _ Hin).
  rewrite Forall_forall in Ha. specialize (Ha _ H1). cbn [fst snd] in Ha.
  apply (combine_const (fun _ _ => True) _ _ []) in H2 as [-> ->].
  rewrite ss_min_val, ss_max_val, smin_value, smax_value. assert (Hx := sint_bounds x). assert (Hy := sint_bounds y). lia.
Qed.
Lemma sin_empty_l {D} (a : saabb N D) : sbox_in a -> sbox_in (box_union SO (box_empty SO) a).
Proof.
  unfold sbox_in, box_union, cw_min, cw_max. cbn [bmin bmax box_empty]. intros Ha. rewrite vzip_vmap2. apply Forall_map, Forall_forall.
  intros [[z u] [x y]] Hin. cbn [fst snd]. assert (H1 := in_combine_r _ _ _ _ Hin). assert (H2 := in_combine_l _ _ _ _ Hin).
  rewrite Forall_forall in Ha. specialize (Ha _ H1). cbn [fst snd] in Ha.
  apply (combine_const (fun _ _ => True) _ _ []) in H2 as [-> ->].
  rewrite ss_min_val, ss_max_val, smin_value, smax_value. assert (Hx := sint_bounds x). assert (Hy := sint_bounds y). lia.
Qed.
Lemma sint_empty_union {D} : box_union SO (box_empty SO) (box_empty SO) = box_empty SO :> saabb N D.
Proof.
  unfold box_union, box_empty. cbn [bmin bmax].
  assert (H : forall (f : N -> N -> N) x n, f x x = x -> vmap2 f (vconst n x) (vconst n x) = vconst n x).
  { intros f x n Hx. induction n as [|n IH]; [reflexivity|]. cbn [vmap2 vconst fst snd]. now rewrite Hx, IH. }
  unfold cw_min, cw_max. rewrite !H; [reflexivity| |]; unfold s_min, s_max; match goal with |- context [if ?c then _ else _] => destruct c end; reflexivity.
Qed.

Lemma swindow_run {K V} D (P : Params (saabb N D) K) (CK : Checks (vops P)) cfg (ok : K -> Prop) (os : list (op K V)) :
  bops P = box_bounds_ops SO ->
  (forall b, sbox_in b -> vol_fits CK b = true) ->
  (forall a b, sbox_in a -> sbox_in b -> sub_fits CK (volume (vops P) a) (volume (vops P) b) = true) ->
  (forall k, ok k -> sbox_in (key_bounds P k)) ->
  Forall (ok_op ok) os -> (1 <= min_children cfg)%nat \/ (forall k, ~ In (ORemove k) os) ->
  snd (k_run P CK cfg (rtree_new P : rtree (saabb N D) K V) os) = run P cfg (rtree_new P) os.
Proof.
  intros HB Hv Hs Hk Hok Hrm.
  assert (Gu : forall a b, sbox_in a -> sbox_in b -> sbox_in (b_union (bops P) a b)) by (rewrite HB; apply sin_union).
  assert (L : rel_laws P ok (rel_win P sbox_in)).
  { apply win_laws; auto; rewrite HB; [apply sin_empty_l|apply sin_empty_r|apply sint_empty_union|reflexivity]. }
  destruct (ag_krun P CK cfg True sbox_in ltac:(auto) ltac:(auto) Gu ok _ L 1 True ltac:(lia) Hk
    (win_child P ok sbox_in cfg) os) with (t := rtree_new P : rtree (saabb N D) K V) as [H|[_ H]]; auto.
  - destruct Hrm as [Hrm|Hrm]; [right; intros _; exact Hrm|left; exact Hrm].
  - apply (grown_wf P cfg ok _ L 1 True False); try tauto; try lia. apply g_new.
  - now elim H.
Qed.

Lemma half_le : (w <= 31)%nat -> half <= 2147483648.
Proof. intros Hw. unfold sint_half. change 2147483648 with (2 ^ 31). apply Z.pow_le_mono_r; lia. Qed.

Lemma swindow_vol D (b : saabb N D) : (w <= 31)%nat -> hi - lo < half -> (1 <= D)%nat -> Z.of_nat w * Z.of_nat D <= 1023 ->
  sbox_in b -> sint_vol_fits w b = true /\ exists r, rep (volume (sint_volume_ops w D) b) r.
Proof.
  intros Hw Hlh HD Hkd Hb. unfold sbox_in in Hb. unfold sint_vol_fits. cbn [volume sint_volume_ops]. unfold box_volume.
  assert (Hlen : length (vzip (bmin b) (bmax b)) = D) by (unfold vzip; rewrite combine_length, !vlist_len; lia).
  assert (Hfit : forallb (fun p : N * N => sint_range w (val (snd p) - val (fst p))) (vzip (bmin b) (bmax b)) = true).
  { apply forallb_forall. intros [x y] Hin. rewrite Forall_forall in Hb. specialize (Hb _ Hin). cbn [fst snd] in *.
    apply sint_range_iff. lia. }
  assert (Hrep : Forall (fun x => exists r, rep x r /\ (Rabs r <= bpow radix2 (Z.of_nat w))%R)
    (map (fun p : N * N => sint_into_f64 w (sint_sub w (snd p) (fst p))) (vzip (bmin b) (bmax b)))).
  { apply Forall_map. eapply Forall_impl; [|exact Hb]. intros [x y] Hin. cbn [fst snd] in *. unfold sint_into_f64, sint_sub.
    assert (Hs := half_le Hw). rewrite sint_of_small by lia. exists (IZR (val y - val x)). split; [apply rep_of_Z; lia|].
    rewrite <- abs_IZR, <- IZR_Zpower by lia. apply IZR_le. change (radix_val radix2 ^ Z.of_nat w) with half. lia. }
  rewrite Hfit. destruct (map _ _) as [|x l] eqn:El.
  { apply (f_equal (@length _)) in El. rewrite map_length, Hlen in El. cbn in El. lia. }
  apply (f_equal (@length _)) in El. rewrite map_length, Hlen in El. cbn [length] in El.
  inversion Hrep as [|? ? (r & Hr & Hb1) Hl]; subst.
  destruct (products_rep (Z.of_nat w) l ltac:(lia) Hl x r (Z.of_nat w) Hr ltac:(lia) Hb1) as (Hp & Hq); [nia|]. split; [exact Hp|exact Hq].
Qed.
End Window.

(** *** Volumes *)
Context (Hw : (w <= 31)%nat).

Lemma s_le_val (a b : N) : s_le SO a b = (val a <=? val b).
Proof. reflexivity. Qed.

Lemma s_sides_ok D (b : saabb N D) : valid_box SO b -> snarrow b -> sides_ok val (sint_sub w) (sint_into_f64 w) (Z.of_nat w) b.
Proof.
  intros Hv Hn. assert (Hs := incl_sides SO val s_le_val b b (box_incl_refl _ sint_laws _ b) Hv).
  assert (H0 : Forall (fun s => 0 <= s) (zsides val b)) by (induction Hs; constructor; [lia|assumption]).
  unfold sides_ok, zsides, snarrow in *. rewrite Forall_map in H0. rewrite Forall_forall in *. intros [x y] Hin.
  specialize (H0 _ Hin). specialize (Hn _ Hin). cbn [fst snd] in *.
  unfold side_ok. cbn [fst snd]. split; [exact H0|]. unfold sint_into_f64, sint_sub.
  assert (Hz := half_le Hw). assert (Hh := sint_half_pos w). change (2 ^ Z.of_nat w) with half in Hn. rewrite sint_of_small by lia. split.
  - rewrite <- IZR_Zpower by lia. apply IZR_le. change (radix_val radix2 ^ Z.of_nat w) with half. lia.
  - apply rep_of_Z. lia.
Qed.

Lemma s_incl_sides D (a b : saabb N D) : valid_box SO a -> box_incl SO b a -> snarrow b -> valid_box SO b /\ snarrow a.
Proof.
  intros Hv Hi Hn. split.
  - destruct Hi as [H1 H2]. unfold valid_box in *. eapply (vec_le_trans _ sint_laws _); [exact H1|]. eapply (vec_le_trans _ sint_laws _); [exact Hv|exact H2].
  - assert (Hs := incl_sides SO val s_le_val a b Hi Hv). unfold snarrow, zsides in *.
    assert (Hb : Forall (fun s => s < 2 ^ Z.of_nat w) (zsides val b)) by (unfold zsides; now rewrite Forall_map).
    assert (Ha : Forall (fun s => s < 2 ^ Z.of_nat w) (zsides val a)).
    { unfold zsides in Hb |- *. revert Hb. induction Hs; intros Hb; constructor; inversion Hb; subst; [lia|auto]. }
    unfold zsides in Ha. now rewrite Forall_map in Ha.
Qed.

Context (D : nat) (HD : (Datatypes.S D <= 31)%nat).
Lemma sint_volume_finite (b : saabb N (Datatypes.S D)) : exists r, rep (volume (sint_volume_ops w (Datatypes.S D)) b) r.
Proof.
  apply (int_volume_finite _ _ (Z.of_nat w)); [lia|nia|]. intros x y. unfold sint_into_f64.
  assert (Hz := sint_bounds (sint_sub w x y)). set (z := val (sint_sub w x y)) in *.
  assert (H31 := half_le Hw).
  exists (IZR z). split; [apply rep_of_Z; lia|]. rewrite <- abs_IZR, <- IZR_Zpower by lia. apply IZR_le. change (radix_val radix2 ^ Z.of_nat w) with half. lia.
Qed.
Lemma sint_volume_laws : volume_laws (sint_volume_ops w (Datatypes.S D)).
Proof. apply finite_volume_laws. intros b. apply sint_volume_finite. Qed.
Lemma sint_neg_inf b : n64_cmp (sint_volume_ops w (Datatypes.S D)) (n64_neg_inf (sint_volume_ops w (Datatypes.S D))) (volume (sint_volume_ops w (Datatypes.S D)) b) = Lt.
Proof. apply finite_neg_inf. intros b'. apply sint_volume_finite. Qed.
End Sint.
