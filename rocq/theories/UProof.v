(** Proofs about unsigned coordinates. *)
From Coq Require Import Reals Lra Psatz.
From Flocq Require Import Core Relative.
From Coq Require Import Floats.SpecFloat.
From Verif Require Export UModel CheckRun DistProof.
From Verif Require Import SphereProof BoxDistProof BoxJoinProof IterProof RealSpec.
Local Existing Instance FloatReal.Hprec.
Local Existing Instance FloatReal.Hmax.
Local Open Scope Z_scope.

Section Uint.
Context (w : nat).
Notation N := (uint w).
Notation val := (uint_val w).
Notation SO := (uint_ops w).
Notation size := (uint_size w).

Lemma uint_of_val z : val (uint_of w z) = z mod size.
Proof. reflexivity. Qed.

Lemma uint_of_small z : 0 <= z < size -> val (uint_of w z) = z.
Proof. intros H. rewrite uint_of_val. now apply Z.mod_small. Qed.

Lemma uint_bounds (x : N) : 0 <= val x < size.
Proof.
  destruct x as [z H]. cbn. unfold uint_range in H. apply andb_true_iff in H as [H1 H2]. apply Z.leb_le in H1. apply Z.ltb_lt in H2. lia.
Qed.

Lemma uint_range_iff z : uint_range w z = true <-> 0 <= z < size.
Proof. unfold uint_range. rewrite andb_true_iff, Z.leb_le, Z.ltb_lt. tauto. Qed.

Lemma uint_eq (x y : N) : val x = val y -> x = y.
Proof.
  destruct x as [x Hx], y as [y Hy]. cbn. intros ->. f_equal. apply Eqdep_dec.UIP_dec, bool_dec.
Qed.

Lemma uint_int_laws : int_laws SO (uint_arith w) val 0 (size - 1).
Proof.
  assert (Hs := uint_size_pos w).
  assert (W : forall z, exists n, z mod size = z + n * (size - 1 - 0 + 1)).
  { intros z. exists (- (z / size)). assert (H := Z.div_mod z size ltac:(lia)). lia. }
  constructor.
  - intros a. assert (H := uint_bounds a). lia.
  - lia.
  - reflexivity.
  - reflexivity.
  - cbn [s_min_value uint_ops]. apply uint_of_small. lia.
  - cbn [s_max_value uint_ops]. apply uint_of_small. lia.
  - intros a b. apply W.
  - intros a b. apply W.
  - intros a b. apply W.
Qed.

Lemma uint_laws : scalar_laws SO.
Proof. exact (int_scalar_laws _ _ _ _ _ uint_int_laws). Qed.

Lemma uint_antisym : scalar_antisym SO.
Proof.
  intros a b H1 H2. apply uint_eq. cbn [uint_ops s_le] in H1, H2. apply Z.leb_le in H1, H2. lia.
Qed.

Lemma uint_checked_ok z c : uint_checked w z = Ok c <-> 0 <= z < size /\ c = uint_of w z.
Proof.
  unfold uint_checked. rewrite <- uint_range_iff. destruct (uint_range w z).
  - split; [intros [= <-]; auto|intros [_ ->]; reflexivity].
  - split; [discriminate|intros [H _]; discriminate].
Qed.

Lemma uint_checked_laws : checked_laws (uint_checked_ops w) val 0 (size - 1).
Proof.
  assert (H : forall z, 0 <= z <= size - 1 -> exists c, uint_checked w z = Ok c /\ val c = z).
  { intros z Hz. exists (uint_of w z). split; [apply uint_checked_ok; split; [lia|reflexivity]|]. apply uint_of_small. lia. }
  constructor; intros a b Hab; apply (H _ Hab).
Qed.

(** *** Volumes *)
(** The lower corner is at most the upper one. *)
Definition upright {D} (b : saabb N D) : Prop := Forall (fun p => val (fst p) <= val (snd p)) (vzip (bmin b) (bmax b)).

Lemma upright_valid {D} (b : saabb N D) : upright b <-> valid_box SO b.
Proof.
  unfold upright, valid_box, vec_le, vzip. destruct b as [mn mx]. cbn [bmin bmax]. induction D as [|D IH]; cbn [vlist combine].
  - split; constructor.
  - rewrite Forall_cons_iff, (IH (snd mn) (snd mx)). cbn [fst snd]. split.
    + intros [H1 H2]. constructor; [|exact H2]. cbn [uint_ops s_le]. now apply Z.leb_le.
    + intros H. inversion H as [|? ? ? ? H1 H2]; subst. split; [|exact H2]. cbn [uint_ops s_le] in H1. now apply Z.leb_le.
Qed.

Lemma us_min_val (a b : N) : val (s_min SO a b) = Z.min (val a) (val b).
Proof. unfold s_min. cbn [uint_ops s_le]. destruct (Z.leb_spec (val a) (val b)); lia. Qed.
Lemma us_max_val (a b : N) : val (s_max SO a b) = Z.max (val a) (val b).
Proof. unfold s_max. cbn [uint_ops s_le]. destruct (Z.leb_spec (val a) (val b)); lia. Qed.

Lemma upright_union {D} (a b : saabb N D) : upright a -> upright b -> upright (box_union SO a b).
Proof.
  unfold upright, box_union, cw_min, cw_max. cbn [bmin bmax]. intros Ha Hb. rewrite vzip_vmap2. apply Forall_map, Forall_forall.
  intros [[x y] [z u]] Hin. cbn [fst snd]. assert (H1 := in_combine_l _ _ _ _ Hin). assert (H2 := in_combine_r _ _ _ _ Hin).
  rewrite Forall_forall in Ha, Hb. specialize (Ha _ H1). specialize (Hb _ H2). cbn [fst snd] in Ha, Hb.
  rewrite us_min_val, us_max_val. lia.
Qed.
Lemma upright_empty_r {D} (a : saabb N D) : upright a -> upright (box_union SO a (box_empty SO)).
Proof.
  unfold upright, box_union, cw_min, cw_max. cbn [bmin bmax box_empty]. intros Ha. rewrite vzip_vmap2. apply Forall_map, Forall_forall.
  intros [[x y] [z u]] Hin. cbn [fst snd]. assert (H1 := in_combine_l _ _ _ _ Hin). rewrite Forall_forall in Ha. specialize (Ha _ H1). cbn [fst snd] in Ha.
  rewrite us_min_val, us_max_val. lia.
Qed.
Lemma upright_empty_l {D} (a : saabb N D) : upright a -> upright (box_union SO (box_empty SO) a).
Proof.
  unfold upright, box_union, cw_min, cw_max. cbn [bmin bmax box_empty]. intros Ha. rewrite vzip_vmap2. apply Forall_map, Forall_forall.
  intros [[z u] [x y]] Hin. cbn [fst snd]. assert (H1 := in_combine_r _ _ _ _ Hin). rewrite Forall_forall in Ha. specialize (Ha _ H1). cbn [fst snd] in Ha.
  rewrite us_min_val, us_max_val. lia.
Qed.
Lemma uint_empty_union {D} : box_union SO (box_empty SO) (box_empty SO) = box_empty SO :> saabb N D.
Proof.
  unfold box_union, box_empty. cbn [bmin bmax].
  assert (H : forall (f : N -> N -> N) x n, f x x = x -> vmap2 f (vconst n x) (vconst n x) = vconst n x).
  { intros f x n Hx. induction n as [|n IH]; [reflexivity|]. cbn [vmap2 vconst fst snd]. now rewrite Hx, IH. }
  unfold cw_min, cw_max. rewrite !H; [reflexivity| |]; unfold s_min, s_max; match goal with |- context [if ?c then _ else _] => destruct c end; reflexivity.
Qed.

Lemma upright_point {D} (p : svec N D) : upright (point_bounds p).
Proof.
  apply upright_valid. unfold valid_box, point_bounds. cbn [bmin bmax]. apply (vec_le_refl SO uint_laws).
Qed.

Lemma upright_run {K V} D (P : Params (saabb N D) K) (CK : Checks (vops P)) cfg (ok : K -> Prop) (os : list (op K V)) :
  bops P = box_bounds_ops SO ->
  (forall b, upright b -> vol_fits CK b = true) ->
  (forall a b, upright a -> upright b -> sub_fits CK (volume (vops P) a) (volume (vops P) b) = true) ->
  (forall k, ok k -> upright (key_bounds P k)) ->
  Forall (ok_op ok) os -> (1 <= min_children cfg)%nat \/ (forall k, ~ In (ORemove k) os) ->
  snd (k_run P CK cfg (rtree_new P : rtree (saabb N D) K V) os) = run P cfg (rtree_new P) os.
Proof.
  intros HB Hv Hs Hk Hok Hrm.
  assert (Gu : forall a b, upright a -> upright b -> upright (b_union (bops P) a b)) by (rewrite HB; apply upright_union).
  assert (L : rel_laws P ok (rel_win P upright)).
  { apply win_laws; auto; rewrite HB; [apply upright_empty_l|apply upright_empty_r|apply uint_empty_union|reflexivity]. }
  destruct (ag_krun P CK cfg True upright ltac:(auto) ltac:(auto) Gu ok _ L 1 True ltac:(lia) Hk
    (win_child P ok upright cfg) os) with (t := rtree_new P : rtree (saabb N D) K V) as [H|[_ H]]; auto.
  - destruct Hrm as [Hrm|Hrm]; [right; intros _; exact Hrm|left; exact Hrm].
  - apply (grown_wf P cfg ok _ L 1 True False); try tauto; try lia. apply g_new.
  - now elim H.
Qed.
Context (Hw : (w <= 32)%nat).

Lemma size_le : size <= 4294967296.
Proof. unfold uint_size. change 4294967296 with (2 ^ 32). apply Z.pow_le_mono_r; lia. Qed.

Lemma upright_vol D (b : saabb N D) : (1 <= D)%nat -> Z.of_nat w * Z.of_nat D <= 1023 ->
  upright b -> uint_vol_fits w b = true /\ exists r, rep (volume (uint_volume_ops w D) b) r.
Proof.
  intros HD Hkd Hb. unfold upright in Hb. unfold uint_vol_fits. cbn [volume uint_volume_ops]. unfold box_volume.
  assert (Hlen : length (vzip (bmin b) (bmax b)) = D) by (unfold vzip; rewrite combine_length, !vlist_len; lia).
  assert (Hfit : forallb (fun p : N * N => uint_range w (val (snd p) - val (fst p))) (vzip (bmin b) (bmax b)) = true).
  { apply forallb_forall. intros [x y] Hin. rewrite Forall_forall in Hb. specialize (Hb _ Hin). cbn [fst snd] in *.
    apply uint_range_iff. assert (Hx := uint_bounds x). assert (Hy := uint_bounds y). lia. }
  assert (Hrep : Forall (fun x => exists r, rep x r /\ (Rabs r <= bpow radix2 (Z.of_nat w))%R)
    (map (fun p : N * N => uint_into_f64 w (uint_sub w (snd p) (fst p))) (vzip (bmin b) (bmax b)))).
  { apply Forall_map. eapply Forall_impl; [|exact Hb]. intros [x y] Hin. cbn [fst snd] in *. unfold uint_into_f64, uint_sub.
    assert (Hx := uint_bounds x). assert (Hy := uint_bounds y). assert (Hs := size_le).
    rewrite uint_of_small by lia. exists (IZR (val y - val x)). split; [apply rep_of_Z; lia|].
    rewrite <- abs_IZR, <- IZR_Zpower by lia. apply IZR_le. change (radix_val radix2 ^ Z.of_nat w) with size. lia. }
  rewrite Hfit. destruct (map _ _) as [|x l] eqn:El.
  { apply (f_equal (@length _)) in El. rewrite map_length, Hlen in El. cbn in El. lia. }
  apply (f_equal (@length _)) in El. rewrite map_length, Hlen in El. cbn [length] in El.
  inversion Hrep as [|? ? (r & Hr & Hb1) Hl]; subst.
  destruct (products_rep (Z.of_nat w) l ltac:(lia) Hl x r (Z.of_nat w) Hr ltac:(lia) Hb1) as (Hp & Hq); [nia|]. split; [exact Hp|exact Hq].
Qed.

End Uint.
