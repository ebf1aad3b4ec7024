(** Proofs about spheres (C39). *)
From Coq Require Import Reals Lra Psatz.
From Flocq Require Import Core Relative.
From Coq Require Import Floats.SpecFloat.
From Verif Require Import SphereModel RealSpec IterSpec FloatReal BoxDistProof BoxJoinProof GeomProof.
Local Open Scope R_scope.

(** Integer differences. *)
Fixpoint diffs {D} : svec i32 D -> svec i32 D -> list Z :=
  match D with
  | 0 => fun _ _ => []
  | Datatypes.S D => fun p c => (i32_val (fst p) - i32_val (fst c))%Z :: diffs (snd p) (snd c)
  end.
Definition zsq (l : list Z) : Z := fold_right Z.add 0%Z (map (fun g => g * g)%Z l).

Lemma rdist2_diffs D (p c : svec i32 D) : rdist2 (real_point i32_real p) (real_point i32_real c) = IZR (zsq (diffs p c)).
Proof.
  induction D as [|D IH]; [reflexivity|]. specialize (IH (snd p) (snd c)). unfold zsq in *. cbn [diffs map fold_right].
  rewrite plus_IZR, mult_IZR, minus_IZR. rewrite <- IH. reflexivity.
Qed.

Lemma i32_bounds (x : i32) : (-2147483648 <= i32_val x <= 2147483647)%Z.
Proof. destruct x as [z H]. cbn. unfold i32_range in H. apply andb_true_iff in H as [H1 H2]. apply Z.leb_le in H1, H2. lia. Qed.

Lemma wrap32_small z : (-2147483648 <= z <= 2147483647)%Z -> wrap32 z = z.
Proof. intros H. unfold wrap32. rewrite Z.mod_small; lia. Qed.

(** A wrapped difference whose size is at most [r] is not wrapped, if [c - r] and [c + r] are in range. *)
Lemma wrap_diff p c r : (-2147483648 <= p <= 2147483647)%Z -> (-2147483648 <= c - r)%Z -> (c + r <= 2147483647)%Z -> (0 <= r)%Z ->
  (Z.abs (wrap32 (p - c)) <= r)%Z <-> (Z.abs (p - c) <= r)%Z.
Proof.
  intros Hp H1 H2 Hr. unfold wrap32.
  assert (E : (p - c + 2147483648 = 4294967296 * ((p - c + 2147483648) / 4294967296) + (p - c + 2147483648) mod 4294967296)%Z) by (apply Z.div_mod; lia).
  assert (B := Z.mod_pos_bound (p - c + 2147483648) 4294967296 ltac:(lia)).
  set (q := ((p - c + 2147483648) / 4294967296)%Z) in *. set (m := ((p - c + 2147483648) mod 4294967296)%Z) in *.
  assert (q = 0 \/ q = -1 \/ q = 1)%Z by lia. lia.
Qed.

Fixpoint wdiffs {D} : svec i32 D -> svec i32 D -> list Z :=
  match D with
  | 0 => fun _ _ => []
  | Datatypes.S D => fun p c => wrap32 (i32_val (fst p) - i32_val (fst c)) :: wdiffs (snd p) (snd c)
  end.

Lemma rsq_strict g r : (Z.abs g <= 2147483648)%Z -> (0 <= r <= 2147483648)%Z -> rsq g <= rsq r -> (Z.abs g <= r)%Z.
Proof.
  intros Hg Hr H. destruct (Z_le_gt_dec (Z.abs g) r) as [|Hgt]; [assumption|]. exfalso.
  set (h := Z.abs g) in *. assert (Eg : (g * g = h * h)%Z) by (unfold h; destruct (Z.abs_spec g) as [[_ ->]|[_ ->]]; ring).
  unfold rsq in H. rewrite Eg in H.
  assert (Hm : rnd (IZR ((r + 1) * (r + 1))) <= rnd (IZR (h * h))) by (apply rnd_le, IZR_le; nia).
  assert (He1 : rnd (IZR ((r + 1) * (r + 1))) <= rnd (IZR (r * r))) by lra. clear H Hm.
  destruct (Z.eq_dec r 0) as [->|Hr0].
  { cbn in He1. change (1 * 1)%Z with 1%Z in *. rewrite rnd_0 in He1. 
    rewrite (rnd_int 1) in He1 by (vm_compute; discriminate). lra. }
  assert (HU : forall z, (1 <= z)%Z -> Rabs (rnd (IZR z) - IZR z) <= / 2 * bpow radix2 (-53 + 1) * Rabs (IZR z)).
  { intros z Hz. unfold rnd. change fexp64 with (FLT_exp (-1074) 53). apply relative_error_N_FLT; [lia|].
    apply Rle_trans with 1; [|rewrite Rabs_pos_eq; apply IZR_le; lia]. change 1 with (bpow radix2 0). apply bpow_le. lia. }
  assert (H1 := HU ((r + 1) * (r + 1))%Z ltac:(nia)). assert (H2 := HU (r * r)%Z ltac:(nia)).
  rewrite (Rabs_pos_eq (IZR _)) in H1 by (apply IZR_le; nia). rewrite (Rabs_pos_eq (IZR (r * r))) in H2 by (apply IZR_le; nia).
  set (u := / 2 * bpow radix2 (-53 + 1)) in *.
  assert (Hu : 0 < u /\ u * 4294967296 < 1).
  { unfold u. assert (E : bpow radix2 (-53 + 1) * 4503599627370496 = 1).
    { change 4503599627370496 with (bpow radix2 52). rewrite <- bpow_plus. reflexivity. }
    assert (P := bpow_gt_0 radix2 (-53 + 1)). lra. }
  apply Rabs_le_inv in H1, H2. rewrite !mult_IZR, !plus_IZR in *.
  assert (Hr1 : 1 <= IZR r <= 2147483648) by (split; apply IZR_le; lia).
  set (x := IZR r) in *. 
  assert (K : u * ((x + 1) * (x + 1)) + u * (x * x) < 2 * x + 1).
  { assert (u * ((x + 1) * (x + 1)) <= u * ((x + 1) * 2147483649)) by (apply Rmult_le_compat_l; [lra|]; nra).
    assert (u * (x * x) <= u * (x * 2147483648)) by (apply Rmult_le_compat_l; [lra|]; nra). nra. }
  nra.
Qed.

(** The test computes the rounded sum of the (wrapped) differences. *)
Lemma i32_sub_into_rep a b : rep (i32_into_f64 (i32_sub a b)) (IZR (wrap32 (i32_val a - i32_val b))).
Proof.
  unfold i32_into_f64, i32_sub. rewrite i32_of_val. apply rep_of_Z.
  assert (H := wrap32_range (i32_val a - i32_val b)). unfold i32_range in H. apply andb_true_iff in H as [H1 H2].
  apply Z.leb_le in H1, H2. change (2 ^ 53)%Z with 9007199254740992%Z. lia.
Qed.

Lemma wrap32_abs z : (Z.abs (wrap32 z) <= 2147483648)%Z.
Proof.
  assert (H := wrap32_range z). unfold i32_range in H. apply andb_true_iff in H as [H1 H2]. apply Z.leb_le in H1, H2. lia.
Qed.

Lemma rep_sq x g : (Z.abs g <= 2147483648)%Z -> rep x (IZR g) -> rep (f64_mul x x) (rsq g).
Proof.
  intros Hg Hx. unfold rsq. rewrite mult_IZR. apply rep_mul; try exact Hx. rewrite <- mult_IZR.
  apply (rnd_bound _ (2 ^ 62)); [lia|]. rewrite <- abs_IZR. apply IZR_le. rewrite Z.abs_mul. change (2 ^ 62)%Z with (2147483648 * 2147483648)%Z. nia.
Qed.

Lemma rsq_bound' g : (Z.abs g <= 2147483648)%Z -> 0 <= rsq g <= unit62 1.
Proof.
  intros Hg. split; [apply rsq_nonneg|]. unfold rsq. rewrite <- unit62_format by lia. apply rnd_le.
  unfold unit62. rewrite Rmult_1_l. change (bpow radix2 62) with (IZR (2147483648 * 2147483648)). apply IZR_le.
  rewrite <- (Z.abs_eq (g * g)) by apply Z.square_nonneg. rewrite Z.abs_mul. nia.
Qed.

Lemma wdiffs_abs D (p c : svec i32 D) : Forall (fun g => (Z.abs g <= 2147483648)%Z) (wdiffs p c).
Proof. induction D as [|D IH]; cbn [wdiffs]; constructor; [apply wrap32_abs|apply IH]. Qed.

Lemma wdiffs_length D (p c : svec i32 D) : length (wdiffs p c) = D.
Proof. induction D as [|D IH]; cbn [wdiffs length]; [reflexivity|]. now rewrite IH. Qed.

Lemma vlist_len {N} D (v : svec N D) : length (vlist v) = D.
Proof. induction D as [|D IH]; cbn; [reflexivity|]. now rewrite IH. Qed.

Lemma squares_rep D (p c : svec i32 D) :
  Forall2 rep (map (fun x => f64_mul x x) (vlist (vmap i32_into_f64 (vmap2 i32_sub p c)))) (map rsq (wdiffs p c)).
Proof.
  induction D as [|D IH]; cbn [wdiffs map vmap vmap2 vlist fst snd]; [apply Forall2_nil|]. apply Forall2_cons; [|apply IH].
  apply rep_sq; [apply wrap32_abs|apply i32_sub_into_rep].
Qed.

Lemma delta_rep D (p c : svec i32 (Datatypes.S D)) : (Z.of_nat D < 2 ^ 53)%Z ->
  rep (sq_mag f64_arith (vmap i32_into_f64 (vmap2 i32_sub p c))) (rgap2 (wdiffs p c)).
Proof.
  intros HD. unfold sq_mag. cbn [vmap vmap2 fst snd wdiffs rgap2 a_add a_mul f64_arith].
  assert (H := squares_rep D (snd p) (snd c)). 
  apply (fold_add_rep _ _ _ _ 1).
  - apply rep_sq; [apply wrap32_abs|apply i32_sub_into_rep].
  - apply rsq_bound', wrap32_abs.
  - exact H.
  - assert (Hg := wdiffs_abs D (snd p) (snd c)). clear -Hg. induction Hg; cbn; constructor; auto. now apply rsq_bound'.
  - lia.
  - rewrite map_length, vlist_len. lia.
Qed.

Lemma test_iff D (s : sphere i32 (Datatypes.S D)) p : (Z.of_nat D < 2 ^ 53)%Z ->
  i32_sphere_test s p = true <-> rgap2 (wdiffs p (center s)) <= rsq (i32_val (radius s)).
Proof.
  intros HD. unfold i32_sphere_test, sphere_intersects_point, f64_le. cbn [a_sub i32_arith a_mul f64_arith].
  assert (Hr := i32_bounds (radius s)).
  assert (Hrep : rep (i32_into_f64 (radius s)) (IZR (i32_val (radius s)))) by (apply rep_of_Z; change (2 ^ 53)%Z with 9007199254740992%Z; lia).
  rewrite (rep_le _ _ _ _ (delta_rep D p (center s) HD) (rep_sq _ (i32_val (radius s)) ltac:(lia) Hrep)).
  destruct (Rle_bool_spec (rgap2 (wdiffs p (center s))) (rsq (i32_val (radius s)))); split; auto; try discriminate. lra.
Qed.

(** Accepted points are not wrapped and lie within the radius in every dimension. *)
Lemma accepted_near D (s : sphere i32 (Datatypes.S D)) p : (Z.of_nat D < 2 ^ 53)%Z -> (0 <= i32_val (radius s))%Z ->
  i32_sphere_test s p = true -> Forall (fun g => (Z.abs g <= i32_val (radius s))%Z) (wdiffs p (center s)).
Proof.
  intros HD Hr Ht. apply (test_iff D s p HD) in Ht. apply Forall_forall. intros g Hg.
  assert (Ha := wdiffs_abs _ p (center s)). rewrite Forall_forall in Ha. assert (Hb := i32_bounds (radius s)).
  apply rsq_strict; [now apply Ha|lia|]. apply Rle_trans with (2 := Ht). now apply rgap2_ge.
Qed.

Lemma near_diffs D (p c : svec i32 D) r : (0 <= r)%Z -> ball_in_range r c ->
  Forall (fun g => (Z.abs g <= r)%Z) (wdiffs p c) <-> Forall (fun g => (Z.abs g <= r)%Z) (diffs p c).
Proof.
  intros Hr. induction D as [|D IH]; cbn [wdiffs diffs ball_in_range]; [intros; split; constructor|].
  intros [[H1 H2] H3]. rewrite !Forall_cons_iff, (IH _ _ H3). rewrite (wrap_diff _ _ r (i32_bounds (fst p)) H1 H2 Hr). tauto.
Qed.

Lemma near_same D (p c : svec i32 D) r : (0 <= r <= 2147483647)%Z -> ball_in_range r c ->
  Forall (fun g => (Z.abs g <= r)%Z) (diffs p c) -> wdiffs p c = diffs p c.
Proof.
  intros Hr. induction D as [|D IH]; cbn [wdiffs diffs ball_in_range]; [reflexivity|].
  intros [_ H3] H. apply Forall_cons_iff in H as [H4 H5]. rewrite (IH _ _ H3 H5). f_equal. apply wrap32_small. lia.
Qed.

Lemma near_in_bounds D (s : sphere i32 D) p : (0 <= i32_val (radius s))%Z -> ball_in_range (i32_val (radius s)) (center s) ->
  Forall (fun g => (Z.abs g <= i32_val (radius s))%Z) (diffs p (center s)) <-> in_box i32_ops (i32_sphere_bounds s) p.
Proof.
  destruct s as [c r]. cbn [radius center]. unfold in_box, i32_sphere_bounds, sphere_bounds. cbn [radius center bmin bmax a_sub a_add i32_arith].
  intros Hr. induction D as [|D IH]; cbn [diffs ball_in_range vmap].
  - intros _. split; [intros _; split; apply vec_le_nil|constructor].
  - intros [[H1 H2] H3]. rewrite !vec_le_cons, Forall_cons_iff, (IH (snd c) (snd p) H3). cbn [fst snd].
    cbn [s_le i32_ops]. rewrite !Z.leb_le. unfold i32_sub, i32_add. rewrite !i32_of_val.
    assert (Hc := i32_bounds (fst c)). rewrite !wrap32_small by lia.
    assert (E : (Z.abs (i32_val (fst p) - i32_val (fst c)) <= i32_val r <->
      i32_val (fst c) - i32_val r <= i32_val (fst p) /\ i32_val (fst p) <= i32_val (fst c) + i32_val r)%Z) by lia.
    rewrite E. tauto.
Qed.

Lemma zsq_member l g : In g l -> (g * g <= zsq l)%Z.
Proof.
  unfold zsq. induction l as [|x l IH]; [intros []|]. cbn [map fold_right]. assert (Hn := squares_nonneg l).
  assert (Hx := Z.square_nonneg x). intros [->|Hin]; [lia|]. specialize (IH Hin). lia.
Qed.

(** Exact for radii whose square is a double. *)
Lemma test_exact D (s : sphere i32 (Datatypes.S D)) p : (Z.of_nat D < 2 ^ 53)%Z ->
  (0 <= i32_val (radius s) <= 94906265)%Z -> ball_in_range (i32_val (radius s)) (center s) ->
  i32_sphere_test s p = true <-> (zsq (diffs p (center s)) <= i32_val (radius s) * i32_val (radius s))%Z.
Proof.
  intros HD Hr HB. set (r := i32_val (radius s)) in *.
  assert (Hrr : (0 <= r * r < 2 ^ 53)%Z). { change (2 ^ 53)%Z with 9007199254740992%Z. nia. }
  split.
  - intros Ht. assert (Hn := accepted_near D s p HD ltac:(unfold r in *; lia) Ht). fold r in Hn.
    apply (near_diffs _ _ _ r ltac:(lia) HB) in Hn. assert (E := near_same _ _ _ r ltac:(lia) HB Hn).
    apply (test_iff D s p HD) in Ht. rewrite E in Ht. fold r in Ht. unfold rsq in Ht. rewrite rnd_int in Ht by (rewrite Z.abs_eq; lia).
    destruct (Z_le_gt_dec (zsq (diffs p (center s))) (r * r)) as [|Hgt]; [assumption|]. exfalso.
    assert (HL := rgap2_lower (r * r + 1) (diffs p (center s)) ltac:(lia) ltac:(unfold zsq in Hgt; lia)).
    rewrite plus_IZR in HL. lra.
  - intros Hz. assert (Hn : Forall (fun g => (Z.abs g <= r)%Z) (diffs p (center s))).
    { apply Forall_forall. intros g Hg. apply zsq_member in Hg. assert (g * g <= r * r)%Z by lia.
      destruct (Z.abs_spec g) as [[? ->]|[? ->]]; nia. }
    assert (E := near_same _ _ _ r ltac:(lia) HB Hn). apply (test_iff D s p HD). rewrite E. fold r.
    rewrite rgap2_exact by (unfold zsq in Hz; lia). unfold rsq. rewrite rnd_int by (rewrite Z.abs_eq; lia). apply IZR_le. exact Hz.
Qed.

(** The bounding box of the sphere meets every box that holds an accepted point. *)
Lemma sphere_lawful D (s : sphere i32 (Datatypes.S D)) VO : (Z.of_nat D < 2 ^ 53)%Z ->
  (0 <= i32_val (radius s))%Z -> ball_in_range (i32_val (radius s)) (center s) ->
  filter_lawful (point_params i32_ops VO) (fun k => k) (box_incl i32_ops) any_key (test_bounds (i32_sphere_filter s)) (test_key (i32_sphere_filter s)).
Proof.
  intros HD Hr HB b k _ Hk [H1 H2]. cbn in Hk, H1, H2.
  assert (Hin : in_box i32_ops (i32_sphere_bounds s) k).
  { apply near_in_bounds; auto. apply near_diffs; auto. apply (accepted_near D s k HD Hr Hk). }
  destruct Hin as [H3 H4]. apply (intersects_box_iff i32_ops). split; eapply (vec_le_trans i32_ops i32_laws); eassumption.
Qed.
