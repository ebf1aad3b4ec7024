(** Distances and spheres over unsigned coordinates. *)
From Coq Require Import Reals Lra Psatz.
From Flocq Require Import Core Relative.
From Coq Require Import Floats.SpecFloat.
From Verif Require Export UProof USpec.
From Verif Require Import SphereProof BoxDistProof BoxJoinProof IterProof RealSpec.
Local Existing Instance FloatReal.Hprec.
Local Existing Instance FloatReal.Hmax.
Local Open Scope Z_scope.

Section Uint.
Context (w : nat).
Notation N := (uint w).
Notation val := (uint_val w).
Notation SO := (uint_ops w).
Notation size := (uint_size w).
Notation CO := (uint_checked_ops w).
Notation UL := (uint_int_laws w).

Lemma vec_le_val D (p a : svec N (Datatypes.S D)) : vec_le SO p a <-> val (fst p) <= val (fst a) /\ vec_le SO (snd p) (snd a).
Proof. rewrite vec_le_cons. cbn [uint_ops s_le]. rewrite Z.leb_le. reflexivity. Qed.

(** *** Overflow checks *)
Lemma checked_sub_iff D (a p : svec N D) :
  (vec_le SO p a /\ exists l, checked_sub CO a p = Ok l /\ map val l = map (fun xy => val (fst xy) - val (snd xy)) (vzip a p)) \/
  (~ vec_le SO p a /\ checked_sub CO a p = Panic).
Proof.
  induction D as [|D IH]; cbn [checked_sub].
  - left. split; [apply vec_le_nil|]. exists []. auto.
  - change (c_sub CO (fst a) (fst p)) with (uint_checked w (val (fst a) - val (fst p))).
    assert (Ha := uint_bounds w (fst a)). assert (Hp := uint_bounds w (fst p)).
    destruct (Z_le_gt_dec (val (fst p)) (val (fst a))) as [Hle|Hgt].
    + assert (E : uint_checked w (val (fst a) - val (fst p)) = Ok (uint_of w (val (fst a) - val (fst p)))) by (apply uint_checked_ok; split; [lia|reflexivity]).
      rewrite E. cbn [bind]. destruct (IH (snd a) (snd p)) as [(Hv & l & -> & El)|(Hv & ->)]; cbn [bind].
      * left. split; [apply vec_le_val; auto|]. eexists. split; [reflexivity|]. cbn [map vzip vlist combine fst snd].
        rewrite uint_of_small by lia. f_equal. exact El.
      * right. split; [|reflexivity]. intros H. apply vec_le_val in H. tauto.
    + right. split; [intros H; apply vec_le_val in H; lia|]. unfold uint_checked.
      assert (E : uint_range w (val (fst a) - val (fst p)) = false) by (apply not_true_iff_false; rewrite uint_range_iff; lia).
      now rewrite E.
Qed.

Definition zsq_of (l : list N) : Z := fold_right Z.add 0 (map (fun x => val x * val x) l).
Lemma zsq_of_nonneg l : 0 <= zsq_of l.
Proof. unfold zsq_of. induction l; cbn; nia. Qed.

Lemma uchecked_cases z : (0 <= z < size /\ uint_checked w z = Ok (uint_of w z)) \/ (~ 0 <= z < size /\ uint_checked w z = Panic).
Proof.
  unfold uint_checked. destruct (uint_range w z) eqn:E; [left|right]; split; try reflexivity.
  - now apply uint_range_iff.
  - rewrite <- uint_range_iff, E. discriminate.
Qed.

Lemma checked_sum_iff l acc :
  (val acc + zsq_of l < size /\ exists r, checked_sum CO acc l = Ok r /\ val r = val acc + zsq_of l) \/
  (size <= val acc + zsq_of l /\ checked_sum CO acc l = Panic).
Proof.
  revert acc; induction l as [|x l IH]; intros acc; unfold zsq_of in *; cbn [checked_sum map fold_right].
  - left. assert (H := uint_bounds w acc). split; [lia|]. exists acc. split; [reflexivity|lia].
  - change (c_mul CO x x) with (uint_checked w (val x * val x)).
    assert (Hn := zsq_of_nonneg l). unfold zsq_of in Hn. assert (Ha := uint_bounds w acc). assert (Hx := Z.square_nonneg (val x)).
    destruct (uchecked_cases (val x * val x)) as [(H1 & ->)|(H1 & ->)]; cbn [bind]; [|right; split; [lia|reflexivity]].
    change (c_add CO acc (uint_of w (val x * val x))) with (uint_checked w (val acc + val (uint_of w (val x * val x)))).
    rewrite (uint_of_small w (val x * val x)) by lia.
    destruct (uchecked_cases (val acc + val x * val x)) as [(H2 & ->)|(H2 & ->)]; cbn [bind]; [|right; split; [lia|reflexivity]].
    destruct (IH (uint_of w (val acc + val x * val x))) as [(H3 & r & E & Er)|(H3 & E)]; rewrite uint_of_small in H3 by lia.
    + left. split; [lia|]. exists r. split; [exact E|]. rewrite uint_of_small in Er by lia. lia.
    + right. split; [lia|exact E].
Qed.

Lemma point_dist_checked_iff D (a p : svec N (Datatypes.S D)) :
  (vec_le SO p a /\ zdist2 val a p < size /\ exists r, point_dist_sq_checked CO a p = Ok r /\ val r = zdist2 val a p) \/
  ((~ vec_le SO p a \/ size <= zdist2 val a p) /\ point_dist_sq_checked CO a p = Panic).
Proof.
  unfold point_dist_sq_checked. destruct (checked_sub_iff _ a p) as [(Hv & l & -> & El)|(Hv & ->)]; cbn [bind]; [|right; auto].
  assert (Es : zdist2 val a p = zsq_of l).
  { unfold zdist2, zsq_of. rewrite <- (map_map (fun xy => val (fst xy) - val (snd xy)) (fun z => z * z)), <- El, map_map. reflexivity. }
  rewrite Es. destruct l as [|x l]; [discriminate|]. cbn [checked_sq_mag]. clear El Es.
  change (c_mul CO x x) with (uint_checked w (val x * val x)). unfold zsq_of. cbn [map fold_right]. fold (zsq_of l). assert (Hn := zsq_of_nonneg l).
  assert (Hx := Z.square_nonneg (val x)).
  destruct (uchecked_cases (val x * val x)) as [(H1 & ->)|(H1 & ->)]; cbn [bind]; [|right; split; [lia|reflexivity]].
  destruct (checked_sum_iff l (uint_of w (val x * val x))) as [(H3 & r & E & Er)|(H3 & E)]; rewrite uint_of_small in H3 by lia.
  - left. split; [exact Hv|]. split; [lia|]. exists r. split; [exact E|]. rewrite uint_of_small in Er by lia. exact Er.
  - right. split; [lia|exact E].
Qed.

Notation clamp b p := (cw_min SO (cw_max SO p (bmin b)) (bmax b)).

Lemma clamp_above D (b : saabb N D) p : valid_box SO b -> (vec_le SO p (clamp b p) <-> vec_le SO p (bmax b)).
Proof.
  destruct b as [mn mx]. unfold valid_box. cbn [bmin bmax]. induction D as [|D IH].
  - intros _. split; intros _; apply vec_le_nil.
  - intros Hv. apply vec_le_val in Hv as [H1 H2]. rewrite !vec_le_val.
    cbn [cw_min cw_max vmap2 fst snd]. rewrite us_min_val, us_max_val.
    assert (E : val (fst p) <= Z.min (Z.max (val (fst p)) (val (fst mn))) (val (fst mx)) <-> val (fst p) <= val (fst mx)) by lia.
    split; intros [G1 G2]; (split; [apply E, G1|]).
    + apply (IH (snd mn) (snd mx) (snd p) H2), G2.
    + apply (IH (snd mn) (snd mx) (snd p) H2), G2.
Qed.

Lemma box_dist_checked_iff D (b : saabb N (Datatypes.S D)) p m : valid_box SO b -> least_dist2 SO val b p m ->
  (vec_le SO p (bmax b) /\ m < size /\ exists r, box_dist_sq_checked SO CO b p = Ok r /\ val r = m) \/
  ((~ vec_le SO p (bmax b) \/ size <= m) /\ box_dist_sq_checked SO CO b p = Panic).
Proof.
  intros Hv Hm. unfold box_dist_sq_checked. rewrite <- (clamp_above _ b p Hv).
  assert (E : m = zdist2 val (clamp b p) p).
  { destruct Hm as [(q & Hq & Eq) Hmin]. assert (H1 : zdist2 val (clamp b p) p <= zdist2 val q p) by exact (clamp_nearest SO _ val _ _ UL _ b p q Hq).
    assert (H2 : m <= zdist2 val (clamp b p) p) by exact (Hmin _ (clamp_in SO _ val _ _ UL _ b p q Hq)). lia. }
  rewrite E. destruct (point_dist_checked_iff D (clamp b p) p) as [(H1 & H2 & H3)|H]; auto.
Qed.

(** *** Spheres *)
Fixpoint udiffs {D} : svec N D -> svec N D -> list Z :=
  match D with
  | 0%nat => fun _ _ => []
  | Datatypes.S D => fun p c => (val (fst p) - val (fst c)) :: udiffs (snd p) (snd c)
  end.
Definition wrapped (l : list Z) : list Z := map (fun g => g mod size) l.

Lemma zdist2_udiffs D (p c : svec N D) : zdist2 val p c = zsq (udiffs p c).
Proof.
  induction D as [|D IH]; [reflexivity|]. unfold zsq. cbn [udiffs map fold_right]. fold (zsq (udiffs (snd p) (snd c))). rewrite <- IH. reflexivity.
Qed.

Lemma mod_diff p c r : 0 <= p < size -> 0 <= c - r -> c + r < size -> 0 <= r -> ((p - c) mod size <= r <-> 0 <= p - c <= r).
Proof.
  intros Hp H1 H2 Hr. assert (Hs := uint_size_pos w). destruct (Z_le_gt_dec c p) as [Hc|Hc].
  - rewrite Z.mod_small by lia. lia.
  - assert (E : (p - c) mod size = p - c + size). { rewrite <- (Z.mod_small (p - c + size) size) by lia. rewrite <- Z.add_mod_idemp_r, Z.mod_same, Z.add_0_r by lia. reflexivity. }
    rewrite E. lia.
Qed.

Lemma unear_diffs D (p c : svec N D) r : 0 <= r -> uball_in_range w r c ->
  (Forall (fun g => g <= r) (wrapped (udiffs p c)) <-> Forall (fun g => 0 <= g <= r) (udiffs p c)).
Proof.
  intros Hr. unfold wrapped. induction D as [|D IH]; cbn [udiffs map uball_in_range]; [intros; split; constructor|].
  intros [[H1 H2] H3]. fold (uint_size w) in H2. rewrite !Forall_cons_iff, (IH _ _ H3). rewrite (mod_diff _ _ r (uint_bounds w (fst p)) H1 H2 Hr). tauto.
Qed.

Lemma unear_same D (p c : svec N D) r : uball_in_range w r c -> Forall (fun g => 0 <= g <= r) (udiffs p c) -> wrapped (udiffs p c) = udiffs p c.
Proof.
  unfold wrapped. induction D as [|D IH]; cbn [udiffs map uball_in_range]; [reflexivity|].
  intros [[H1 H2] H3] H. fold (uint_size w) in H2. apply Forall_cons_iff in H as [H4 H5]. rewrite (IH _ _ H3 H5). f_equal. apply Z.mod_small. lia.
Qed.

Lemma unear_in_bounds D (s : sphere N D) p : uball_in_range w (val (radius s)) (center s) ->
  Forall (fun g => 0 <= g <= val (radius s)) (udiffs p (center s)) <-> in_box SO (uint_sphere_bounds w s) p /\ vec_le SO (center s) p.
Proof.
  destruct s as [c r]. cbn [radius center]. unfold in_box, uint_sphere_bounds, sphere_bounds. cbn [radius center bmin bmax a_sub a_add uint_arith].
  assert (Hr := uint_bounds w r).
  induction D as [|D IH]; cbn [udiffs uball_in_range vmap].
  - intros _. split; [intros _; split; [split|]; apply vec_le_nil|constructor].
  - intros [[H1 H2] H3]. fold (uint_size w) in H2. rewrite !vec_le_val, Forall_cons_iff, (IH (snd c) (snd p) H3). cbn [fst snd].
    unfold uint_sub. rewrite !uint_of_small by lia.
    assert (E : 0 <= val (fst p) - val (fst c) <= val r <->
      (val (fst c) - val r <= val (fst p) /\ val (fst p) <= val (fst c) + val r) /\ val (fst c) <= val (fst p)) by lia.
    rewrite E. tauto.
Qed.

Context (Hw : (w <= 32)%nat).
Local Open Scope R_scope.

(** Multiples [n * 2^64] stay doubles. *)
Definition unit64 (n : Z) : R := IZR n * bpow radix2 64.

Lemma unit64_format n : (0 <= n <= 2 ^ 53)%Z -> rnd (unit64 n) = unit64 n.
Proof.
  intros Hn. apply round_generic; [apply valid_rnd_N|].
  destruct (Z.eq_dec n (2 ^ 53)) as [->|].
  - unfold unit64. change (IZR (2 ^ 53)) with (bpow radix2 53). rewrite <- bpow_plus. apply generic_format_bpow. vm_compute. discriminate.
  - apply generic_format_FLT. exists (Float radix2 n 64); [reflexivity| |cbn; lia]. cbn. change (Zpower_pos 2 53) with (2 ^ 53)%Z. lia.
Qed.

Lemma unit64_lt n : (0 <= n <= 2 ^ 53)%Z -> unit64 n < maxf.
Proof.
  intros Hn. apply Rle_lt_trans with (unit64 (2 ^ 53)).
  - unfold unit64. apply Rmult_le_compat_r; [apply bpow_ge_0|]. apply IZR_le. lia.
  - unfold unit64. change (IZR (2 ^ 53)) with (bpow radix2 53). rewrite <- bpow_plus. apply bpow_lt. lia.
Qed.

Lemma fold_add_rep64 l rs x r n : rep x r -> 0 <= r <= unit64 n -> Forall2 rep l rs -> Forall (fun y => 0 <= y <= unit64 1) rs ->
  (0 <= n)%Z -> (n + Z.of_nat (length l) <= 2 ^ 53)%Z -> rep (fold_left f64_add l x) (rsum rs r).
Proof.
  intros Hx Hr Hl; revert x r n Hx Hr; induction Hl as [|y ry l rs Hy Hl IH]; intros x r n Hx Hr Hb Hn Hlen; [exact Hx|].
  inversion Hb as [|? ? Hb1 Hb2]; subst. cbn [fold_left]. unfold rsum. cbn [fold_left]. fold (rsum rs (rnd (r + ry))).
  assert (Hle : 0 <= rnd (r + ry) <= unit64 (n + 1)).
  { split; [apply rnd_nonneg; lra|]. rewrite <- unit64_format by (cbn [length] in Hlen; lia). apply rnd_le.
    unfold unit64 in *. rewrite plus_IZR. lra. }
  apply (IH _ _ (n + 1)%Z); auto.
  - apply rep_add; auto. rewrite Rabs_pos_eq by lra. apply Rle_lt_trans with (unit64 (n + 1)); [lra|]. apply unit64_lt. cbn [length] in Hlen. lia.
  - lia.
  - cbn [length] in Hlen. lia.
Qed.

Lemma usq_strict g r : (0 <= g <= 4294967296)%Z -> (0 <= r <= 4294967296)%Z -> rsq g <= rsq r -> (g <= r)%Z.
Proof.
  intros Hg Hr H. destruct (Z_le_gt_dec g r) as [|Hgt]; [assumption|]. exfalso. unfold rsq in H.
  assert (Hm : rnd (IZR ((r + 1) * (r + 1))) <= rnd (IZR (g * g))) by (apply rnd_le, IZR_le; nia).
  assert (He1 : rnd (IZR ((r + 1) * (r + 1))) <= rnd (IZR (r * r))) by lra. clear H Hm.
  destruct (Z.eq_dec r 0) as [->|Hr0].
  { cbn in He1. change (1 * 1)%Z with 1%Z in *. rewrite rnd_0 in He1.
    rewrite (rnd_int 1) in He1 by (vm_compute; discriminate). lra. }
  assert (HU : forall z, (1 <= z)%Z -> Rabs (rnd (IZR z) - IZR z) <= / 2 * bpow radix2 (-53 + 1) * Rabs (IZR z)).
  { intros z Hz. unfold rnd. change fexp64 with (FLT_exp (-1074) 53). apply relative_error_N_FLT; [lia|].
    apply Rle_trans with 1; [|rewrite Rabs_pos_eq; apply IZR_le; lia]. change 1 with (bpow radix2 0). apply bpow_le. lia. }
  assert (H1 := HU ((r + 1) * (r + 1))%Z ltac:(nia)). assert (H2 := HU (r * r)%Z ltac:(nia)).
  rewrite (Rabs_pos_eq (IZR _)) in H1 by (apply IZR_le; nia). rewrite (Rabs_pos_eq (IZR (r * r))) in H2 by (apply IZR_le; nia).
  set (u := / 2 * bpow radix2 (-53 + 1)) in *.
  assert (Hu : 0 < u /\ u * 8589934592 < 1).
  { unfold u. assert (E : bpow radix2 (-53 + 1) * 4503599627370496 = 1).
    { change 4503599627370496 with (bpow radix2 52). rewrite <- bpow_plus. reflexivity. }
    assert (P := bpow_gt_0 radix2 (-53 + 1)). lra. }
  apply Rabs_le_inv in H1, H2. rewrite !mult_IZR, !plus_IZR in *.
  assert (Hr1 : 1 <= IZR r <= 4294967296) by (split; apply IZR_le; lia).
  set (x := IZR r) in *.
  assert (K : u * ((x + 1) * (x + 1)) + u * (x * x) < 2 * x + 1).
  { assert (u * ((x + 1) * (x + 1)) <= u * ((x + 1) * 4294967297)) by (apply Rmult_le_compat_l; [lra|]; nra).
    assert (u * (x * x) <= u * (x * 4294967296)) by (apply Rmult_le_compat_l; [lra|]; nra). nra. }
  nra.
Qed.

Lemma mod_small_range z : (0 <= z mod size <= 4294967296)%Z.
Proof. assert (H := Z.mod_pos_bound z size (uint_size_pos w)). assert (Hs := size_le w Hw). lia. Qed.

Lemma urep_sq x g : (0 <= g <= 4294967296)%Z -> rep x (IZR g) -> rep (f64_mul x x) (rsq g).
Proof.
  intros Hg Hx. unfold rsq. rewrite mult_IZR. apply rep_mul; try exact Hx. rewrite <- mult_IZR.
  apply (rnd_bound _ (2 ^ 64)); [lia|]. rewrite <- abs_IZR. apply IZR_le. rewrite Z.abs_eq by nia. change (2 ^ 64)%Z with (4294967296 * 4294967296)%Z. nia.
Qed.
Lemma usq_bound g : (0 <= g <= 4294967296)%Z -> 0 <= rsq g <= unit64 1.
Proof.
  intros Hg. split; [apply rsq_nonneg|]. unfold rsq. rewrite <- unit64_format by lia. apply rnd_le.
  unfold unit64. rewrite Rmult_1_l. change (bpow radix2 64) with (IZR (4294967296 * 4294967296)). apply IZR_le. nia.
Qed.

Lemma usub_rep a b : rep (uint_into_f64 w (uint_sub w a b)) (IZR ((val a - val b) mod size)).
Proof.
  unfold uint_into_f64, uint_sub. rewrite uint_of_val. apply rep_of_Z. assert (H := mod_small_range (val a - val b)).
  change (2 ^ 53)%Z with 9007199254740992%Z. lia.
Qed.

Lemma wrapped_range D (p c : svec N D) : Forall (fun g => (0 <= g <= 4294967296)%Z) (wrapped (udiffs p c)).
Proof. unfold wrapped. apply Forall_map, Forall_forall. intros g _. apply mod_small_range. Qed.

Lemma usquares_rep D (p c : svec N D) :
  Forall2 rep (map (fun x => f64_mul x x) (vlist (vmap (uint_into_f64 w) (vmap2 (uint_sub w) p c)))) (map rsq (wrapped (udiffs p c))).
Proof.
  unfold wrapped. induction D as [|D IH]; cbn [udiffs map vmap vmap2 vlist fst snd]; [apply Forall2_nil|]. apply Forall2_cons; [|apply IH].
  apply urep_sq; [apply mod_small_range|apply usub_rep].
Qed.

Lemma udelta_rep D (p c : svec N (Datatypes.S D)) : (Z.of_nat D < 2 ^ 53)%Z ->
  rep (sq_mag f64_arith (vmap (uint_into_f64 w) (vmap2 (uint_sub w) p c))) (rgap2 (wrapped (udiffs p c))).
Proof.
  intros HD. unfold sq_mag. cbn [vmap vmap2 fst snd udiffs wrapped map rgap2 a_add a_mul f64_arith].
  assert (H := usquares_rep D (snd p) (snd c)).
  apply (fold_add_rep64 _ _ _ _ 1).
  - apply urep_sq; [apply mod_small_range|apply usub_rep].
  - apply usq_bound, mod_small_range.
  - exact H.
  - apply Forall_map. eapply Forall_impl; [|apply wrapped_range]. intros g Hg. now apply usq_bound.
  - lia.
  - rewrite map_length, vlist_len. lia.
Qed.

Lemma utest_iff D (s : sphere N (Datatypes.S D)) p : (Z.of_nat D < 2 ^ 53)%Z ->
  uint_sphere_test w s p = true <-> rgap2 (wrapped (udiffs p (center s))) <= rsq (val (radius s)).
Proof.
  intros HD. unfold uint_sphere_test, sphere_intersects_point, f64_le. cbn [a_sub uint_arith a_mul f64_arith].
  assert (Hr := uint_bounds w (radius s)). assert (Hs := size_le w Hw).
  assert (Hrep : rep (uint_into_f64 w (radius s)) (IZR (val (radius s)))) by (apply rep_of_Z; change (2 ^ 53)%Z with 9007199254740992%Z; lia).
  rewrite (rep_le _ _ _ _ (udelta_rep D p (center s) HD) (urep_sq _ (val (radius s)) ltac:(lia) Hrep)).
  destruct (Rle_bool_spec (rgap2 (wrapped (udiffs p (center s)))) (rsq (val (radius s)))); split; auto; try discriminate. lra.
Qed.

Lemma uaccepted_near D (s : sphere N (Datatypes.S D)) p : (Z.of_nat D < 2 ^ 53)%Z ->
  uint_sphere_test w s p = true -> Forall (fun g => (g <= val (radius s))%Z) (wrapped (udiffs p (center s))).
Proof.
  intros HD Ht. apply (utest_iff D s p HD) in Ht. apply Forall_forall. intros g Hg.
  assert (Ha := wrapped_range _ p (center s)). rewrite Forall_forall in Ha. assert (Hb := uint_bounds w (radius s)). assert (Hs := size_le w Hw).
  apply usq_strict; [now apply Ha|lia|]. apply Rle_trans with (2 := Ht). now apply rgap2_ge.
Qed.

Lemma uaccepted_in D (s : sphere N (Datatypes.S D)) p : (Z.of_nat D < 2 ^ 53)%Z -> uball_in_range w (val (radius s)) (center s) ->
  uint_sphere_test w s p = true -> in_box SO (uint_sphere_bounds w s) p /\ vec_le SO (center s) p.
Proof.
  intros HD HB Ht. apply unear_in_bounds; [exact HB|]. apply unear_diffs; [apply uint_bounds|exact HB|]. now apply uaccepted_near.
Qed.

(** Exact for radii whose square is a double, among the points on the upper side of the center. *)
Lemma utest_exact D (s : sphere N (Datatypes.S D)) p : (Z.of_nat D < 2 ^ 53)%Z ->
  (val (radius s) <= 94906265)%Z -> uball_in_range w (val (radius s)) (center s) ->
  uint_sphere_test w s p = true <-> vec_le SO (center s) p /\ (zdist2 val p (center s) <= val (radius s) * val (radius s))%Z.
Proof.
  intros HD Hr HB. rewrite zdist2_udiffs. assert (Hr0 := uint_bounds w (radius s)). set (r := val (radius s)) in *.
  assert (Hrr : (0 <= r * r < 2 ^ 53)%Z). { change (2 ^ 53)%Z with 9007199254740992%Z. nia. }
  split.
  - intros Ht. split; [exact (proj2 (uaccepted_in D s p HD HB Ht))|]. assert (Hn := uaccepted_near D s p HD Ht). fold r in Hn.
    apply (unear_diffs _ _ _ r ltac:(lia) HB) in Hn. assert (E := unear_same _ _ _ r HB Hn).
    apply (utest_iff D s p HD) in Ht. rewrite E in Ht. fold r in Ht. unfold rsq in Ht. rewrite rnd_int in Ht by (rewrite Z.abs_eq; lia).
    destruct (Z_le_gt_dec (zsq (udiffs p (center s))) (r * r)) as [|Hgt]; [assumption|]. exfalso.
    assert (HL := rgap2_lower (r * r + 1) (udiffs p (center s)) ltac:(lia) ltac:(unfold zsq in Hgt; lia)).
    rewrite plus_IZR in HL. lra.
  - intros [Hge Hz]. assert (Hn : Forall (fun g => (0 <= g <= r)%Z) (udiffs p (center s))).
    { assert (Hp : Forall (fun g => (0 <= g)%Z) (udiffs p (center s))).
      { clear -Hge. revert Hge. generalize (center s). clear s. induction (Datatypes.S D) as [|n IH]; intros c Hge; cbn [udiffs]; constructor.
        - apply vec_le_val in Hge as [H _]. lia.
        - apply IH. apply vec_le_val in Hge as [_ H]. exact H. }
      rewrite Forall_forall in *. intros g Hg. split; [auto|]. specialize (Hp g Hg). apply zsq_member in Hg. nia. }
    assert (E := unear_same _ _ _ r HB Hn). apply (utest_iff D s p HD). rewrite E. fold r.
    rewrite rgap2_exact by (unfold zsq in Hz; lia). unfold rsq. rewrite rnd_int by (rewrite Z.abs_eq; lia). apply IZR_le. exact Hz.
Qed.

Lemma usphere_lawful D (s : sphere N (Datatypes.S D)) VO : (Z.of_nat D < 2 ^ 53)%Z -> uball_in_range w (val (radius s)) (center s) ->
  filter_lawful (point_params SO VO) (fun k => k) (box_incl SO) any_key (test_bounds (uint_sphere_filter w s)) (test_key (uint_sphere_filter w s)).
Proof.
  intros HD HB b k _ Hk [H1 H2]. cbn in Hk, H1, H2. destruct (uaccepted_in D s k HD HB Hk) as [[H3 H4] _].
  apply (intersects_box_iff SO). split; eapply (vec_le_trans SO (uint_laws w)); eassumption.
Qed.
End Uint.
