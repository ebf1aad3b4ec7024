(** [sq_dist_to]: exact arithmetic, and [i32] coordinates in [f64] arithmetic. *)
From Coq Require Import Lra.
From Flocq Require Import Core.
From Verif Require Export RealSpec DistProof FloatReal.

Section Gap.
Context {N : Type} (S : ScalarOps N) (val : N -> Z) (Hle : forall a b, s_le S a b = (val a <=? val b)%Z).

Definition gap (lmin lmax rmin rmax : N) : Z := Z.max (Z.max (val rmin - val lmax) (val lmin - val rmax)) 0.

Fixpoint gaps {D} : svec N D -> svec N D -> svec N D -> svec N D -> list Z :=
  match D with
  | 0 => fun _ _ _ _ => []
  | Datatypes.S D => fun lmin lmax rmin rmax =>
      gap (fst lmin) (fst lmax) (fst rmin) (fst rmax) :: gaps (snd lmin) (snd lmax) (snd rmin) (snd rmax)
  end.
Definition box_gaps {D} (a b : saabb N D) : list Z := gaps (bmin a) (bmax a) (bmin b) (bmax b).
Definition zgap2 {D} (a b : saabb N D) : Z := fold_right Z.add 0%Z (map (fun g => (g * g)%Z) (box_gaps a b)).

Definition tl_box {D} (a : saabb N (Datatypes.S D)) : saabb N D := {| bmin := snd (bmin a); bmax := snd (bmax a) |}.

Lemma zgap2_cons D (a b : saabb N (Datatypes.S D)) : zgap2 a b =
  (gap (fst (bmin a)) (fst (bmax a)) (fst (bmin b)) (fst (bmax b)) * gap (fst (bmin a)) (fst (bmax a)) (fst (bmin b)) (fst (bmax b))
   + zgap2 (tl_box a) (tl_box b))%Z.
Proof. reflexivity. Qed.

Lemma real_in_box_cons D (b : saabb N (Datatypes.S D)) x : real_in_box (fun n => IZR (val n)) b x <->
  (IZR (val (fst (bmin b))) <= fst x <= IZR (val (fst (bmax b))))%R /\ real_in_box (fun n => IZR (val n)) (tl_box b) (snd x).
Proof.
  unfold real_in_box. cbn [vlist tl_box bmin bmax]. split.
  - intros [H1 H2]. inversion H1; inversion H2; subst. auto.
  - intros [[H1 H2] [H3 H4]]. split; constructor; auto.
Qed.

Lemma rdist2_cons D (x y : svec R (Datatypes.S D)) :
  rdist2 x y = ((fst x - fst y) * (fst x - fst y) + rdist2 (snd x) (snd y))%R.
Proof. reflexivity. Qed.

Lemma valid_tl D (a : saabb N (Datatypes.S D)) : valid_box S a <->
  (val (fst (bmin a)) <= val (fst (bmax a)))%Z /\ valid_box S (tl_box a).
Proof. unfold valid_box. rewrite vec_le_cons, Hle, Z.leb_le. reflexivity. Qed.

Lemma gap_attained lmin lmax rmin rmax : (val lmin <= val lmax)%Z -> (val rmin <= val rmax)%Z ->
  exists x y, (IZR (val lmin) <= x <= IZR (val lmax))%R /\ (IZR (val rmin) <= y <= IZR (val rmax))%R /\
    ((x - y) * (x - y) = IZR (gap lmin lmax rmin rmax * gap lmin lmax rmin rmax))%R.
Proof.
  intros Hl Hr.
  assert (H : exists x y, (val lmin <= x <= val lmax)%Z /\ (val rmin <= y <= val rmax)%Z /\
     ((x - y) * (x - y) = gap lmin lmax rmin rmax * gap lmin lmax rmin rmax)%Z).
  { unfold gap. destruct (Z_le_gt_dec (val rmin) (val lmax)) as [H1|H1]; [destruct (Z_le_gt_dec (val lmin) (val rmax)) as [H2|H2]|].
    - exists (Z.max (val lmin) (val rmin)), (Z.max (val lmin) (val rmin)). split; [lia|]. split; [lia|].
      replace (Z.max (Z.max _ _) 0) with 0%Z by lia. ring.
    - exists (val lmin), (val rmax). split; [lia|]. split; [lia|]. replace (Z.max (Z.max _ _) 0) with (val lmin - val rmax)%Z by lia. ring.
    - exists (val lmax), (val rmin). split; [lia|]. split; [lia|]. replace (Z.max (Z.max _ _) 0) with (val rmin - val lmax)%Z by lia. ring. }
  destruct H as (x & y & Hx & Hy & E). exists (IZR x), (IZR y). rewrite <- minus_IZR, <- mult_IZR, E.
  split; [split; apply IZR_le; lia|]. split; [split; apply IZR_le; lia|reflexivity].
Qed.

Lemma gap_least lmin lmax rmin rmax x y : (IZR (val lmin) <= x <= IZR (val lmax))%R -> (IZR (val rmin) <= y <= IZR (val rmax))%R ->
  (IZR (gap lmin lmax rmin rmax * gap lmin lmax rmin rmax) <= (x - y) * (x - y))%R.
Proof.
  intros Hx Hy. unfold gap. rewrite mult_IZR.
  assert (Hc : (0 <= IZR (Z.max (Z.max (val rmin - val lmax) (val lmin - val rmax)) 0) <= Rabs (x - y))%R).
  { split; [apply IZR_le; lia|].
    destruct (Z_le_gt_dec (val rmin - val lmax) 0) as [H1|H1]; [destruct (Z_le_gt_dec (val lmin - val rmax) 0) as [H2|H2]|].
    - replace (Z.max (Z.max _ _) 0) with 0%Z by lia. apply Rabs_pos.
    - replace (Z.max (Z.max (val rmin - val lmax) (val lmin - val rmax)) 0) with (Z.max (val rmin - val lmax) (val lmin - val rmax)) by lia.
      destruct (Z_le_gt_dec (val rmin - val lmax) (val lmin - val rmax)).
      + rewrite Z.max_r by lia. rewrite minus_IZR. apply Rle_trans with (x - y)%R; [lra|apply RRle_abs].
      + rewrite Z.max_l by lia. rewrite minus_IZR. rewrite Rabs_minus_sym. apply Rle_trans with (y - x)%R; [lra|apply RRle_abs].
    - replace (Z.max (Z.max (val rmin - val lmax) (val lmin - val rmax)) 0) with (Z.max (val rmin - val lmax) (val lmin - val rmax)) by lia.
      destruct (Z_le_gt_dec (val rmin - val lmax) (val lmin - val rmax)).
      + rewrite Z.max_r by lia. rewrite minus_IZR. apply Rle_trans with (x - y)%R; [lra|apply RRle_abs].
      + rewrite Z.max_l by lia. rewrite minus_IZR. rewrite Rabs_minus_sym. apply Rle_trans with (y - x)%R; [lra|apply RRle_abs]. }
  assert (E : ((x - y) * (x - y) = Rabs (x - y) * Rabs (x - y))%R) by (rewrite <- Rabs_mult; symmetry; apply Rabs_pos_eq, Rle_0_sqr).
  rewrite E. apply Rmult_le_compat; lra.
Qed.

Lemma closest_gap D (a b : saabb N D) : valid_box S a -> valid_box S b -> closest2 (fun n => IZR (val n)) a b (IZR (zgap2 a b)).
Proof.
  induction D as [|D IH]; intros Ha Hb.
  - split; [|intros x y _ _; cbn; lra]. exists tt, tt. cbn. repeat split; constructor.
  - rewrite valid_tl in Ha, Hb. destruct Ha as [Ha Ha'], Hb as [Hb Hb']. destruct (IH _ _ Ha' Hb') as [(x & y & Hx & Hy & E) Hmin].
    rewrite zgap2_cons, plus_IZR. split.
    + destruct (gap_attained _ _ _ _ Ha Hb) as (x0 & y0 & Hx0 & Hy0 & E0).
      exists (x0, x), (y0, y). rewrite !real_in_box_cons, rdist2_cons. cbn [fst snd]. rewrite E0, E. auto.
    + intros x' y' Hx' Hy'. rewrite real_in_box_cons in Hx', Hy'. rewrite rdist2_cons. apply Rplus_le_compat.
      * apply gap_least; tauto.
      * apply Hmin; tauto.
Qed.

Lemma closest_unique D (a b : saabb N D) m m' : closest2 (fun n => IZR (val n)) a b m -> closest2 (fun n => IZR (val n)) a b m' -> m = m'.
Proof.
  intros [(x & y & Hx & Hy & <-) H] [(x' & y' & Hx' & Hy' & <-) H']. apply Rle_antisym; auto.
Qed.

Lemma squares_nonneg (l : list Z) : (0 <= fold_right Z.add 0 (map (fun g => g * g) l))%Z.
Proof. induction l as [|g l IH]; cbn; [lia|]. assert (H := Z.square_nonneg g). lia. Qed.
End Gap.

(** *** Exact arithmetic *)
Section Exact.
Local Open Scope R_scope.
Lemma f_max_R (a b : R) : f_max Rcompare a b = Rmax a b.
Proof.
  unfold f_max. destruct (Rcompare_spec a b) as [H|H|H].
  - now rewrite Rmax_right by lra.
  - now rewrite Rmax_right by lra.
  - now rewrite Rmax_left by lra.
Qed.

Lemma fold_add_R l x : fold_left Rplus l x = x + fold_right Rplus 0 l.
Proof. revert x; induction l as [|y l IH]; intros x; cbn; [lra|]. rewrite IH. lra. Qed.

Notation axis_gap_R := (axis_gap Rminus (fun r : R => r) Rcompare Rmult 0).
Notation axis_gaps_R := (axis_gaps Rminus (fun r : R => r) Rcompare Rmult 0).
Notation sq_dist_R := (sq_dist_to Rminus (fun r : R => r) Rcompare Rplus Rmult 0).
Notation in_box_R := (real_in_box (fun r : R => r)).
Definition tl_boxR {D} (a : saabb R (Datatypes.S D)) : saabb R D := {| bmin := snd (bmin a); bmax := snd (bmax a) |}.

Lemma in_box_R_cons D (b : saabb R (Datatypes.S D)) x : in_box_R b x <->
  (fst (bmin b) <= fst x <= fst (bmax b)) /\ in_box_R (tl_boxR b) (snd x).
Proof.
  unfold real_in_box. cbn [vlist tl_boxR bmin bmax]. split.
  - intros [H1 H2]. inversion H1; inversion H2; subst. auto.
  - intros [[H1 H2] [H3 H4]]. split; constructor; auto.
Qed.

Lemma sq_le_abs g d : 0 <= g -> g <= d \/ g <= - d -> g * g <= d * d.
Proof. intros H0 [H|H]; [apply Rmult_le_compat; lra|]. replace (d * d) with ((- d) * (- d)) by ring. apply Rmult_le_compat; lra. Qed.

Lemma axis_gap_least lmin lmax rmin rmax x y : lmin <= x <= lmax -> rmin <= y <= rmax ->
  axis_gap_R lmin lmax rmin rmax <= (x - y) * (x - y).
Proof.
  intros Hx Hy. unfold axis_gap. rewrite !f_max_R. unfold Rmax.
  destruct (Rle_dec (rmin - lmax) (lmin - rmax)) as [H1|H1]; [destruct (Rle_dec (lmin - rmax) 0)|destruct (Rle_dec (rmin - lmax) 0)]; apply sq_le_abs; lra.
Qed.

Lemma axis_gap_attained lmin lmax rmin rmax : lmin <= lmax -> rmin <= rmax ->
  exists x y, lmin <= x <= lmax /\ rmin <= y <= rmax /\ (x - y) * (x - y) = axis_gap_R lmin lmax rmin rmax.
Proof.
  intros Hl Hr. unfold axis_gap. rewrite !f_max_R.
  destruct (Rle_or_lt rmin lmax) as [H1|H1]; [destruct (Rle_or_lt lmin rmax) as [H2|H2]|].
  - exists (Rmax lmin rmin), (Rmax lmin rmin). unfold Rmax.
    destruct (Rle_dec lmin rmin); destruct (Rle_dec (rmin - lmax) (lmin - rmax)); match goal with |- context [Rle_dec ?a 0] => destruct (Rle_dec a 0) end; repeat split; try lra; nra.
  - exists lmin, rmax. split; [lra|]. split; [lra|]. unfold Rmax.
    destruct (Rle_dec (rmin - lmax) (lmin - rmax)); match goal with |- context [Rle_dec ?a 0] => destruct (Rle_dec a 0) end; nra.
  - exists lmax, rmin. split; [lra|]. split; [lra|]. unfold Rmax.
    destruct (Rle_dec (rmin - lmax) (lmin - rmax)); match goal with |- context [Rle_dec ?a 0] => destruct (Rle_dec a 0) end; nra.
Qed.

Lemma gaps_closest D (a b : saabb R D) : (exists x, in_box_R a x) -> (exists y, in_box_R b y) ->
  closest2 (fun r : R => r) a b (fold_right Rplus 0 (axis_gaps_R (bmin a) (bmax a) (bmin b) (bmax b))).
Proof.
  induction D as [|D IH]; intros [x Hx] [y Hy].
  - split; [|intros x' y' _ _; cbn; lra]. exists tt, tt. cbn. repeat split; constructor.
  - rewrite in_box_R_cons in Hx, Hy. destruct Hx as [Hx Hx'], Hy as [Hy Hy'].
    destruct (IH (tl_boxR a) (tl_boxR b)) as [(x0 & y0 & Hx0 & Hy0 & E) Hmin]; [eauto|eauto|]. cbn [tl_boxR bmin bmax] in E, Hmin.
    cbn [axis_gaps fold_right]. split.
    + destruct (axis_gap_attained (fst (bmin a)) (fst (bmax a)) (fst (bmin b)) (fst (bmax b)) ltac:(lra) ltac:(lra)) as (x1 & y1 & Hx1 & Hy1 & E1).
      exists (x1, x0), (y1, y0). rewrite !in_box_R_cons, rdist2_cons. cbn [fst snd]. rewrite E1, E. auto.
    + intros x' y' G1 G2. rewrite in_box_R_cons in G1, G2. rewrite rdist2_cons. apply Rplus_le_compat.
      * apply axis_gap_least; tauto.
      * apply Hmin; tauto.
Qed.

Lemma sq_dist_closest D (a b : saabb R (Datatypes.S D)) : (exists x, in_box_R a x) -> (exists y, in_box_R b y) ->
  closest2 (fun r : R => r) a b (sq_dist_R a b).
Proof. intros Ha Hb. unfold sq_dist_to. rewrite fold_add_R. exact (gaps_closest _ a b Ha Hb). Qed.
End Exact.

(** *** [i32] coordinates, [f64] arithmetic *)

Local Open Scope R_scope.

Lemma f_max_rep x y a b : rep x a -> rep y b -> rep (f_max n64_cmp_f x y) (Rmax a b).
Proof.
  intros Hx Hy. unfold f_max, n64_cmp_f. rewrite (rep_lt x y a b Hx Hy), (rep_eqb x y a b Hx Hy).
  destruct (Rlt_bool_spec a b).
  - rewrite Rmax_right by lra. exact Hy.
  - destruct (Req_bool_spec a b).
    + rewrite Rmax_right by lra. exact Hy.
    + rewrite Rmax_left by lra. exact Hx.
Qed.


Lemma i32_sub_rep a b : no_wrap a b -> rep (i32_into_f64 (i32_sub a b)) (IZR (i32_val a - i32_val b)).
Proof.
  intros H. unfold i32_into_f64, i32_sub. rewrite i32_of_val. unfold no_wrap in H.
  replace (wrap32 (i32_val a - i32_val b)) with (i32_val a - i32_val b)%Z by (unfold wrap32; rewrite Z.mod_small; lia).
  apply rep_of_Z. change (2 ^ 53)%Z with 9007199254740992%Z. lia.
Qed.

Lemma gap_range lmin lmax rmin rmax : no_wrap rmin lmax -> no_wrap lmin rmax -> (0 <= gap i32_val lmin lmax rmin rmax <= 2147483647)%Z.
Proof. unfold no_wrap, gap. lia. Qed.

Lemma axis_gap_rep lmin lmax rmin rmax : no_wrap rmin lmax -> no_wrap lmin rmax ->
  rep (axis_gap i32_sub i32_into_f64 n64_cmp_f f64_mul (f64_of_Z 0) lmin lmax rmin rmax)
    (rnd (IZR (gap i32_val lmin lmax rmin rmax * gap i32_val lmin lmax rmin rmax))).
Proof.
  intros H1 H2. unfold axis_gap.
  assert (Hr : rep (f_max n64_cmp_f (f_max n64_cmp_f (i32_into_f64 (i32_sub rmin lmax)) (i32_into_f64 (i32_sub lmin rmax))) (f64_of_Z 0))
    (IZR (gap i32_val lmin lmax rmin rmax))).
  { assert (H := f_max_rep _ _ _ _ (f_max_rep _ _ _ _ (i32_sub_rep _ _ H1) (i32_sub_rep _ _ H2)) (rep_of_Z 0 ltac:(vm_compute; discriminate))).
    replace (IZR (gap i32_val lmin lmax rmin rmax)) with (Rmax (Rmax (IZR (i32_val rmin - i32_val lmax)) (IZR (i32_val lmin - i32_val rmax))) 0); [exact H|].
    unfold gap. assert (M : forall a b, Rmax (IZR a) (IZR b) = IZR (Z.max a b)).
    { intros a b. destruct (Z_le_gt_dec a b); [rewrite Z.max_r, Rmax_right by (try apply IZR_le; lia)|rewrite Z.max_l, Rmax_left by (try apply IZR_le; lia)]; reflexivity. }
    now rewrite !M. }
  rewrite mult_IZR. apply rep_mul; try exact Hr. rewrite <- mult_IZR. assert (Hg := gap_range _ _ _ _ H1 H2).
  apply (rnd_bound _ (2 ^ 62)); [lia|]. rewrite <- abs_IZR. apply IZR_le. change (2 ^ 62)%Z with 4611686018427387904%Z. nia.
Qed.


Definition rsq (g : Z) : R := rnd (IZR (g * g)).

Lemma axis_gaps_rep D (lmin lmax rmin rmax : svec i32 D) : no_wraps rmin lmax -> no_wraps lmin rmax ->
  Forall2 rep (axis_gaps i32_sub i32_into_f64 n64_cmp_f f64_mul (f64_of_Z 0) lmin lmax rmin rmax)
    (map rsq (gaps i32_val lmin lmax rmin rmax)).
Proof.
  induction D as [|D IH]; cbn [axis_gaps gaps map no_wraps]; intros H1 H2; constructor.
  - now apply axis_gap_rep.
  - now apply IH.
Qed.

(** The rounded sum. *)
Definition rsum (l : list R) (x : R) : R := fold_left (fun acc y => rnd (acc + y)) l x.

Lemma rnd_nonneg x : 0 <= x -> 0 <= rnd x.
Proof. intros H. rewrite <- rnd_0. now apply rnd_le. Qed.

Lemma rsum_nonneg l x : 0 <= x -> Forall (fun y => 0 <= y) l -> 0 <= rsum l x.
Proof.
  intros Hx Hl; revert x Hx; induction Hl as [|y l Hy Hl IH]; intros x Hx; [exact Hx|]. apply IH. apply rnd_nonneg. lra.
Qed.

(** Multiples [n * 2^62] stay doubles, so the rounded sum of numbers up to [2^62] does not overflow. *)
Definition unit62 (n : Z) : R := IZR n * bpow radix2 62.

Lemma unit62_format n : (0 <= n <= 2 ^ 53)%Z -> rnd (unit62 n) = unit62 n.
Proof.
  intros Hn. apply round_generic; [apply valid_rnd_N|].
  destruct (Z.eq_dec n (2 ^ 53)) as [->|].
  - unfold unit62. change (IZR (2 ^ 53)) with (bpow radix2 53). rewrite <- bpow_plus. apply generic_format_bpow. vm_compute. discriminate.
  - apply generic_format_FLT. exists (Float radix2 n 62); [reflexivity| |cbn; lia]. cbn. change (Zpower_pos 2 53) with (2 ^ 53)%Z. lia.
Qed.

Lemma unit62_lt n : (0 <= n <= 2 ^ 53)%Z -> unit62 n < maxf.
Proof.
  intros Hn. apply Rle_lt_trans with (unit62 (2 ^ 53)).
  - unfold unit62. apply Rmult_le_compat_r; [apply bpow_ge_0|]. apply IZR_le. lia.
  - unfold unit62. change (IZR (2 ^ 53)) with (bpow radix2 53). rewrite <- bpow_plus. apply bpow_lt. lia.
Qed.

Lemma fold_add_rep l rs x r n : rep x r -> 0 <= r <= unit62 n -> Forall2 rep l rs -> Forall (fun y => 0 <= y <= unit62 1) rs ->
  (0 <= n)%Z -> (n + Z.of_nat (length l) <= 2 ^ 53)%Z -> rep (fold_left f64_add l x) (rsum rs r).
Proof.
  intros Hx Hr Hl; revert x r n Hx Hr; induction Hl as [|y ry l rs Hy Hl IH]; intros x r n Hx Hr Hb Hn Hlen; [exact Hx|].
  inversion Hb as [|? ? Hb1 Hb2]; subst. cbn [fold_left]. unfold rsum. cbn [fold_left]. fold (rsum rs (rnd (r + ry))).
  assert (Hle : 0 <= rnd (r + ry) <= unit62 (n + 1)).
  { split; [apply rnd_nonneg; lra|]. rewrite <- unit62_format by (cbn [length] in Hlen; lia). apply rnd_le.
    unfold unit62 in *. rewrite plus_IZR. lra. }
  apply (IH _ _ (n + 1)%Z); auto.
  - apply rep_add; auto. rewrite Rabs_pos_eq by lra. apply Rle_lt_trans with (unit62 (n + 1)); [lra|]. apply unit62_lt. cbn [length] in Hlen. lia.
  - lia.
  - cbn [length] in Hlen. lia.
Qed.

Lemma rsq_bound g : (0 <= g <= 2147483647)%Z -> 0 <= rsq g <= unit62 1.
Proof.
  intros Hg. unfold rsq. split; [apply rnd_nonneg, IZR_le; nia|]. rewrite <- unit62_format by lia. apply rnd_le.
  unfold unit62. rewrite Rmult_1_l. change (bpow radix2 62) with (IZR (2 ^ 62)). apply IZR_le. change (2 ^ 62)%Z with 4611686018427387904%Z. nia.
Qed.

Lemma gaps_range D (lmin lmax rmin rmax : svec i32 D) : no_wraps rmin lmax -> no_wraps lmin rmax ->
  Forall (fun g => (0 <= g <= 2147483647)%Z) (gaps i32_val lmin lmax rmin rmax).
Proof.
  induction D as [|D IH]; cbn [gaps no_wraps]; intros H1 H2; constructor; [now apply gap_range|now apply IH].
Qed.

Lemma gaps_length {N} (val : N -> Z) D (lmin lmax rmin rmax : svec N D) : length (gaps val lmin lmax rmin rmax) = D.
Proof. induction D as [|D IH]; cbn; [reflexivity|]. now rewrite IH. Qed.
Lemma axis_gaps_length {N F} sub into fcmp fmul (zero : F) D (lmin lmax rmin rmax : svec N D) :
  length (axis_gaps sub into fcmp fmul zero lmin lmax rmin rmax) = D.
Proof. induction D as [|D IH]; cbn; [reflexivity|]. now rewrite IH. Qed.


Definition rgap2 (l : list Z) : R := match l with [] => 0 | g :: r => rsum (map rsq r) (rsq g) end.

Lemma sq_dist_rep D (a b : saabb i32 (Datatypes.S D)) : fits a b -> (Z.of_nat D < 2 ^ 53)%Z ->
  rep (i32_sq_dist a b) (rgap2 (box_gaps i32_val a b)).
Proof.
  intros [[H1 H1'] [H2 H2']] HD. unfold sq_dist_to, box_gaps. cbn [gaps rgap2].
  apply (fold_add_rep _ _ _ _ 1).
  - now apply axis_gap_rep.
  - apply rsq_bound. now apply gap_range.
  - now apply axis_gaps_rep.
  - assert (Hg := gaps_range _ _ _ _ _ H1' H2'). clear -Hg. induction Hg; cbn; constructor; auto. now apply rsq_bound.
  - lia.
  - rewrite axis_gaps_length. lia.
Qed.

Lemma rsum_mono l l' x x' : Forall2 Rle l l' -> x <= x' -> rsum l x <= rsum l' x'.
Proof.
  intros Hl; revert x x'; induction Hl as [|y y' l l' Hy Hl IH]; intros x x' Hx; [exact Hx|]. apply IH. apply rnd_le. lra.
Qed.

Lemma rsq_mono g g' : (0 <= g <= g')%Z -> rsq g <= rsq g'.
Proof. intros H. apply rnd_le, IZR_le. nia. Qed.

Lemma rgap2_mono l l' : Forall2 (fun g g' => (0 <= g <= g')%Z) l l' -> rgap2 l <= rgap2 l'.
Proof.
  intros [|g g' l0 l0' H Hl]; cbn; [lra|]. apply rsum_mono; [|now apply rsq_mono].
  induction Hl; cbn; constructor; auto. now apply rsq_mono.
Qed.

Lemma gap_mono (l h m k l' h' m' k' : i32) : (i32_val l' <= i32_val l)%Z -> (i32_val h <= i32_val h')%Z ->
  (i32_val m' <= i32_val m)%Z -> (i32_val k <= i32_val k')%Z -> (0 <= gap i32_val l' h' m' k' <= gap i32_val l h m k)%Z.
Proof. unfold gap. lia. Qed.

Lemma gaps_mono D (a b a' b' : saabb i32 D) : box_incl i32_ops a' a -> box_incl i32_ops b' b ->
  Forall2 (fun g g' => (0 <= g <= g')%Z) (box_gaps i32_val a' b') (box_gaps i32_val a b).
Proof.
  induction D as [|D IH]; intros [Ha1 Ha2] [Hb1 Hb2]; unfold box_gaps; cbn [gaps]; constructor.
  - apply vec_le_cons in Ha1, Ha2, Hb1, Hb2. destruct Ha1 as [Ha1 _], Ha2 as [Ha2 _], Hb1 as [Hb1 _], Hb2 as [Hb2 _].
    cbn in Ha1, Ha2, Hb1, Hb2. apply Z.leb_le in Ha1, Ha2, Hb1, Hb2. apply gap_mono; assumption.
  - apply vec_le_cons in Ha1, Ha2, Hb1, Hb2.
    apply (IH (tl_box a) (tl_box b) (tl_box a') (tl_box b')); split; cbn; tauto.
Qed.

(** Exact when small. *)
Lemma rsum_exact l x : (0 <= x)%Z -> (x + fold_right Z.add 0 (map (fun g => g * g) l) <= 2 ^ 53)%Z ->
  rsum (map rsq l) (IZR x) = IZR (x + fold_right Z.add 0 (map (fun g => g * g) l))%Z.
Proof.
  revert x; induction l as [|g l IH]; intros x Hx Hs; [cbn; now rewrite Z.add_0_r|].
  cbn [map fold_right] in Hs |- *. assert (Hn := squares_nonneg l). assert (Hg := Z.square_nonneg g).
  unfold rsum. cbn [fold_left]. fold (rsum (map rsq l) (rnd (IZR x + rsq g))).
  assert (E : rnd (IZR x + rsq g) = IZR (x + g * g)%Z).
  { unfold rsq. rewrite (rnd_int (g * g)) by (rewrite Z.abs_eq; lia). rewrite <- plus_IZR. apply rnd_int. rewrite Z.abs_eq; lia. }
  rewrite E, IH; [f_equal; lia|lia|lia].
Qed.

Lemma rgap2_exact l : (fold_right Z.add 0 (map (fun g => g * g) l) <= 2 ^ 53)%Z -> rgap2 l = IZR (fold_right Z.add 0 (map (fun g => g * g) l))%Z.
Proof.
  destruct l as [|g l]; [reflexivity|]. cbn [rgap2 map fold_right]. intros H.
  assert (Hn := squares_nonneg l). assert (Hg := Z.square_nonneg g).
  unfold rsq at 2. rewrite (rnd_int (g * g)) by (rewrite Z.abs_eq; lia). apply rsum_exact; lia.
Qed.

(** Zero exactly when every gap is zero. *)
Lemma rsum_ge l x : 0 <= x -> generic_format radix2 fexp64 x -> Forall (fun y => 0 <= y) l -> x <= rsum l x.
Proof.
  intros Hx Hf Hl; revert x Hx Hf; induction Hl as [|y l Hy Hl IH]; intros x Hx Hf; [cbn; lra|].
  unfold rsum. cbn [fold_left]. fold (rsum l (rnd (x + y))).
  assert (H1 : x <= rnd (x + y)).
  { rewrite <- (round_generic radix2 fexp64 ZnearestE x Hf) at 1. apply rnd_le. lra. }
  apply Rle_trans with (1 := H1). apply IH; [lra|]. apply generic_format_round; [apply FLT_exp_valid; reflexivity|apply valid_rnd_N].
Qed.

Lemma rsum_ge_in l x y : 0 <= x -> Forall (fun y => 0 <= y) l -> Forall (generic_format radix2 fexp64) l -> In y l -> y <= rsum l x.
Proof.
  intros Hx Hl; revert x Hx; induction Hl as [|z l Hz Hl IH]; intros x Hx Hf Hin; [destruct Hin|].
  inversion Hf as [|? ? Hf1 Hf2]; subst. unfold rsum. cbn [fold_left]. fold (rsum l (rnd (x + z))).
  destruct Hin as [<-|Hin].
  - apply Rle_trans with (rnd (x + z)).
    + rewrite <- (round_generic radix2 fexp64 ZnearestE z Hf1) at 1. apply rnd_le. lra.
    + apply rsum_ge; [apply rnd_nonneg; lra| |exact Hl]. apply generic_format_round; [apply FLT_exp_valid; reflexivity|apply valid_rnd_N].
  - apply IH; auto. apply rnd_nonneg. lra.
Qed.

Lemma rsq_format g : generic_format radix2 fexp64 (rsq g).
Proof. apply generic_format_round; [apply FLT_exp_valid; reflexivity|apply valid_rnd_N]. Qed.

Lemma rsq_nonneg g : 0 <= rsq g.
Proof. apply rnd_nonneg, IZR_le. apply Z.square_nonneg. Qed.

Lemma rgap2_ge l g : In g l -> rsq g <= rgap2 l.
Proof.
  destruct l as [|h l]; [intros []|]. cbn [rgap2].
  assert (H1 : Forall (fun y => 0 <= y) (map rsq l)) by (induction l; cbn; constructor; auto using rsq_nonneg).
  assert (H2 : Forall (generic_format radix2 fexp64) (map rsq l)) by (clear; induction l; cbn; constructor; auto using rsq_format).
  intros [<-|Hin].
  - apply rsum_ge; auto using rsq_nonneg, rsq_format.
  - apply rsum_ge_in; auto using rsq_nonneg. now apply in_map.
Qed.

Lemma rgap2_zero l : rgap2 l = 0 <-> Forall (fun g => g = 0%Z) l.
Proof.
  split.
  - intros H. apply Forall_forall. intros g Hg. apply rgap2_ge in Hg. rewrite H in Hg.
    destruct (Z.eq_dec g 0) as [|Hne]; [assumption|]. exfalso.
    assert (H1 : 1 <= rsq g). { unfold rsq. rewrite <- (rnd_int 1) by (vm_compute; discriminate). apply rnd_le, IZR_le. nia. }
    lra.
  - intros H. rewrite rgap2_exact.
    + f_equal. induction H; cbn; [reflexivity|]. subst. exact IHForall.
    + enough (fold_right Z.add 0 (map (fun g => g * g) l) = 0)%Z by lia. induction H; cbn; [reflexivity|]. subst. exact IHForall.
Qed.

Lemma gap_zero lmin lmax rmin rmax : gap i32_val lmin lmax rmin rmax = 0%Z <->
  (i32_val lmin <= i32_val rmax)%Z /\ (i32_val rmin <= i32_val lmax)%Z.
Proof. unfold gap. lia. Qed.

Lemma gaps_zero_meet D (a b : saabb i32 D) : Forall (fun g => g = 0%Z) (box_gaps i32_val a b) <-> box_intersects_box i32_ops a b = true.
Proof.
  rewrite (intersects_box_iff i32_ops). unfold box_gaps. destruct a as [amin amax], b as [bmn bmx]. cbn [bmin bmax].
  revert amin amax bmn bmx; induction D as [|D IH]; intros amin amax bmn bmx.
  - split; [split; apply vec_le_nil|constructor].
  - rewrite !vec_le_cons. cbn [gaps]. rewrite Forall_cons_iff, IH. cbn. rewrite !Z.leb_le. split.
    + intros [H1 [H2 H3]]. apply gap_zero in H1. tauto.
    + intros [[H1 H2] [H3 H4]]. split; [|tauto]. apply gap_zero. tauto.
Qed.
