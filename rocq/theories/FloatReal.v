(** [f64] as real numbers: what IEEE binary64 arithmetic computes, from Flocq. *)
From Coq Require Import Reals Lra.
From Flocq Require Import Core BinarySingleNaN Relative.
From Verif Require Export GeomModel.
From Coq Require Import Floats.SpecFloat.
Local Open Scope R_scope.

Notation prec := 53%Z.
Notation emax := 1024%Z.
Local Instance Hprec : FLX.Prec_gt_0 prec := eq_refl.
Local Instance Hmax : Prec_lt_emax prec emax := eq_refl.
Notation bf := (binary_float prec emax).
Notation fexp64 := (SpecFloat.fexp prec emax).

(** Rounding to the nearest double, ties to even. *)
Definition rnd (x : R) : R := round radix2 fexp64 ZnearestE x.

(** The double [x] is finite and stands for the real number [r]. *)
Definition rep (x : f64) (r : R) : Prop := exists b : bf, B2SF b = x /\ is_finite b = true /\ B2R b = r.

Lemma round_nearest_even_equiv s m l : SpecFloat.round_nearest_even m l = choice_mode mode_NE s m l.
Proof. case l; [reflexivity|intro c]. case c; [|reflexivity..]. now simpl; unfold Round.cond_incr; case Z.even. Qed.

Lemma binary_round_aux_equiv sx mx ex lx :
  SpecFloat.binary_round_aux prec emax sx mx ex lx = BinarySingleNaN.binary_round_aux prec emax mode_NE sx mx ex lx.
Proof.
  unfold SpecFloat.binary_round_aux, BinarySingleNaN.binary_round_aux.
  set (mrse' := shr_fexp _ _ _). case mrse'; intros mrs' e'; simpl. now rewrite (round_nearest_even_equiv sx).
Qed.

Lemma binary_round_equiv s m e :
  SpecFloat.binary_round prec emax s m e = BinarySingleNaN.binary_round prec emax mode_NE s m e.
Proof.
  unfold SpecFloat.binary_round, BinarySingleNaN.binary_round, shl_align_fexp.
  set (mez := shl_align _ _ _); case mez as [mz ez]. apply binary_round_aux_equiv.
Qed.

Lemma binary_normalize_equiv m e szero :
  SpecFloat.binary_normalize prec emax m e szero = B2SF (BinarySingleNaN.binary_normalize prec emax Hprec Hmax mode_NE m e szero).
Proof.
  case m as [|p|p].
  - now simpl.
  - simpl; rewrite B2SF_SF2B; apply binary_round_equiv.
  - simpl; rewrite B2SF_SF2B; apply binary_round_equiv.
Qed.

Lemma mul_equiv (x y : bf) : f64_mul (B2SF x) (B2SF y) = B2SF (Bmult mode_NE x y).
Proof.
  case x as [sx|sx| |sx mx ex Bx]; case y as [sy|sy| |sy my ey By]; [now trivial..|].
  simpl. rewrite B2SF_SF2B. apply binary_round_aux_equiv.
Qed.

Lemma add_equiv (x y : bf) : f64_add (B2SF x) (B2SF y) = B2SF (Bplus mode_NE x y).
Proof.
  case x as [sx|sx| |sx mx ex Bx]; case y as [sy|sy| |sy my ey By]; [now (trivial || simpl; case Bool.eqb)..|].
  apply binary_normalize_equiv.
Qed.

Lemma sub_equiv (x y : bf) : f64_sub (B2SF x) (B2SF y) = B2SF (Bminus mode_NE x y).
Proof.
  case x as [sx|sx| |sx mx ex Bx]; case y as [sy|sy| |sy my ey By]; [now (trivial || simpl; case Bool.eqb)..|].
  simpl. unfold Zminus. rewrite <- cond_Zopp_negb. apply binary_normalize_equiv.
Qed.

Lemma div_equiv (x y : bf) : f64_div (B2SF x) (B2SF y) = B2SF (Bdiv mode_NE x y).
Proof.
  case x as [sx|sx| |sx mx ex Bx]; case y as [sy|sy| |sy my ey By]; [now (trivial || simpl; case Bool.eqb)..|].
  simpl. rewrite B2SF_SF2B. set (melz := SFdiv_core_binary _ _ _ _ _ _). case melz as [[mz ez] lz]. apply binary_round_aux_equiv.
Qed.

Lemma rnd_le x y : x <= y -> rnd x <= rnd y.
Proof. apply round_le; try apply valid_rnd_N. apply fexp_correct, Hprec. Qed.

Lemma rnd_0 : rnd 0 = 0.
Proof. apply round_0, valid_rnd_N. Qed.

Definition maxf : R := bpow radix2 1024.

Lemma rep_mul x y a b : rep x a -> rep y b -> Rabs (rnd (a * b)) < maxf -> rep (f64_mul x y) (rnd (a * b)).
Proof.
  intros (bx & <- & Fx & <-) (by_ & <- & Fy & <-) Hlt. exists (Bmult mode_NE bx by_). rewrite mul_equiv. split; [reflexivity|].
  assert (H := Bmult_correct prec emax Hprec Hmax mode_NE bx by_). unfold rnd in Hlt. cbn [round_mode] in H.
  rewrite Rlt_bool_true in H by exact Hlt. destruct H as (H1 & H2 & _). rewrite H2, Fx, Fy. split; [reflexivity|exact H1].
Qed.

Lemma rep_add x y a b : rep x a -> rep y b -> Rabs (rnd (a + b)) < maxf -> rep (f64_add x y) (rnd (a + b)).
Proof.
  intros (bx & <- & Fx & <-) (by_ & <- & Fy & <-) Hlt. exists (Bplus mode_NE bx by_). rewrite add_equiv. split; [reflexivity|].
  assert (H := Bplus_correct prec emax Hprec Hmax mode_NE bx by_ Fx Fy). unfold rnd in Hlt. cbn [round_mode] in H.
  rewrite Rlt_bool_true in H by exact Hlt. destruct H as (H1 & H2 & _). split; [exact H2|exact H1].
Qed.

Lemma rep_div x y a b : rep x a -> rep y b -> b <> 0 -> Rabs (rnd (a / b)) < maxf -> rep (f64_div x y) (rnd (a / b)).
Proof.
  intros (bx & <- & Fx & <-) (by_ & <- & Fy & <-) Hb Hlt. exists (Bdiv mode_NE bx by_). rewrite div_equiv. split; [reflexivity|].
  assert (H := Bdiv_correct prec emax Hprec Hmax mode_NE bx by_ Hb). unfold rnd in Hlt. cbn [round_mode] in H.
  rewrite Rlt_bool_true in H by exact Hlt. destruct H as (H1 & H2 & _). rewrite H2, Fx. split; [reflexivity|exact H1].
Qed.

Lemma rep_le x y a b : rep x a -> rep y b -> SFleb x y = Rle_bool a b.
Proof. intros (bx & <- & Fx & <-) (by_ & <- & Fy & <-). exact (Bleb_correct prec emax bx by_ Fx Fy). Qed.
Lemma rep_lt x y a b : rep x a -> rep y b -> SFltb x y = Rlt_bool a b.
Proof. intros (bx & <- & Fx & <-) (by_ & <- & Fy & <-). exact (Bltb_correct prec emax bx by_ Fx Fy). Qed.
Lemma rep_eqb x y a b : rep x a -> rep y b -> SFeqb x y = Req_bool a b.
Proof. intros (bx & <- & Fx & <-) (by_ & <- & Fy & <-). exact (Beqb_correct prec emax bx by_ Fx Fy). Qed.

Lemma rep_generic x a : rep x a -> generic_format radix2 fexp64 a.
Proof. intros (b & _ & _ & <-). apply generic_format_B2R. Qed.

(** Small integers are doubles. *)
Lemma int_format z : (Z.abs z <= 2 ^ 53)%Z -> generic_format radix2 fexp64 (IZR z).
Proof.
  intros Hz. destruct (Z.eq_dec (Z.abs z) (2 ^ 53)) as [E|E].
  - assert (Hp : generic_format radix2 fexp64 (IZR (2 ^ 53))).
    { change (IZR (2 ^ 53)) with (bpow radix2 53). apply generic_format_bpow. vm_compute. discriminate. }
    destruct (Z.abs_spec z) as [[_ H]|[_ H]]; rewrite H in E.
    + now subst z.
    + replace z with (- (2 ^ 53))%Z by lia. rewrite opp_IZR. now apply generic_format_opp.
  - apply generic_format_FLT. exists (Float radix2 z 0).
    + unfold F2R. cbn. now rewrite Rmult_1_r.
    + cbn. change (Zpower_pos 2 53) with (2 ^ 53)%Z. lia.
    + cbn. lia.
Qed.

Lemma rnd_int z : (Z.abs z <= 2 ^ 53)%Z -> rnd (IZR z) = IZR z.
Proof. intros Hz. apply round_generic; [apply valid_rnd_N|now apply int_format]. Qed.

Lemma rnd_bound x z : (0 <= z <= 2 ^ 100)%Z -> Rabs x <= IZR z -> Rabs (rnd x) < maxf.
Proof.
  intros Hz Hx. apply Rle_lt_trans with (bpow radix2 100).
  - apply abs_round_le_generic; [apply fexp_correct, Hprec|apply valid_rnd_N|apply generic_format_bpow; vm_compute; discriminate|].
    apply Rle_trans with (1 := Hx). change (bpow radix2 100) with (IZR (2 ^ 100)). apply IZR_le. lia.
  - unfold maxf. apply bpow_lt. lia.
Qed.

Lemma rep_of_Z z : (Z.abs z <= 2 ^ 53)%Z -> rep (f64_of_Z z) (IZR z).
Proof.
  intros Hz. unfold f64_of_Z. rewrite binary_normalize_equiv. eexists. split; [reflexivity|].
  assert (H := binary_normalize_correct prec emax Hprec Hmax mode_NE z 0 false). cbv zeta in H.
  assert (E : F2R (Float radix2 z 0) = IZR z) by (unfold F2R; cbn; apply Rmult_1_r).
  rewrite E in H. cbn [round_mode] in H. change (round radix2 fexp64 ZnearestE (IZR z)) with (rnd (IZR z)) in H.
  rewrite (rnd_int z Hz), Rlt_bool_true in H.
  - destruct H as (H1 & H2 & _). split; [exact H2|exact H1].
  - rewrite <- (rnd_int z Hz). apply (rnd_bound _ (2 ^ 53)); [lia|]. rewrite <- abs_IZR. apply IZR_le. exact Hz.
Qed.
