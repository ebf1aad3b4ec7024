(** Squared distances computed in floating point: rounding, overflow and monotonicity. *)
From Coq Require Import Reals Lra Floats.SpecFloat.
From Flocq Require Import Core Relative Plus_error BinarySingleNaN.
From Verif Require Export FpProof.
Local Open Scope R_scope.

Section Rounded.
Context (p e : Z) (Hf : fp_format p e).
Local Instance fHp : FLX.Prec_gt_0 p. Proof. unfold FLX.Prec_gt_0. destruct Hf. lia. Qed.
Local Instance fHe : Prec_lt_emax p e. Proof. unfold Prec_lt_emax. destruct Hf. lia. Qed.
Notation bf := (binary_float p e).
Notation fexp_ := (SpecFloat.fexp p e).

Lemma fround_nearest_even s m l : SpecFloat.round_nearest_even m l = choice_mode mode_NE s m l.
Proof. case l; [reflexivity|intro c]. case c; [|reflexivity..]. now simpl; unfold Round.cond_incr; case Z.even. Qed.

Lemma fbinary_round_aux sx mx ex lx :
  SpecFloat.binary_round_aux p e sx mx ex lx = BinarySingleNaN.binary_round_aux p e mode_NE sx mx ex lx.
Proof.
  unfold SpecFloat.binary_round_aux, BinarySingleNaN.binary_round_aux.
  set (mrse' := shr_fexp _ _ _). case mrse'; intros mrs' e'; simpl. now rewrite (fround_nearest_even sx).
Qed.

Lemma fbinary_round s m ex :
  SpecFloat.binary_round p e s m ex = BinarySingleNaN.binary_round p e mode_NE s m ex.
Proof.
  unfold SpecFloat.binary_round, BinarySingleNaN.binary_round, shl_align_fexp.
  set (mez := shl_align _ _ _); case mez as [mz ez]. apply fbinary_round_aux.
Qed.

Lemma fbinary_normalize m ex szero :
  SpecFloat.binary_normalize p e m ex szero = B2SF (BinarySingleNaN.binary_normalize p e fHp fHe mode_NE m ex szero).
Proof.
  case m as [|q|q].
  - now simpl.
  - simpl; rewrite B2SF_SF2B; apply fbinary_round.
  - simpl; rewrite B2SF_SF2B; apply fbinary_round.
Qed.

Lemma fmul_equiv (x y : bf) : SFmul p e (B2SF x) (B2SF y) = B2SF (Bmult mode_NE x y).
Proof.
  case x as [sx|sx| |sx mx ex Bx]; case y as [sy|sy| |sy my ey By]; [now trivial..|].
  simpl. rewrite B2SF_SF2B. apply fbinary_round_aux.
Qed.

Lemma fadd_equiv (x y : bf) : SFadd p e (B2SF x) (B2SF y) = B2SF (Bplus mode_NE x y).
Proof.
  case x as [sx|sx| |sx mx ex Bx]; case y as [sy|sy| |sy my ey By]; [now (trivial || simpl; case Bool.eqb)..|].
  apply fbinary_normalize.
Qed.

Lemma fsub_equiv (x y : bf) : SFsub p e (B2SF x) (B2SF y) = B2SF (Bminus mode_NE x y).
Proof.
  case x as [sx|sx| |sx mx ex Bx]; case y as [sy|sy| |sy my ey By]; [now (trivial || simpl; case Bool.eqb)..|].
  simpl. unfold Zminus. rewrite <- cond_Zopp_negb. apply fbinary_normalize.
Qed.

(** Rounding to the nearest number of the format, without the limit of the exponents. *)
Definition frnd (x : R) : R := round radix2 fexp_ ZnearestE x.
Definition fmax_ : R := bpow radix2 e.

Lemma frnd_le x y : x <= y -> frnd x <= frnd y.
Proof. apply round_le; [apply fexp_correct, fHp|apply valid_rnd_N]. Qed.
Lemma frnd_0 : frnd 0 = 0.
Proof. apply round_0, valid_rnd_N. Qed.
Lemma frnd_nonneg x : 0 <= x -> 0 <= frnd x.
Proof. intros H. rewrite <- frnd_0. now apply frnd_le. Qed.
Lemma frnd_abs x : Rabs (frnd x) = frnd (Rabs x).
Proof.
  unfold frnd. symmetry. apply round_NE_abs. apply fexp_correct, fHp.
Qed.

(** A float as a binary_float. *)
Definition fb (x : nf p e) : bf := SF2B (nf_raw x) (match nf_raw x as y return nf_ok p e y = true -> valid_binary p e y = true with
  | S754_nan => fun H => match Bool.diff_false_true H with end
  | _ => fun H => H end (nf_prop p e x)).
Lemma fb_raw x : B2SF (fb x) = nf_raw x.
Proof. apply B2SF_SF2B. Qed.

(** The extended magnitude of a float. *)
Definition fmag (x : spec_float) : xreal := match x with
  | S754_infinity _ => XPlus
  | _ => XReal (Rabs (SF2R radix2 x))
  end.
(** Rounding a non-negative number, with overflow. *)
Definition rx (r : R) : xreal := if Rlt_bool (frnd r) fmax_ then XReal (frnd r) else XPlus.

Lemma rx_le a b : a <= b -> x_le (rx a) (rx b).
Proof.
  intros H. assert (H' := frnd_le a b H). unfold rx.
  destruct (Rlt_bool_spec (frnd b) fmax_); [|destruct (Rlt_bool _ _); exact Logic.I].
  rewrite Rlt_bool_true by lra. exact H'.
Qed.

Lemma ok_B2SF (b : bf) : B2SF b <> S754_nan -> nf_ok p e (B2SF b) = true.
Proof. intros H. assert (V := valid_binary_B2SF p e b). destruct (B2SF b); try exact V. congruence. Qed.


Lemma fb_R z : B2R (fb z) = SF2R radix2 (nf_raw z).
Proof. unfold fb. apply B2R_SF2B. Qed.
Lemma fb_fin z : is_finite (fb z) = is_finite_SF (nf_raw z).
Proof. unfold fb. apply is_finite_SF2B. Qed.
Lemma fb_value_fin (b : bf) : is_finite b = true -> sf_value (B2SF b) = XReal (B2R b).
Proof. intros H. rewrite fin_value by (destruct b; exact H). f_equal. now destruct b. Qed.

(** [x - y] for finite [x], [y]. *)
Lemma sub_spec (x y : nf p e) : is_finite_SF (nf_raw x) = true -> is_finite_SF (nf_raw y) = true ->
  nf_ok p e (SFsub p e (nf_raw x) (nf_raw y)) = true /\
  fmag (SFsub p e (nf_raw x) (nf_raw y)) = rx (Rabs (SF2R radix2 (nf_raw x) - SF2R radix2 (nf_raw y))).
Proof.
  intros Fx Fy. rewrite <- (fb_raw x), <- (fb_raw y) at 1 2. rewrite fsub_equiv.
  assert (H := Bminus_correct p e fHp fHe mode_NE (fb x) (fb y)).
  rewrite !fb_R, !fb_fin in H. specialize (H Fx Fy).
  cbn [round_mode] in H. change (round radix2 fexp_ ZnearestE ?r) with (frnd r) in H.
  unfold rx. rewrite <- frnd_abs. change (bpow radix2 e) with fmax_ in H.
  destruct (Rlt_bool (Rabs (frnd _)) fmax_) eqn:C.
  - destruct H as (H1 & H2 & _).
    assert (Hn : B2SF (Bminus mode_NE (fb x) (fb y)) <> S754_nan).
    { destruct (Bminus mode_NE (fb x) (fb y)); discriminate. }
    split; [now apply ok_B2SF|]. rewrite <- H1.
    destruct (Bminus mode_NE (fb x) (fb y)); try discriminate; reflexivity.
  - destruct H as [H _]. rewrite H. unfold binary_overflow. cbn [overflow_to_inf]. split; reflexivity.
Qed.

(** The square of a number, rounded, with overflow. *)
Definition sqx (a : xreal) : xreal := match a with XReal r => rx (r * r) | _ => XPlus end.
(** A rounded sum of non-negative numbers. *)
Definition addx (a b : xreal) : xreal := match a, b with XReal r, XReal s => rx (r + s) | _, _ => XPlus end.
Definition x_nonneg (a : xreal) : Prop := x_le (XReal 0) a.

Lemma rx_nonneg r : 0 <= r -> x_nonneg (rx r).
Proof. intros H. apply frnd_nonneg in H. unfold rx. destruct (Rlt_bool _ _); [exact H|exact Logic.I]. Qed.
Lemma sqx_nonneg a : x_nonneg (sqx a).
Proof. destruct a; try exact Logic.I. apply rx_nonneg. nra. Qed.
Lemma addx_nonneg a b : x_nonneg a -> x_nonneg b -> x_nonneg (addx a b).
Proof. destruct a, b; intros Ha Hb; try exact Logic.I. apply rx_nonneg. cbn in *. lra. Qed.
Lemma sqx_le a b : x_nonneg a -> x_le a b -> x_le (sqx a) (sqx b).
Proof.
  destruct a as [|r|], b as [|s|]; cbn; intros Ha H; try contradiction; try exact Logic.I.
  - apply rx_le. nra.
  - destruct (rx (r * r)); exact Logic.I.
Qed.
Lemma addx_le a b c d : x_nonneg a -> x_nonneg b -> x_le a c -> x_le b d -> x_le (addx a b) (addx c d).
Proof.
  destruct a as [|r|], c as [|t|], b as [|s|], d as [|u|]; cbn; intros Ha Hb H1 H2; try contradiction; try exact Logic.I;
    try (destruct (rx _); exact Logic.I). apply rx_le. lra.
Qed.

Lemma fmag_nonneg x : x_nonneg (fmag x).
Proof. destruct x; cbn [fmag x_nonneg x_le]; try exact Logic.I; apply Rabs_pos. Qed.

Lemma sq_spec (d : nf p e) :
  nf_ok p e (SFmul p e (nf_raw d) (nf_raw d)) = true /\ sf_value (SFmul p e (nf_raw d) (nf_raw d)) = sqx (fmag (nf_raw d)).
Proof.
  assert (Hd := nf_prop p e d). destruct (is_finite_SF (nf_raw d)) eqn:Fd.
  - assert (Em : fmag (nf_raw d) = XReal (Rabs (SF2R radix2 (nf_raw d)))) by (destruct (nf_raw d); try discriminate; reflexivity).
    rewrite Em. cbn [sqx]. rewrite <- Rabs_mult, (Rabs_pos_eq (_ * _)) by nra. rewrite <- (fb_raw d) at 1 2 3 4. rewrite fmul_equiv.
    assert (H := Bmult_correct p e fHp fHe mode_NE (fb d) (fb d)).
    rewrite !fb_R, !fb_fin in H.
    cbn [round_mode] in H. change (round radix2 fexp_ ZnearestE ?r) with (frnd r) in H. unfold rx.
    change (bpow radix2 e) with fmax_ in H. rewrite (Rabs_pos_eq (frnd _)) in H by (apply frnd_nonneg; nra).
    destruct (Rlt_bool (frnd _) fmax_).
    + destruct H as (H1 & H2 & _). rewrite Fd in H2. split; [|rewrite fb_value_fin by exact H2; now rewrite H1].
      apply ok_B2SF. destruct (Bmult mode_NE (fb d) (fb d)); discriminate.
    + rewrite H. unfold binary_overflow. cbn [overflow_to_inf]. rewrite Bool.xorb_nilpotent. split; reflexivity.
  - destruct (nf_raw d) as [s|s| |s m ex]; try discriminate. cbn. rewrite Bool.xorb_nilpotent. split; reflexivity.
Qed.

Lemma add_spec (x y : nf p e) : x_nonneg (nf_value x) -> x_nonneg (nf_value y) ->
  nf_ok p e (SFadd p e (nf_raw x) (nf_raw y)) = true /\ sf_value (SFadd p e (nf_raw x) (nf_raw y)) = addx (nf_value x) (nf_value y).
Proof.
  assert (Hx := nf_prop p e x). assert (Hy := nf_prop p e y). unfold nf_value. intros Nx Ny.
  destruct (is_finite_SF (nf_raw x)) eqn:Fx.
  - destruct (is_finite_SF (nf_raw y)) eqn:Fy.
    + rewrite (fin_value _ Fx), (fin_value _ Fy) in *. cbn [addx x_nonneg x_le] in *.
      rewrite <- (fb_raw x), <- (fb_raw y) at 1. rewrite <- (fb_raw x), <- (fb_raw y) at 1. rewrite !fadd_equiv.
      assert (H := Bplus_correct p e fHp fHe mode_NE (fb x) (fb y)).
      rewrite !fb_R, !fb_fin in H. specialize (H Fx Fy).
      cbn [round_mode] in H. change (round radix2 fexp_ ZnearestE ?r) with (frnd r) in H. unfold rx.
      change (bpow radix2 e) with fmax_ in H. rewrite (Rabs_pos_eq (frnd _)) in H by (apply frnd_nonneg; lra).
      destruct (Rlt_bool_spec (frnd (SF2R radix2 (nf_raw x) + SF2R radix2 (nf_raw y))) fmax_) as [C|C].
      * destruct H as (H1 & H2 & _). split; [|rewrite fb_value_fin by exact H2; now rewrite H1].
        apply ok_B2SF. destruct (Bplus mode_NE (fb x) (fb y)); discriminate.
      * destruct H as [H Hs]. rewrite H. unfold binary_overflow. cbn [overflow_to_inf].
        assert (Bsign (fb x) = false) as ->; [|split; reflexivity].
        destruct (Bsign (fb x)) eqn:Sx; [|reflexivity]. exfalso. symmetry in Hs.
        assert (G : forall z : nf p e, Bsign (fb z) = true -> SF2R radix2 (nf_raw z) <= 0).
        { intros z. rewrite <- fb_R. destruct (fb z) as [s|s| |s m ex]; cbn [Bsign B2R]; try (intros; lra).
          intros ->. apply F2R_le_0. cbn. lia. }
        apply G in Sx, Hs. assert (E : SF2R radix2 (nf_raw x) + SF2R radix2 (nf_raw y) = 0) by lra. rewrite E, frnd_0 in C.
        assert (0 < fmax_) by apply bpow_gt_0. lra.
    + destruct (nf_raw y) as [s|[]| |s m ex]; try discriminate; try contradiction.
      destruct (nf_raw x) as [s'|[]| |s' m' ex']; try discriminate; split; reflexivity.
  - destruct (nf_raw x) as [s|[]| |s m ex]; try discriminate; try contradiction.
    destruct (nf_raw y) as [s'|[]| |s' m' ex']; try discriminate; try contradiction; split; reflexivity.
Qed.

(** *** One coordinate *)
Notation A := (nf_arith p e).
Notation S := (nf_ops p e).
Notation fin x := (exists r, nf_value x = XReal r).
Definition rv (x : nf p e) : R := SF2R radix2 (nf_raw x).

Lemma fin_rv x : fin x -> nf_value x = XReal (rv x).
Proof. intros H. apply finite_value_SF in H. now apply fin_value. Qed.

Lemma asub_raw x y : fin x -> fin y -> nf_raw (a_sub A x y) = SFsub p e (nf_raw x) (nf_raw y).
Proof. intros Hx Hy. apply nf_of_raw. apply sub_spec; now apply finite_value_SF. Qed.
Lemma amul_raw d : nf_raw (a_mul A d d) = SFmul p e (nf_raw d) (nf_raw d).
Proof. apply nf_of_raw. apply sq_spec. Qed.
Lemma aadd_raw x y : x_nonneg (nf_value x) -> x_nonneg (nf_value y) -> nf_raw (a_add A x y) = SFadd p e (nf_raw x) (nf_raw y).
Proof. intros Hx Hy. apply nf_of_raw. now apply add_spec. Qed.

Definition gapx (x y : nf p e) : xreal := sqx (rx (Rabs (rv x - rv y))).
Lemma gap_value x y : fin x -> fin y -> nf_value (a_mul A (a_sub A x y) (a_sub A x y)) = gapx x y.
Proof.
  intros Hx Hy. unfold nf_value. rewrite amul_raw. destruct (sq_spec (a_sub A x y)) as [_ ->].
  rewrite asub_raw by assumption. unfold gapx. f_equal. apply sub_spec; now apply finite_value_SF.
Qed.
Lemma gapx_le x y x' y' : Rabs (rv x - rv y) <= Rabs (rv x' - rv y') -> x_le (gapx x y) (gapx x' y').
Proof. intros H. apply sqx_le; [apply rx_nonneg, Rabs_pos|]. now apply rx_le. Qed.
Lemma mul_nonneg d : x_nonneg (nf_value (a_mul A d d)).
Proof. unfold nf_value. rewrite amul_raw. destruct (sq_spec d) as [_ ->]. apply sqx_nonneg. Qed.
Lemma add_value x y : x_nonneg (nf_value x) -> x_nonneg (nf_value y) -> nf_value (a_add A x y) = addx (nf_value x) (nf_value y).
Proof. intros Hx Hy. unfold nf_value at 1. rewrite aadd_raw by assumption. now apply add_spec. Qed.

(** *** Sums *)
Lemma sum_nonneg l acc : x_nonneg (nf_value acc) -> x_nonneg (nf_value (fold_left (a_add A) (map (fun x => a_mul A x x) l) acc)).
Proof.
  revert acc; induction l as [|x l IH]; intros acc H; [exact H|]. cbn [map fold_left]. apply IH.
  rewrite add_value by (assumption || apply mul_nonneg). apply addx_nonneg; [exact H|apply mul_nonneg].
Qed.
Lemma sum_le l l' acc acc' : x_nonneg (nf_value acc) -> x_le (nf_value acc) (nf_value acc') ->
  Forall2 (fun x y => x_le (nf_value (a_mul A x x)) (nf_value (a_mul A y y))) l l' ->
  x_le (nf_value (fold_left (a_add A) (map (fun x => a_mul A x x) l) acc)) (nf_value (fold_left (a_add A) (map (fun x => a_mul A x x) l') acc')).
Proof.
  intros Hn Hl H. revert acc acc' Hn Hl; induction H as [|x y l l' Hxy _ IH]; intros acc acc' Hn Hl; [exact Hl|].
  cbn [map fold_left]. assert (Hm := mul_nonneg). assert (Hn' := x_le_trans _ _ _ Hn Hl). apply IH.
  - rewrite add_value by auto. apply addx_nonneg; auto.
  - rewrite !add_value by auto. apply addx_le; auto.
Qed.
Lemma sum_raw l acc : x_nonneg (nf_value acc) ->
  nf_raw (fold_left (a_add A) (map (fun x => a_mul A x x) l) acc) =
  fold_left (SFadd p e) (map (fun x => SFmul p e x x) (map nf_raw l)) (nf_raw acc).
Proof.
  revert acc; induction l as [|x l IH]; intros acc H; [reflexivity|]. cbn [map fold_left].
  rewrite IH.
  - rewrite aadd_raw by (assumption || apply mul_nonneg). now rewrite amul_raw.
  - rewrite add_value by (assumption || apply mul_nonneg). apply addx_nonneg; [exact H|apply mul_nonneg].
Qed.
(** *** The point of a box nearest to a point, one coordinate *)
Lemma clamp_spec (x k lo hi : nf p e) : fin x -> fin k ->
  x_le (nf_value lo) (nf_value k) -> x_le (nf_value k) (nf_value hi) ->
  let c := s_min S (s_max S x lo) hi in
  fin c /\ Rabs (rv c - rv x) <= Rabs (rv k - rv x) /\ x_le (nf_value lo) (nf_value c) /\ x_le (nf_value c) (nf_value hi).
Proof.
  intros Hx Hk H1 H2. assert (Ex := fin_rv x Hx). assert (Ek := fin_rv k Hk).
  assert (R0 : forall a : xreal, x_le a a) by (intros [| |]; cbn; auto; lra).
  assert (B : forall c : nf p e, fin c -> (rv x <= rv c <= rv k \/ rv k <= rv c <= rv x) -> Rabs (rv c - rv x) <= Rabs (rv k - rv x)).
  { intros c _ [H|H]; [rewrite !Rabs_pos_eq by lra; lra|rewrite !Rabs_left1 by lra; lra]. }
  assert (F : forall c : nf p e, x_le (XReal (rv x)) (nf_value c) -> x_le (nf_value c) (XReal (rv k)) -> fin c /\ rv x <= rv c <= rv k).
  { intros c. intros G1 G2. assert (Hc : fin c) by (destruct (nf_value c); cbn in *; eauto; contradiction). split; [exact Hc|].
    rewrite (fin_rv c Hc) in *. split; assumption. }
  assert (F' : forall c : nf p e, x_le (XReal (rv k)) (nf_value c) -> x_le (nf_value c) (XReal (rv x)) -> fin c /\ rv k <= rv c <= rv x).
  { intros c. intros G1 G2. assert (Hc : fin c) by (destruct (nf_value c); cbn in *; eauto; contradiction). split; [exact Hc|].
    rewrite (fin_rv c Hc) in *. split; assumption. }
  assert (T := fun a b => nf_le p e a b). assert (Lt : forall a b, s_le S a b = false -> x_le (nf_value b) (nf_value a)).
  { intros a b H. destruct (x_le_total (nf_value a) (nf_value b)) as [G|G]; [|exact G]. apply nf_le in G. congruence. }
  cbv zeta. unfold s_max, s_min. destruct (s_le S x lo) eqn:C1.
  - apply nf_le in C1. assert (C2 : s_le S lo hi = true) by (apply nf_le; eapply x_le_trans; eassumption). rewrite C2.
    rewrite Ex in C1. rewrite Ek in H1. destruct (F lo C1 H1) as [G1 G2]. split; [exact G1|]. split; [apply B; auto|].
    split; [apply R0|]. apply nf_le. exact C2.
  - apply Lt in C1. destruct (s_le S x hi) eqn:C2.
    + apply nf_le in C2. split; [exact Hx|]. split; [|split; assumption].
      replace (rv x - rv x) with 0 by ring. rewrite Rabs_R0. apply Rabs_pos.
    + apply Lt in C2. rewrite Ex in C2. rewrite Ek in H2. destruct (F' hi H2 C2) as [G1 G2]. split; [exact G1|]. split; [apply B; auto|].
      split; [|apply R0]. rewrite Ek in H1. eapply x_le_trans; [exact H1|]. exact H2.
Qed.

(** *** The order of the distances *)
Lemma sf_flip x y : nf_ok p e x = true -> nf_ok p e y = true -> SFcompare y x = option_map CompOpp (SFcompare x y).
Proof.
  intros Hx Hy. destruct x as [[]|[]| |[] m ex], y as [[]|[]| |[] m' ex']; try discriminate; try reflexivity; cbn [SFcompare option_map];
      repeat match goal with |- context [Pos.compare_cont Eq ?a ?b] => change (Pos.compare_cont Eq a b) with (a ?= b)%positive end;
      rewrite (Z.compare_antisym ex ex'), (Pos.compare_antisym m m'); destruct (ex ?= ex')%Z; cbn; try reflexivity;
      f_equal; now destruct (m ?= m')%positive.
Qed.
Lemma sf_some x y : nf_ok p e x = true -> nf_ok p e y = true -> SFcompare x y <> None.
Proof. intros Hx Hy. destruct x as [s|[]| |[] m ex], y as [s'|[]| |[] m' ex']; try discriminate. Qed.

Lemma nf_cmp_le (a b : nf p e) : nf_cmp a b <> Gt <-> x_le (nf_value a) (nf_value b).
Proof.
  rewrite <- nf_le. cbn [nf_ops s_le]. unfold nf_cmp, n64_cmp_f, SFleb, SFltb, SFeqb.
  assert (Hs := sf_some _ _ (nf_prop p e a) (nf_prop p e b)).
  destruct (SFcompare (nf_raw a) (nf_raw b)) as [[]|]; split; congruence.
Qed.
Lemma nf_cmp_laws : cmp_laws (@nf_cmp p e).
Proof.
  constructor.
  - intros a b. unfold nf_cmp, n64_cmp_f, SFltb, SFeqb.
    assert (Hs := sf_some _ _ (nf_prop p e a) (nf_prop p e b)). rewrite (sf_flip _ _ (nf_prop p e a) (nf_prop p e b)).
    destruct (SFcompare (nf_raw a) (nf_raw b)) as [[]|]; try reflexivity. congruence.
  - intros a b c. rewrite !nf_cmp_le. apply x_le_trans.
Qed.

(** *** Vectors *)
Lemma diffs_le D (a k x : svec (nf p e) D) : finite_point a -> finite_point k -> finite_point x ->
  Forall2 (fun c q => Rabs (rv (fst c) - rv (snd c)) <= Rabs (rv (fst q) - rv (snd q))) (vzip a x) (vzip k x) ->
  Forall2 (fun x y => x_le (nf_value (a_mul A x x)) (nf_value (a_mul A y y))) (vlist (vmap2 (a_sub A) a x)) (vlist (vmap2 (a_sub A) k x)).
Proof.
  unfold vzip. induction D as [|D IH]; intros Ha Hk Hx H; [constructor|]. cbn [vlist vmap2 combine fst snd] in *.
  inversion Ha; inversion Hk; inversion Hx; inversion H; subst. constructor; [|now apply IH].
  rewrite !gap_value by assumption. now apply gapx_le.
Qed.

Lemma point_dist_le D (a k x : svec (nf p e) (Datatypes.S D)) : finite_point a -> finite_point k -> finite_point x ->
  Forall2 (fun c q => Rabs (rv (fst c) - rv (snd c)) <= Rabs (rv (fst q) - rv (snd q))) (vzip a x) (vzip k x) ->
  x_le (nf_value (point_dist_sq A a x)) (nf_value (point_dist_sq A k x)).
Proof.
  intros Ha Hk Hx H. assert (G := diffs_le _ a k x Ha Hk Hx H). cbn [vmap2 vlist] in G. inversion G; subst.
  unfold point_dist_sq, sq_mag. cbn [vmap2 fst snd]. apply sum_le; [apply mul_nonneg|assumption|assumption].
Qed.

Lemma clamp_vec D (b : saabb (nf p e) D) (k x : svec (nf p e) D) : finite_point x -> finite_point k -> x_in_box b k ->
  let c := cw_min S (cw_max S x (bmin b)) (bmax b) in
  finite_point c /\ x_in_box b c /\
  Forall2 (fun c q => Rabs (rv (fst c) - rv (snd c)) <= Rabs (rv (fst q) - rv (snd q))) (vzip c x) (vzip k x).
Proof.
  destruct b as [lo hi]. unfold x_in_box, vzip. cbn [bmin bmax]. cbv zeta. induction D as [|D IH]; intros Hx Hk [H1 H2]; [repeat split; constructor|].
  inversion Hx as [|? ? Hx1 Hx2]; subst. inversion Hk as [|? ? Hk1 Hk2]; subst. inversion H1 as [|? ? ? ? H11 H12]; subst. inversion H2 as [|? ? ? ? H21 H22]; subst.
  destruct (IH (snd lo) (snd hi) (snd k) (snd x) Hx2 Hk2 (conj H12 H22)) as (I1 & [I2 I3] & I4).
  destruct (clamp_spec (fst x) (fst k) (fst lo) (fst hi) Hx1 Hk1 H11 H21) as (C1 & C2 & C3 & C4).
  split; [constructor; [exact C1|exact I1]|]. split; [split; constructor; assumption|]. cbn. constructor; assumption.
Qed.

(** *** The rankings are lawful *)
Lemma fp_points_lawful D VO (x : svec (nf p e) (Datatypes.S D)) : finite_point x ->
  ranking_lawful (point_params S VO) (box_incl S) finite_point nf_cmp (euclid_points S A x).
Proof.
  intros Hx b k Hk [H1 H2]. cbn in H1, H2. apply nf_cmp_le. cbn [euclid_points bounds_min rank_key]. unfold box_dist_sq.
  apply vec_le_xle in H1, H2. destruct (clamp_vec _ b k x Hx Hk (conj H1 H2)) as (C1 & _ & C3). now apply point_dist_le.
Qed.

Lemma fp_boxes_lawful D VO (x : svec (nf p e) (Datatypes.S D)) : finite_point x ->
  ranking_lawful (box_params S VO) (box_incl S) (fun k => exists q, finite_point q /\ x_in_box k q) nf_cmp (euclid_boxes S A x).
Proof.
  intros Hx b k (q & Hq & Hk) [H1 H2]. cbn in H1, H2. apply nf_cmp_le. cbn [euclid_boxes bounds_min rank_key]. unfold box_dist_sq.
  destruct (clamp_vec _ k q x Hx Hq Hk) as (C1 & C2 & _).
  assert (C2' : x_in_box b (cw_min S (cw_max S x (bmin k)) (bmax k))).
  { apply in_box_x. apply in_box_x in C2 as [G1 G2]. split; eapply (vec_le_trans S (nf_order p e)); eassumption. }
  destruct (clamp_vec _ b _ x Hx C1 C2') as (D1 & _ & D3). now apply point_dist_le.
Qed.

(** *** No NaN *)
Definition raw_vec {D} (v : svec (nf p e) D) : svec spec_float D := vmap nf_raw v.
Lemma diffs_raw D (a x : svec (nf p e) D) : finite_point a -> finite_point x ->
  map nf_raw (vlist (vmap2 (a_sub A) a x)) = vlist (vmap2 (a_sub (sf_arith p e)) (raw_vec a) (raw_vec x)).
Proof.
  induction D as [|D IH]; intros Ha Hx; [reflexivity|]. inversion Ha; inversion Hx; subst. cbn [vlist vmap2 map raw_vec vmap fst snd].
  f_equal; [now apply asub_raw|now apply IH].
Qed.
Lemma point_dist_raw D (a x : svec (nf p e) (Datatypes.S D)) : finite_point a -> finite_point x ->
  nf_raw (point_dist_sq A a x) = point_dist_sq (sf_arith p e) (raw_vec a) (raw_vec x).
Proof.
  intros Ha Hx. assert (G := diffs_raw _ a x Ha Hx). unfold point_dist_sq, sq_mag. cbn [vmap2 vlist map fst snd raw_vec vmap] in *.
  assert (G1 := f_equal (fun l => hd (S754_zero false) l) G). assert (G2 := f_equal (@tl _) G). cbn [hd tl] in G1, G2.
  rewrite sum_raw by apply mul_nonneg. rewrite G2, amul_raw, G1. reflexivity.
Qed.

(** *** Accuracy *)
Notation u := (fp_u p).
Notation eta := (fp_eta p e).
Lemma u_bpow : u = / 2 * bpow radix2 (- p + 1).
Proof. unfold fp_u. rewrite bpow_plus, bpow_powerRZ. change (radix_val radix2) with 2%Z. change (bpow radix2 1) with 2. field. Qed.
Lemma eta_bpow : eta = / 2 * bpow radix2 (3 - e - p).
Proof.
  unfold fp_eta. replace (3 - e - p)%Z with ((2 - e - p) + 1)%Z by lia.
  rewrite bpow_plus, bpow_powerRZ. change (radix_val radix2) with 2%Z. change (bpow radix2 1) with 2. field.
Qed.
Lemma u_range : 0 < u < 1.
Proof.
  rewrite u_bpow. split; [assert (H := bpow_gt_0 radix2 (- p + 1)); lra|].
  assert (H : bpow radix2 (- p + 1) <= bpow radix2 0) by (apply bpow_le; destruct Hf; lia). cbn in H. lra.
Qed.
Lemma eta_pos : 0 < eta.
Proof. rewrite eta_bpow. assert (H := bpow_gt_0 radix2 (3 - e - p)). lra. Qed.

Lemma coord_rv x : fin x -> coord x = rv x.
Proof. intros H. unfold coord. now rewrite (fin_rv x H). Qed.
Lemma fexp_FLT : fexp_ = FLT_exp (3 - e - p) p.
Proof. reflexivity. Qed.
Lemma rv_format x : generic_format radix2 (FLT_exp (3 - e - p) p) (rv x).
Proof. unfold rv. rewrite <- fb_R. apply generic_format_B2R. Qed.

Lemma rnd_sum x y : generic_format radix2 (FLT_exp (3 - e - p) p) x -> generic_format radix2 (FLT_exp (3 - e - p) p) y ->
  Rabs (frnd (x + y) - (x + y)) <= u * Rabs (x + y).
Proof.
  intros Hx Hy. unfold frnd. rewrite fexp_FLT.
  destruct (FLT_plus_error_N_ex radix2 (3 - e - p) p (fun t => negb (Z.even t)) x y Hx Hy) as (eps & H1 & H2). rewrite H2.
  replace ((x + y) * (1 + eps) - (x + y)) with (eps * (x + y)) by ring. rewrite Rabs_mult. apply Rmult_le_compat_r; [apply Rabs_pos|].
  eapply Rle_trans; [exact H1|]. unfold u_ro. rewrite u_bpow.
  assert (0 < / 2 * bpow radix2 (- p + 1)) by (assert (H := bpow_gt_0 radix2 (- p + 1)); lra).
  apply Rle_trans with (/ 2 * bpow radix2 (- p + 1) / 1); [|lra]. unfold Rdiv. apply Rmult_le_compat_l; [lra|]. apply Rinv_le; lra.
Qed.
Lemma rnd_any x : Rabs (frnd x - x) <= u * Rabs x + eta.
Proof.
  unfold frnd. rewrite fexp_FLT.
  destruct (error_N_FLT radix2 (3 - e - p) p fHp (fun t => negb (Z.even t)) x) as (eps & et & H1 & H2 & _ & H4). rewrite H4.
  replace (x * (1 + eps) + et - x) with (eps * x + et) by ring. eapply Rle_trans; [apply Rabs_triang|]. rewrite Rabs_mult.
  rewrite eta_bpow, u_bpow. apply Rplus_le_compat; [|exact H2]. apply Rmult_le_compat_r; [apply Rabs_pos|exact H1].
Qed.

(** The extended number [w] approximates [X], a sum of [n] squares, after [a] roundings. *)
Definition approx (a n : nat) (X : R) (w : xreal) : Prop :=
  match w with
  | XMinus => False
  | XReal r => (1 - u) ^ a * X - INR n * eta <= r <= (1 + u) ^ a * (X + INR n * eta)
  | XPlus => fmax_ <= (1 + u) ^ a * (X + INR n * eta)
  end.

Lemma sub_approx x y : fin x -> fin y ->
  match rx (Rabs (rv x - rv y)) with
  | XReal r => (1 - u) * Rabs (rv x - rv y) <= r <= (1 + u) * Rabs (rv x - rv y)
  | XPlus => fmax_ <= (1 + u) * Rabs (rv x - rv y)
  | XMinus => False
  end.
Proof.
  intros Hx Hy. assert (H : Rabs (frnd (rv x - rv y) - (rv x - rv y)) <= u * Rabs (rv x - rv y)).
  { unfold Rminus at 2 3 4. apply rnd_sum; [apply rv_format|]. apply generic_format_opp, rv_format. }
  assert (H' : Rabs (frnd (Rabs (rv x - rv y)) - Rabs (rv x - rv y)) <= u * Rabs (rv x - rv y)).
  { rewrite <- frnd_abs. eapply Rle_trans; [apply Rabs_triang_inv2|exact H]. }
  apply Rabs_le_inv in H'. unfold rx. destruct (Rlt_bool_spec (frnd (Rabs (rv x - rv y))) fmax_); lra.
Qed.

Lemma fmax_ge : 1 <= fmax_.
Proof. apply (bpow_le radix2 0 e). destruct Hf. lia. Qed.

Lemma gap_approx x y : fin x -> fin y -> approx 3 1 ((rv x - rv y) * (rv x - rv y)) (gapx x y).
Proof.
  intros Hx Hy. assert (H := sub_approx x y Hx Hy). unfold gapx. set (g := Rabs (rv x - rv y)) in *.
  replace ((rv x - rv y) * (rv x - rv y)) with (g * g) by (unfold g; rewrite <- Rabs_mult; apply Rabs_pos_eq, Rle_0_sqr).
  assert (Hg : 0 <= g) by apply Rabs_pos. assert (Hu := u_range). assert (He := eta_pos). assert (Hm := fmax_ge).
  destruct (rx g) as [|r|]; [contradiction| |]; cbn [sqx].
  - assert (Hr : 0 <= r) by nra. assert (H2 := rnd_any (r * r)). rewrite (Rabs_pos_eq (r * r)) in H2 by nra. apply Rabs_le_inv in H2.
    assert (L1 : (1 - u) * (1 - u) * (g * g) <= r * r).
    { replace ((1 - u) * (1 - u) * (g * g)) with (((1 - u) * g) * ((1 - u) * g)) by ring. apply Rmult_le_compat; nra. }
    assert (L2 : r * r <= (1 + u) * (1 + u) * (g * g)).
    { replace ((1 + u) * (1 + u) * (g * g)) with (((1 + u) * g) * ((1 + u) * g)) by ring. apply Rmult_le_compat; nra. }
    assert (G1 : (1 - u) ^ 3 * (g * g) <= (1 - u) * (r * r)).
    { replace ((1 - u) ^ 3 * (g * g)) with ((1 - u) * ((1 - u) * (1 - u) * (g * g))) by ring. apply Rmult_le_compat_l; lra. }
    assert (G2 : (1 + u) * (r * r) + eta <= (1 + u) ^ 3 * (g * g + 1 * eta)).
    { assert (K : (1 + u) * (r * r) <= (1 + u) ^ 3 * (g * g)).
      { replace ((1 + u) ^ 3 * (g * g)) with ((1 + u) * ((1 + u) * (1 + u) * (g * g))) by ring. apply Rmult_le_compat_l; lra. }
      assert (1 <= (1 + u) ^ 3) by (apply pow_R1_Rle; lra).
      assert (1 * eta <= (1 + u) ^ 3 * eta) by (apply Rmult_le_compat_r; lra). rewrite Rmult_plus_distr_l. lra. }
    unfold rx. destruct (Rlt_bool_spec (frnd (r * r)) fmax_); cbn [approx]; change (INR 1) with 1; [split|]; lra.
  - cbn [approx]. change (INR 1) with 1.
    assert (K : fmax_ * fmax_ <= (1 + u) ^ 2 * (g * g)).
    { replace ((1 + u) ^ 2 * (g * g)) with (((1 + u) * g) * ((1 + u) * g)) by ring. apply Rmult_le_compat; lra. }
    assert (K2 : (1 + u) ^ 2 * (g * g) <= (1 + u) ^ 3 * (g * g)).
    { apply Rmult_le_compat_r; [nra|]. apply Rle_pow; [lra|lia]. }
    assert (0 <= (1 + u) ^ 3) by (apply pow_le; lra). assert (0 <= (1 + u) ^ 3 * eta) by (apply Rmult_le_pos; lra).
    assert (fmax_ * 1 <= fmax_ * fmax_) by (apply Rmult_le_compat_l; lra). lra.
Qed.

Lemma approx_nonneg a n X w : 0 <= X -> approx a n X w -> 0 <= (1 + u) ^ a * (X + INR n * eta).
Proof.
  intros HX _. assert (Hu := u_range). assert (He := eta_pos). assert (0 <= INR n) by apply pos_INR.
  apply Rmult_le_pos; [apply pow_le; lra|]. nra.
Qed.

Lemma add_approx a n X Y (x y : nf p e) : (3 <= a)%nat -> 0 <= X -> 0 <= Y -> x_nonneg (nf_value x) -> x_nonneg (nf_value y) ->
  approx a n X (nf_value x) -> approx 3 1 Y (nf_value y) -> approx (Datatypes.S a) (Datatypes.S n) (X + Y) (addx (nf_value x) (nf_value y)).
Proof.
  intros Ha HX HY Nx Ny Ax Ay. assert (Hu := u_range). assert (He := eta_pos). assert (Hn : 0 <= INR n) by apply pos_INR.
  assert (P1 : (1 - u) ^ a <= (1 - u) ^ 3 /\ 0 <= (1 - u) ^ a).
  { split; [|apply pow_le; lra]. replace a with (3 + (a - 3))%nat by lia. rewrite pow_add.
    assert (0 <= (1 - u) ^ 3) by (apply pow_le; lra). assert ((1 - u) ^ (a - 3) <= 1).
    2:{ rewrite <- (Rmult_1_r ((1 - u) ^ 3)) at 2. now apply Rmult_le_compat_l. }
    assert (K := pow_incr (1 - u) 1 (a - 3) ltac:(lra)). now rewrite pow1 in K. }
  assert (P2 : (1 + u) ^ 3 <= (1 + u) ^ a) by (apply Rle_pow; [lra|exact Ha]).
  assert (P3 : 1 <= (1 + u) ^ 3) by (apply pow_R1_Rle; lra).
  assert (UB : forall t, t <= (1 + u) ^ a * (X + INR n * eta) + (1 + u) ^ 3 * (Y + INR 1 * eta) ->
             0 <= t -> (1 + u) * t <= (1 + u) ^ Datatypes.S a * (X + Y + INR (Datatypes.S n) * eta)).
  { intros t Ht Ht0. rewrite S_INR. change (INR 1) with 1 in Ht. cbn [pow]. rewrite Rmult_assoc. apply Rmult_le_compat_l; [lra|].
    eapply Rle_trans; [exact Ht|]. assert ((1 + u) ^ 3 * (Y + 1 * eta) <= (1 + u) ^ a * (Y + 1 * eta)) by (apply Rmult_le_compat_r; lra).
    replace ((1 + u) ^ a * (X + Y + (INR n + 1) * eta)) with ((1 + u) ^ a * (X + INR n * eta) + (1 + u) ^ a * (Y + 1 * eta)) by ring. lra. }
  assert (Z1 : 0 <= (1 + u) ^ a * (X + INR n * eta)) by (apply Rmult_le_pos; [lra|nra]).
  assert (Z2 : 0 <= (1 + u) ^ 3 * (Y + INR 1 * eta)) by (apply Rmult_le_pos; [lra|cbn; nra]).
  assert (Hm := fmax_ge).
  assert (OV : forall t, fmax_ <= t -> t <= (1 + u) ^ a * (X + INR n * eta) + (1 + u) ^ 3 * (Y + INR 1 * eta) ->
             fmax_ <= (1 + u) ^ Datatypes.S a * (X + Y + INR (Datatypes.S n) * eta)).
  { intros t H1 H2. specialize (UB t H2 ltac:(lra)). nra. }
  destruct (nf_value x) as [|r|] eqn:Ex; [contradiction| |].
  2:{ cbn [addx approx] in *. apply (OV _ Ax). lra. }
  destruct (nf_value y) as [|s|] eqn:Ey; [contradiction| |].
  2:{ cbn [addx approx] in *. apply (OV _ Ay). lra. }
  cbn [addx approx x_nonneg x_le] in *.
  assert (Er : rv x = r) by (assert (H := fin_rv x (ex_intro _ r Ex)); congruence).
  assert (Es : rv y = s) by (assert (H := fin_rv y (ex_intro _ s Ey)); congruence).
  assert (H := rnd_sum r s). rewrite <- Er, <- Es in H at 1. specialize (H (rv_format x) (rv_format y)).
  rewrite (Rabs_pos_eq (r + s)) in H by lra. apply Rabs_le_inv in H.
  specialize (UB (r + s) ltac:(lra) ltac:(lra)).
  unfold rx. destruct (Rlt_bool_spec (frnd (r + s)) fmax_); cbn [approx]; [split|]; [|lra|lra].
  rewrite S_INR. cbn [pow]. destruct Ax as [Ax _], Ay as [Ay _]. change (INR 1) with 1 in Ay.
  assert (K : (1 - u) ^ a * (X + Y) - (INR n + 1) * eta <= r + s).
  { assert ((1 - u) ^ a * Y <= (1 - u) ^ 3 * Y) by (apply Rmult_le_compat_r; lra). lra. }
  assert (K2 : (1 - u) * ((1 - u) ^ a * (X + Y) - (INR n + 1) * eta) <= (1 - u) * (r + s)) by (apply Rmult_le_compat_l; lra).
  assert (0 <= u * ((INR n + 1) * eta)) by (apply Rmult_le_pos; [lra|nra]). lra.
Qed.

Lemma sum_approx D (a x : svec (nf p e) D) (acc : nf p e) n m X : finite_point a -> finite_point x -> (3 <= m)%nat -> 0 <= X ->
  x_nonneg (nf_value acc) -> approx m n X (nf_value acc) ->
  approx (m + D) (n + D) (X + rdist2 a x) (nf_value (fold_left (a_add A) (map (fun x => a_mul A x x) (vlist (vmap2 (a_sub A) a x))) acc)).
Proof.
  unfold rdist2, vzip. revert acc n m X; induction D as [|D IH]; intros acc n m X Ha Hx Hm HX Hn Happ.
  - cbn. rewrite Rplus_0_r, !Nat.add_0_r. exact Happ.
  - inversion Ha as [|? ? Ha1 Ha2]; inversion Hx as [|? ? Hx1 Hx2]; subst. cbn [vlist vmap2 map fold_left combine fold_right fst snd].
    rewrite <- Rplus_assoc, <- !Nat.add_succ_comm. rewrite !coord_rv by assumption.
    apply IH; try assumption; try lia.
    + apply Rplus_le_le_0_compat; [exact HX|apply Rle_0_sqr].
    + rewrite add_value by (assumption || apply mul_nonneg). apply addx_nonneg; [assumption|apply mul_nonneg].
    + rewrite add_value by (assumption || apply mul_nonneg). apply add_approx; try assumption; try apply Rle_0_sqr; [apply mul_nonneg|].
      rewrite gap_value by assumption. now apply gap_approx.
Qed.

Lemma dist_approx D (a x : svec (nf p e) (Datatypes.S D)) : finite_point a -> finite_point x ->
  approx (3 + D) (1 + D) (rdist2 a x) (nf_value (point_dist_sq A a x)).
Proof.
  intros Ha Hx. unfold point_dist_sq, sq_mag. cbn [vmap2 fst snd].
  inversion Ha as [|? ? Ha1 Ha2]; inversion Hx as [|? ? Hx1 Hx2]; subst.
  change (rdist2 a x) with ((coord (fst a) - coord (fst x)) * (coord (fst a) - coord (fst x)) + rdist2 (snd a) (snd x)).
  rewrite !coord_rv by assumption. apply sum_approx; try assumption; try lia; [apply Rle_0_sqr|apply mul_nonneg|].
  rewrite gap_value by assumption. now apply gap_approx.
Qed.

Lemma x_le_refl a : x_le a a.
Proof. destruct a; cbn; auto; lra. Qed.

Lemma rdist2_le D (a k x : svec (nf p e) D) : finite_point a -> finite_point k -> finite_point x ->
  Forall2 (fun c q => Rabs (rv (fst c) - rv (snd c)) <= Rabs (rv (fst q) - rv (snd q))) (vzip a x) (vzip k x) ->
  rdist2 a x <= rdist2 k x.
Proof.
  unfold rdist2, vzip. induction D as [|D IH]; intros Ha Hk Hx H; [cbn; lra|]. cbn [vlist combine map fold_right fst snd] in *.
  inversion Ha; inversion Hk; inversion Hx; inversion H; subst. apply Rplus_le_compat; [|now apply IH].
  rewrite !coord_rv by assumption. cbn [fst snd] in *. apply Rsqr_le_abs_1. assumption.
Qed.
End Rounded.
