(** Lengths of segments: proofs. *)
From Coq Require Import Reals Lra Floats.SpecFloat.
From Flocq Require Import Core Relative BinarySingleNaN.
From Verif Require Import GeomProof LenModel LenSpec FpDist FpSphereProof FpSegProof SegFloat SphereProof FloatReal.
Local Open Scope R_scope.
Notation u := (fp_u 53).
Notation A64 := (nf_arith 53 1024).
Notation max64 := (fmax_ 1024).
Notation rnd64 := (frnd 53 1024).
Local Instance lHp : FLX.Prec_gt_0 53 := eq_refl.
Local Instance lHe : Prec_lt_emax 53 1024 := eq_refl.

(** *** Square roots *)
Lemma fsqrt_equiv (x : binary_float 53 1024) : f64_sqrt (B2SF x) = B2SF (Bsqrt mode_NE x).
Proof.
  unfold f64_sqrt. case x as [sx|sx| |sx mx ex Bx]; [now (trivial || case sx)..|]. case sx; [reflexivity|].
  cbn [B2SF SFsqrt Bsqrt]. rewrite B2SF_SF2B. set (melz := SFsqrt_core_binary _ _ _ _). case melz as [[mz ez] lz].
  apply (fbinary_round_aux 53 1024).
Qed.

Lemma sqrt_value (x : n64) : x_nonneg (nf_value x) ->
  f64_sqrt (nf_raw x) <> S754_nan /\
  sf_value (f64_sqrt (nf_raw x)) = match nf_value x with XReal r => XReal (rnd64 (sqrt r)) | v => v end.
Proof.
  intros Hx. rewrite <- (fb_raw 53 1024 x). rewrite fsqrt_equiv.
  assert (H := Bsqrt_correct 53 1024 lHp lHe mode_NE (fb 53 1024 x)). destruct H as (H1 & H2 & _).
  unfold nf_value in *. rewrite <- (fb_raw 53 1024 x) in Hx |- *.
  destruct (fb 53 1024 x) as [s|[]| |s m ex B] eqn:E; cbn [B2SF sf_value x_nonneg x_le] in Hx.
  - cbn. split; [discriminate|]. rewrite sqrt_0. unfold frnd. now rewrite round_0 by apply valid_rnd_N.
  - contradiction.
  - cbn. split; [discriminate|reflexivity].
  - exfalso. assert (Hn := nf_prop 53 1024 x). rewrite <- (fb_raw 53 1024 x), E in Hn. discriminate.
  - destruct s.
    { exfalso. assert (0 < IZR (Z.pos m)) by (apply IZR_lt; lia). assert (0 < powerRZ 2 ex) by (apply powerRZ_lt; lra). nra. }
    set (y := Bsqrt mode_NE (B754_finite false m ex B)) in *. split; [destruct y; (discriminate || (cbn in H2; discriminate))|].
    rewrite (fb_value_fin 53 1024) by exact H2. rewrite H1. cbn [B2SF]. rewrite (fin_value (S754_finite false m ex)) by reflexivity. reflexivity.
Qed.

Lemma rel_u x : bpow radix2 (-1022) <= Rabs x -> Rabs (rnd64 x - x) <= u * Rabs x.
Proof.
  intros H. destruct (rnd_rel' x H) as (d & D1 & D2). change (rnd64 x) with (rnd x). rewrite D2.
  replace (x * (1 + d) - x) with (d * x) by ring. rewrite Rabs_mult. apply Rmult_le_compat_r; [apply Rabs_pos|exact D1].
Qed.

(** The square root of a double is far from underflow. *)
Lemma sqrt_rel (x : n64) r : nf_value x = XReal r -> 0 <= r -> (1 - u) * sqrt r <= rnd64 (sqrt r) <= (1 + u) * sqrt r.
Proof.
  intros E Hr. destruct (Req_dec r 0) as [->|Hn].
  { rewrite sqrt_0. unfold frnd. rewrite round_0 by apply valid_rnd_N. lra. }
  assert (Hs := sqrt_pos r).
  assert (B : bpow radix2 (-1022) <= Rabs (sqrt r)).
  { rewrite Rabs_pos_eq by exact Hs. rewrite <- (sqrt_Rsqr (bpow radix2 (-1022))) by apply bpow_ge_0. apply sqrt_le_1_alt. unfold Rsqr. rewrite <- bpow_plus.
    assert (F := rv_format 53 1024 x). assert (Er : FpDist.rv 53 1024 x = r) by (assert (K := fin_rv 53 1024 x (ex_intro _ r E)); congruence). rewrite Er in F.
    apply FLT_format_generic in F; [|exact lHp]. destruct F as [g G1 G2 G3].
    assert (bpow radix2 (-1074) <= r).
    { rewrite G1. unfold F2R. assert (Hg : (0 < Fnum g)%Z) by (apply (gt_0_F2R radix2 _ (Fexp g)); replace (F2R {| Fnum := Fnum g; Fexp := Fexp g |}) with r by (rewrite G1; now destruct g); lra).
      assert (1 <= IZR (Fnum g)) by (apply IZR_le; lia). assert (bpow radix2 (-1074) <= bpow radix2 (Fexp g)) by (apply bpow_le; lia).
      assert (0 <= bpow radix2 (-1074)) by apply bpow_ge_0. nra. }
    eapply Rle_trans; [|exact H]. apply bpow_le. lia. }
  apply rel_u in B. rewrite (Rabs_pos_eq (sqrt r)) in B by exact Hs. apply Rabs_le_inv in B. lra.
Qed.

(** *** Sums of squares of integers: relative errors only *)
Definition relx (n : nat) (X : R) (w : xreal) : Prop :=
  match w with
  | XMinus => False
  | XReal r => (1 - u) ^ n * X <= r <= (1 + u) ^ n * X
  | XPlus => max64 <= (1 + u) ^ n * X
  end.

Lemma relx_mono n X w : 0 <= X -> relx n X w -> relx (Datatypes.S n) X w.
Proof.
  intros HX. assert (Hu := u_range 53 1024 Hf64). assert (P1 : 0 <= (1 - u) ^ n * X) by (apply Rmult_le_pos; [apply pow_le; lra|exact HX]).
  assert (P2 : 0 <= (1 + u) ^ n * X) by (apply Rmult_le_pos; [apply pow_le; lra|exact HX]).
  destruct w as [|r|]; cbn [relx pow]; [trivial|intros H; split; nra|intros H; nra].
Qed.
Lemma relx_le n m X w : (n <= m)%nat -> 0 <= X -> relx n X w -> relx m X w.
Proof. intros H HX. induction H; [trivial|]. intros H1. apply relx_mono; auto. Qed.

Lemma sq_relx (x : n64) z : nf_value x = XReal (IZR z) -> relx 1 (IZR (z * z)) (nf_value (a_mul A64 x x)).
Proof.
  intros E. rewrite (mul_value64), E. cbn [xabs sqx]. rewrite <- Rabs_mult, <- mult_IZR, <- abs_IZR. assert (Hz : (0 <= z * z)%Z) by nia. rewrite Z.abs_eq by exact Hz.
  assert (B : Rabs (rnd64 (IZR (z * z)) - IZR (z * z)) <= u * Rabs (IZR (z * z))).
  { destruct (Z.eq_dec (z * z) 0) as [->|Hn].
    - unfold frnd. rewrite round_0 by apply valid_rnd_N. rewrite Rminus_0_r, Rabs_R0. lra.
    - apply rel_u. rewrite Rabs_pos_eq by now apply IZR_le. apply Rle_trans with (bpow radix2 0); [now apply bpow_le|]. change (bpow radix2 0) with (IZR 1). apply IZR_le. lia. }
  rewrite (Rabs_pos_eq (IZR (z * z))) in B by now apply IZR_le. apply Rabs_le_inv in B. set (X := IZR (z * z)) in *. unfold rx.
  destruct (Rlt_bool_spec (rnd64 X) max64); cbn [relx]; rewrite !pow_1; lra.
Qed.

Lemma add_relx n X Y (x y : n64) : 0 <= X -> 0 <= Y -> x_nonneg (nf_value x) -> x_nonneg (nf_value y) ->
  relx n X (nf_value x) -> relx n Y (nf_value y) -> relx (Datatypes.S n) (X + Y) (addx 53 1024 (nf_value x) (nf_value y)).
Proof.
  intros HX HY Nx Ny Ax Ay. assert (Hu := u_range 53 1024 Hf64). assert (Hm := fmax_ge 53 1024 Hf64).
  assert (P1 : 0 <= (1 + u) ^ n * X) by (apply Rmult_le_pos; [apply pow_le; lra|exact HX]).
  assert (P2 : 0 <= (1 + u) ^ n * Y) by (apply Rmult_le_pos; [apply pow_le; lra|exact HY]).
  assert (Q1 : 0 <= (1 - u) ^ n * X) by (apply Rmult_le_pos; [apply pow_le; lra|exact HX]).
  assert (Q2 : 0 <= (1 - u) ^ n * Y) by (apply Rmult_le_pos; [apply pow_le; lra|exact HY]).
  destruct (nf_value x) as [|r|] eqn:Ex; [contradiction| |].
  2:{ cbn [addx relx pow] in *. nra. }
  destruct (nf_value y) as [|s|] eqn:Ey; [contradiction| |].
  2:{ cbn [addx relx pow] in *. nra. }
  cbn [addx relx x_nonneg x_le] in *.
  assert (Er : FpDist.rv 53 1024 x = r) by (assert (H := fin_rv 53 1024 x (ex_intro _ r Ex)); congruence).
  assert (Es : FpDist.rv 53 1024 y = s) by (assert (H := fin_rv 53 1024 y (ex_intro _ s Ey)); congruence).
  assert (H := rnd_sum 53 1024 Hf64 r s). rewrite <- Er, <- Es in H at 1. specialize (H (rv_format 53 1024 x) (rv_format 53 1024 y)).
  rewrite (Rabs_pos_eq (r + s)) in H by lra. apply Rabs_le_inv in H.
  set (a := (1 - u) ^ n) in *. set (b := (1 + u) ^ n) in *.
  unfold rx. destruct (Rlt_bool_spec (rnd64 (r + s)) max64); cbn [relx pow]; fold a b; [split|]; nra.
Qed.

Lemma vlen {T} n (w : svec T n) : length (vlist w) = n.
Proof. induction n as [|n IH]; cbn; [reflexivity|]. now rewrite IH. Qed.
Definition int64 (x : n64) (z : Z) : Prop := nf_value x = XReal (IZR z).
Notation zsum := (fun zs => fold_right Z.add 0%Z (map (fun z => z * z)%Z zs)).
Lemma zsum_nonneg zs : (0 <= zsum zs)%Z.
Proof. induction zs; cbn; nia. Qed.

Lemma sum_relx l zs : Forall2 int64 l zs -> forall (acc : n64) n X, (1 <= n)%nat -> 0 <= X -> x_nonneg (nf_value acc) -> relx n X (nf_value acc) ->
  relx (n + length l) (X + IZR (zsum zs)) (nf_value (fold_left (a_add A64) (map (fun x => a_mul A64 x x) l) acc)).
Proof.
  induction 1 as [|x z l zs Hx H IH]; intros acc n X Hn HX Na Ha.
  - cbn [map fold_left length fold_right]. rewrite Rplus_0_r, Nat.add_0_r. exact Ha.
  - cbn [map fold_left length fold_right]. rewrite plus_IZR, <- Rplus_assoc, <- Nat.add_succ_comm.
    assert (Hz : 0 <= IZR (z * z)) by (apply IZR_le; nia). assert (Hm := mul_nonneg 53 1024 Hf64).
    apply IH; [lia|lra| |].
    + rewrite (add_value 53 1024 Hf64) by auto. apply addx_nonneg; auto; apply Hf64.
    + rewrite (add_value 53 1024 Hf64) by auto. apply add_relx; auto. apply (relx_le 1); [exact Hn|exact Hz|]. now apply sq_relx.
Qed.

Lemma mag_relx D (v : svec n64 (Datatypes.S D)) zs : Forall2 int64 (vlist v) zs ->
  relx (D + 1) (IZR (zsum zs)) (nf_value (sq_mag A64 v)) /\ x_nonneg (nf_value (sq_mag A64 v)).
Proof.
  intros H. unfold sq_mag. cbn [vlist] in *. inversion H as [|x z l zs' Hx Hl]; subst. split.
  - cbn [map fold_right]. rewrite plus_IZR. rewrite Nat.add_comm. assert (El : length (vlist (snd v)) = D) by apply vlen. rewrite <- El at 1.
    apply (sum_relx _ _ Hl); [lia|apply IZR_le; nia|apply mul_nonneg, Hf64|now apply sq_relx].
  - apply sum_nonneg; [apply Hf64|]. apply mul_nonneg, Hf64.
Qed.

Lemma mag_exact D (v : svec n64 (Datatypes.S D)) zs : Forall2 int64 (vlist v) zs -> (zsum zs <= 2 ^ 53)%Z ->
  nf_value (sq_mag A64 v) = XReal (IZR (zsum zs)).
Proof.
  intros H. unfold sq_mag. cbn [vlist] in *. inversion H as [|x z l zs' Hx Hl]; subst. cbn [map fold_right]. clear H.
  assert (SQ : forall (x : n64) z, int64 x z -> (z * z <= 2 ^ 53)%Z -> nf_value (a_mul A64 x x) = XReal (IZR (z * z))).
  { intros y w Hy Hw. rewrite mul_value64, Hy. cbn [xabs sqx]. rewrite <- Rabs_mult, <- mult_IZR, <- abs_IZR, Z.abs_eq by nia. apply (rx_int 53 1024 Hf64). nia. }
  assert (G : forall l zs, Forall2 int64 l zs -> forall acc a, (0 <= a)%Z -> nf_value acc = XReal (IZR a) -> (a + zsum zs <= 2 ^ 53)%Z ->
     nf_value (fold_left (a_add A64) (map (fun x => a_mul A64 x x) l) acc) = XReal (IZR (a + zsum zs))).
  { clear - SQ. induction 1 as [|x z l zs Hx H IH]; intros acc a Ha Ea Hb; cbn [map fold_left fold_right] in *; [now rewrite Z.add_0_r|].
    assert (Hz := zsum_nonneg zs). cbn in Hz. rewrite Z.add_assoc. apply IH; [nia| |lia].
    rewrite (add_value 53 1024 Hf64); [|rewrite Ea; cbn; now apply IZR_le|apply mul_nonneg, Hf64].
    rewrite Ea, (SQ x z Hx) by nia. cbn [addx]. rewrite <- plus_IZR. apply (rx_int 53 1024 Hf64). nia. }
  intros Hb. assert (Hz := zsum_nonneg zs'). cbn in Hz. apply G; [exact Hl|nia|apply SQ; [exact Hx|lia]|exact Hb].
Qed.

(** *** From the square to the root *)
Lemma sqrt_bounds m (x : n64) lo hi : x_nonneg (nf_value x) -> 0 <= lo -> 0 <= hi ->
  (match nf_value x with XReal r => lo <= r <= hi | XPlus => bpow radix2 (2 * m) <= hi | XMinus => False end) ->
  lies_between m ((1 - u) * sqrt lo) ((1 + u) * sqrt hi) (f64_sqrt (nf_raw x)).
Proof.
  intros Nx Hlo Hhi H. destruct (sqrt_value x Nx) as [N V]. split; [exact N|]. rewrite V. assert (Hu := u_range 53 1024 Hf64).
  destruct (nf_value x) as [|r|] eqn:E; [exact H| |].
  - cbn [x_nonneg x_le] in Nx. destruct (sqrt_rel x r E Nx) as [K1 K2]. destruct H as [H1 H2].
    assert (S1 := sqrt_le_1_alt _ _ H1). assert (S2 := sqrt_le_1_alt _ _ H2). nra.
  - assert (Eb : powerRZ 2 m = bpow radix2 m) by (rewrite bpow_powerRZ; reflexivity). rewrite Eb. assert (S1 := sqrt_le_1_alt _ _ H). replace (2 * m)%Z with (m + m)%Z in S1 by lia. rewrite bpow_plus in S1.
    rewrite sqrt_square in S1 by apply bpow_ge_0. assert (S2 := sqrt_pos hi). nra.
Qed.

Lemma sqrt_exact (x : n64) n : (0 <= n)%Z -> (n <= 2 ^ 53)%Z -> nf_value x = XReal (IZR (n * n)) -> sf_value (f64_sqrt (nf_raw x)) = XReal (IZR n).
Proof.
  intros H0 H1 E. assert (Nx : x_nonneg (nf_value x)) by (rewrite E; cbn; apply IZR_le; nia). destruct (sqrt_value x Nx) as [_ V]. rewrite V, E.
  rewrite mult_IZR, sqrt_square by now apply IZR_le. f_equal. change (rnd64 (IZR n)) with (rnd (IZR n)). apply rnd_int. lia.
Qed.

(** *** Segments with [i32] coordinates *)
Definition up32 (x : i32) : n64 := nf_of 53 1024 (i32_into_f64 x).
Lemma up32_spec x : nf_raw (up32 x) = i32_into_f64 x /\ int64 (up32 x) (i32_val x).
Proof.
  destruct (i32_rep x) as (b & E1 & E2 & E3).
  assert (R0 : nf_raw (up32 x) = i32_into_f64 x) by (apply nf_of_raw; rewrite <- E1; apply ok_B2SF; destruct b; discriminate).
  split; [exact R0|]. unfold int64, nf_value. rewrite R0, <- E1, (fb_value_fin 53 1024) by exact E2. now rewrite E3.
Qed.

Lemma mag_raw32 D (v : svec i32 (Datatypes.S D)) : sq_mag f64_arith (vmap i32_into_f64 v) = nf_raw (sq_mag A64 (vmap up32 v)).
Proof.
  unfold sq_mag. cbn [vmap fst snd]. rewrite (sum_raw 53 1024 Hf64) by (apply mul_nonneg, Hf64). rewrite (amul_raw 53 1024 Hf64), (proj1 (up32_spec _)).
  cbn [f64_arith a_add a_mul]. rewrite !vlist_vmap, !map_map. f_equal. apply map_ext. intros x. now rewrite (proj1 (up32_spec _)).
Qed.

Lemma delta_ints D (a b : svec i32 D) : Forall (fun ab => (- 2 ^ 31 <= i32_val (snd ab) - i32_val (fst ab) < 2 ^ 31)%Z) (vzip a b) ->
  Forall2 int64 (vlist (vmap up32 (vmap2 i32_sub b a))) (map (fun ab => i32_val (snd ab) - i32_val (fst ab))%Z (vzip a b)).
Proof.
  unfold vzip. induction D as [|D IH]; intros H; cbn [vlist vmap vmap2 combine map fst snd] in *; [constructor|].
  inversion H as [|? ? H1 H2]; subst. cbn [fst snd] in H1. constructor; [|now apply IH].
  destruct (up32_spec (i32_sub (fst b) (fst a))) as [_ E]. unfold int64 in *. rewrite E. do 2 f_equal. unfold i32_sub. rewrite i32_of_val. apply wrap32_small. lia.
Qed.

Lemma zlen2_sum D (l : line i32 D) : zlen2 l = zsum (map (fun ab => i32_val (snd ab) - i32_val (fst ab))%Z (vzip (line_0 l) (line_1 l))).
Proof. unfold zlen2. now rewrite map_map. Qed.

(** *** Segments of floats whose coordinates are integers *)
Lemma mag_int p e (Hf : fp_format p e) (Hp : (p <= 53)%Z) (He : (e <= 1024)%Z) M D (k c : svec (nf p e) (Datatypes.S D)) :
  (0 <= M)%Z -> (2 * M <= 2 ^ p)%Z -> (Z.of_nat (Datatypes.S D) * ((2 * M) * (2 * M)) <= 2 ^ 53)%Z ->
  Forall (int_at p e M) (vlist k) -> Forall (int_at p e M) (vlist c) ->
  nf_value (sq_mag A64 (vmap (FpSphereProof.up p e) (vmap2 (a_sub (nf_arith p e)) k c))) = XReal (FpSpec.rdist2 k c).
Proof.
  intros HM0 HM HD Hk Hc. unfold sq_mag. cbn [vmap vmap2 fst snd]. inversion Hk as [|? ? Hk1 Hk2]; inversion Hc as [|? ? Hc1 Hc2]; subst.
  rewrite Nat2Z.inj_succ in HD.
  destruct (gap_int p e Hf Hp He M (fst k) (fst c) HM ltac:(nia) Hk1 Hc1) as (g & G1 & G2 & G3).
  change (FpSpec.rdist2 k c) with ((coord (fst k) - coord (fst c)) * (coord (fst k) - coord (fst c)) + FpSpec.rdist2 (snd k) (snd c)).
  rewrite G1. apply (sum_int p e Hf Hp He) with (M := M); try assumption; try lia. now rewrite mul_value64.
Qed.
