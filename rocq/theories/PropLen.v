(** Property C77: the length of a segment.  Vocabulary: LenSpec.v. *)
From Coq Require Import Reals Lra Floats.SpecFloat.
From Flocq Require Import Core.
From Verif Require Import Witness PropFp PropFpDist FpDist FpSphereProof PropFpSphere LenModel LenSpec LenProof GeomProof.
Local Open Scope R_scope.

(** ** Integer coordinates *)

(** [Line::sq_len] and [Line::len] are the squared length and the length, up to a relative error of [2^-53] per operation,
    if no coordinate difference overflows. *)
Theorem C77_i32_partial :
  forall (D : nat) (l : line i32 (Datatypes.S D)),
  diffs_fit l ->
  let d2 := IZR (zlen2 l) in let u := fp_u 53 in
  lies_between 1024 ((1 - u) ^ (D + 1) * d2) ((1 + u) ^ (D + 1) * d2) (i32_line_sq_len l) /\
  lies_between 512 ((1 - u) * sqrt ((1 - u) ^ (D + 1) * d2)) ((1 + u) * sqrt ((1 + u) ^ (D + 1) * d2)) (i32_line_len l).
Proof.
  intros D l Hd d2 u. assert (Hu := u_range 53 1024 Hf64). fold u in Hu.
  unfold i32_line_len, i32_line_sq_len, line_sq_len, line_delta. rewrite mag_raw32.
  destruct (mag_relx D _ _ (delta_ints _ _ _ Hd)) as [H1 H2]. rewrite <- zlen2_sum in H1. fold d2 in H1.
  set (w := sq_mag (nf_arith 53 1024) (vmap up32 (vmap2 i32_sub (line_1 l) (line_0 l)))) in *.
  assert (P0 : 0 <= d2) by (unfold d2; apply IZR_le; rewrite zlen2_sum; apply zsum_nonneg).
  assert (P1 : 0 <= (1 - u) ^ (D + 1) * d2) by (apply Rmult_le_pos; [apply pow_le; lra|exact P0]).
  assert (P2 : 0 <= (1 + u) ^ (D + 1) * d2) by (apply Rmult_le_pos; [apply pow_le; lra|exact P0]).
  split.
  - split; [intros E; assert (K := nf_prop 53 1024 w); rewrite E in K; discriminate|].
    change (sf_value (nf_raw w)) with (nf_value w). destruct (nf_value w); [exact H1|exact H1|].
    unfold relx, fmax_ in H1. rewrite bpow_powerRZ in H1. exact H1.
  - apply sqrt_bounds; [exact H2|exact P1|exact P2|]. destruct (nf_value w); exact H1.
Qed.
Print Assumptions C77_i32_partial.

(** Up to a squared length of [2^53] the squared length is exact, the length is the square root rounded once, and an integer
    length is exact. *)
Theorem C77_i32_exact_partial :
  forall (D : nat) (l : line i32 (Datatypes.S D)),
  diffs_fit l -> (zlen2 l <= 2 ^ 53)%Z ->
  sf_value (i32_line_sq_len l) = XReal (IZR (zlen2 l)) /\
  lies_between 512 ((1 - fp_u 53) * sqrt (IZR (zlen2 l))) ((1 + fp_u 53) * sqrt (IZR (zlen2 l))) (i32_line_len l) /\
  (forall n, (0 <= n)%Z -> zlen2 l = (n * n)%Z -> sf_value (i32_line_len l) = XReal (IZR n)).
Proof.
  intros D l Hd Hb. unfold i32_line_len, i32_line_sq_len, line_sq_len, line_delta. rewrite mag_raw32.
  assert (E := mag_exact D _ _ (delta_ints _ _ _ Hd)). cbv beta in E. rewrite <- zlen2_sum in E. specialize (E Hb).
  set (w := sq_mag (nf_arith 53 1024) (vmap up32 (vmap2 i32_sub (line_1 l) (line_0 l)))) in *.
  assert (P0 : 0 <= IZR (zlen2 l)) by (apply IZR_le; rewrite zlen2_sum; apply zsum_nonneg).
  split; [exact E|]. split.
  - apply sqrt_bounds; try exact P0; rewrite E; [exact P0|lra].
  - intros n Hn En. apply sqrt_exact; [exact Hn|nia|]. rewrite E. now rewrite En.
Qed.
Print Assumptions C77_i32_exact_partial.

(** The length is 0 only for a segment whose ends are equal. *)
Theorem C77_i32_zero_partial :
  forall (D : nat) (l : line i32 (Datatypes.S D)),
  diffs_fit l ->
  (sf_value (i32_line_sq_len l) = XReal 0 <-> line_0 l = line_1 l) /\ (sf_value (i32_line_len l) = XReal 0 <-> line_0 l = line_1 l).
Proof.
  intros D l Hd. destruct (C77_i32_partial D l Hd) as [[_ B1] [_ B2]]. assert (Hu := u_range 53 1024 Hf64).
  assert (Z0 : line_0 l = line_1 l <-> zlen2 l = 0%Z).
  { clear. unfold zlen2, vzip. destruct l as [a b]. cbn [line_0 line_1]. revert a b. generalize (Datatypes.S D) as n. induction n as [|n IH]; intros a b; cbn [vlist combine map fold_right].
    - destruct a, b. now split.
    - destruct a as [x a], b as [y b]. cbn [fst snd]. specialize (IH a b).
      assert (K : (0 <= fold_right Z.add 0 (map (fun ab => (i32_val (snd ab) - i32_val (fst ab)) * (i32_val (snd ab) - i32_val (fst ab))) (combine (vlist a) (vlist b))))%Z)
        by (generalize (combine (vlist a) (vlist b)); intros z; induction z as [|q z IHz]; cbn [map fold_right]; [lia|]; assert (Q := Z.square_nonneg (i32_val (snd q) - i32_val (fst q))); lia).
      split.
      + intros E. injection E as -> ->. assert (IH' := proj1 IH eq_refl). rewrite IH'. lia.
      + intros E. assert (E1 : i32_val x = i32_val y) by nia. assert (E2 : a = b) by (apply IH; nia). rewrite E2. f_equal. now apply i32_eq. }
  assert (P0 : (0 <= zlen2 l)%Z) by (rewrite zlen2_sum; apply zsum_nonneg).
  assert (Q : 0 < (1 - fp_u 53) ^ (D + 1)) by (apply pow_lt; lra).
  assert (Q' : 0 < (1 + fp_u 53) ^ (D + 1)) by (apply pow_lt; lra).
  rewrite Z0. split; split.
  - intros E. rewrite E in B1. destruct (Z.eq_dec (zlen2 l) 0) as [|Hn]; [assumption|]. exfalso. assert (0 < IZR (zlen2 l)) by (apply IZR_lt; lia). nra.
  - intros E. rewrite E in B1. rewrite !Rmult_0_r in B1. destruct (sf_value (i32_line_sq_len l)); [contradiction|f_equal; lra|].
    exfalso. assert (0 < powerRZ 2 1024) by (apply powerRZ_lt; lra). lra.
  - intros E. rewrite E in B2. destruct (Z.eq_dec (zlen2 l) 0) as [|Hn]; [assumption|]. exfalso. assert (0 < IZR (zlen2 l)) by (apply IZR_lt; lia).
    assert (0 < sqrt ((1 - fp_u 53) ^ (D + 1) * IZR (zlen2 l))) by (apply sqrt_lt_R0; nra). nra.
  - intros E. rewrite E in B2. rewrite !Rmult_0_r, sqrt_0, !Rmult_0_r in B2. destruct (sf_value (i32_line_len l)); [contradiction|f_equal; lra|].
    exfalso. assert (0 < powerRZ 2 512) by (apply powerRZ_lt; lra). lra.
Qed.
Print Assumptions C77_i32_zero_partial.

(** A coordinate difference that overflows wraps around: the segment from [-2^31] to [2^31 - 1] has length 1. *)
Definition whole_line : line i32 1 := {| line_0 := (i32_of (- 2 ^ 31), tt) : svec i32 1; line_1 := (i32_of (2 ^ 31 - 1), tt) : svec i32 1 |}.
Theorem C77_i32_overflow_refuted :
  exists l : line i32 1, zlen2 l = ((2 ^ 32 - 1) * (2 ^ 32 - 1))%Z /\
    SFeqb (i32_line_sq_len l) (f64_of_Z 1) = true /\ SFeqb (i32_line_len l) (f64_of_Z 1) = true.
Proof. exists whole_line. repeat split; vm_compute; reflexivity. Qed.
Print Assumptions C77_i32_overflow_refuted.

(** A segment that meets the hypotheses: from (1, 2) to (4, 6). *)
Example three_four : exists l : line i32 2, diffs_fit l /\ zlen2 l = 25%Z /\ SFeqb (i32_line_len l) (f64_of_Z 5) = true.
Proof.
  exists {| line_0 := (i32_of 1, (i32_of 2, tt)) : svec i32 2; line_1 := (i32_of 4, (i32_of 6, tt)) : svec i32 2 |}.
  split; [|split; vm_compute; reflexivity]. repeat constructor; vm_compute; (discriminate || reflexivity).
Qed.

(** ** Float coordinates *)

(** The same for [N32] and [N64] coordinates, with the error [uc] of the coordinate type for the differences and an absolute
    error of [eta] per square for underflow; the result is infinite only if the length is about [2^512] ([2^128] for [N32]) or
    more. *)
Theorem C77_floats_partial :
  forall (p e : Z) (D : nat) (l : line (nf p e) (Datatypes.S D)),
  fp_format p e -> (p <= 53)%Z -> (e <= 1024)%Z -> finite_point (line_0 l) -> finite_point (line_1 l) ->
  let d2 := rlen2 l in let u := fp_u 53 in let uc := fp_u p in let eta := fp_eta 53 1024 in
  let lo := (1 - u) ^ (D + 1) * ((1 - uc) ^ 2 * d2) - INR (D + 1) * eta in
  let hi := (1 + u) ^ (D + 1) * ((1 + uc) ^ 2 * d2 + INR (D + 1) * eta) in
  lies_between (Z.min 1024 (2 * e)) lo hi (nf_line_sq_len p e l) /\
  lies_between (Z.min 512 e) ((1 - u) * sqrt lo) ((1 + u) * sqrt hi) (nf_line_len p e l).
Proof.
  intros p e D l Hf Hp He H0 H1 d2 u uc eta lo hi.
  assert (Ap := delta_approx p e Hf Hp He D (line_1 l) (line_0 l) H1 H0).
  unfold nf_line_len, nf_line_sq_len, line_sq_len, line_delta. rewrite (sq_mag_raw p e Hf Hp He). fold (rlen2 l) in Ap. fold d2 uc in Ap.
  set (w := sq_mag (nf_arith 53 1024) (vmap (FpSphereProof.up p e) (vmap2 (a_sub (nf_arith p e)) (line_1 l) (line_0 l)))) in *.
  assert (Nw : x_nonneg (nf_value w)) by (unfold w, sq_mag; apply sum_nonneg; [apply Hf64|]; apply mul_nonneg, Hf64).
  assert (Hu := u_range 53 1024 Hf64). assert (Huc := u_range p e Hf). assert (Het := eta_pos 53 1024). fold u in Hu. fold uc in Huc. fold eta in Het.
  assert (Hd : 0 <= d2).
  { unfold d2, rlen2, rdist2. generalize (vzip (line_1 l) (line_0 l)). intros z. induction z as [|x z IHz]; cbn [map fold_right]; [lra|]. assert (Hx := Rle_0_sqr (coord (fst x) - coord (snd x))). unfold Rsqr in Hx. lra. }
  assert (Hn : 0 <= INR (D + 1) * eta) by (apply Rmult_le_pos; [apply pos_INR|lra]).
  assert (HXH : 0 <= (1 + uc) ^ 2 * d2) by (apply Rmult_le_pos; [apply pow_le; lra|exact Hd]).
  assert (K1 : 1 <= (1 + u) ^ (D + 1)) by (apply pow_R1_Rle; lra).
  assert (Hhi : (1 + uc) ^ 2 * d2 <= hi) by (unfold hi; nra).
  assert (B : match nf_value w with XReal r => lo <= r <= hi | XPlus => bpow radix2 (Z.min 1024 (2 * e)) <= hi | XMinus => False end).
  { unfold approx2 in Ap. fold u eta in Ap. rewrite (Nat.add_comm 1 D) in Ap. fold lo hi in Ap. destruct (nf_value w); [exact Ap|exact Ap|].
    destruct Ap as [Ap|Ap].
    - unfold fmax_ in Ap. eapply Rle_trans; [|exact Ap]. apply bpow_le. lia.
    - rewrite <- bpow_plus in Ap. eapply Rle_trans; [|eapply Rle_trans; [exact Ap|exact Hhi]]. apply bpow_le. lia. }
  split.
  - split; [intros E; assert (K := nf_prop 53 1024 w); rewrite E in K; discriminate|].
    change (sf_value (nf_raw w)) with (nf_value w). destruct (nf_value w); [exact B|exact B|]. rewrite bpow_powerRZ in B. exact B.
  - replace (Z.min 1024 (2 * e)) with (2 * Z.min 512 e)%Z in B by lia.
    replace (sqrt lo) with (sqrt (Rmax 0 lo)).
    2:{ unfold Rmax. destruct (Rle_dec 0 lo) as [|C]; [reflexivity|]. rewrite sqrt_0. symmetry. apply sqrt_neg_0. lra. }
    apply sqrt_bounds; [exact Nw|apply Rmax_l|lra|]. destruct (nf_value w); [exact B| |exact B].
    cbn [x_nonneg x_le] in Nw. split; [apply Rmax_lub; [exact Nw|apply B]|apply B].
Qed.
Print Assumptions C77_floats_partial.

(** Integer coordinates, small enough for all differences and squares to be exact: the squared length is exact and an integer
    length too. *)
Theorem C77_integers_partial :
  forall (p e : Z) (D : nat) (l : line (nf p e) (Datatypes.S D)) (M : Z),
  fp_format p e -> (p <= 53)%Z -> (e <= 1024)%Z -> (0 <= M)%Z -> (2 * M <= 2 ^ p)%Z -> (Z.of_nat (Datatypes.S D) * (2 * M * (2 * M)) <= 2 ^ 53)%Z ->
  Forall (fun x => exists z, nf_value x = XReal (IZR z) /\ (Z.abs z <= M)%Z) (vlist (line_0 l)) ->
  Forall (fun x => exists z, nf_value x = XReal (IZR z) /\ (Z.abs z <= M)%Z) (vlist (line_1 l)) ->
  sf_value (nf_line_sq_len p e l) = XReal (rlen2 l) /\
  (forall n, (0 <= n <= 2 ^ 53)%Z -> rlen2 l = IZR (n * n) -> sf_value (nf_line_len p e l) = XReal (IZR n)).
Proof.
  intros p e D l M Hf Hp He HM0 HM HD Hk Hc.
  unfold nf_line_len, nf_line_sq_len, line_sq_len, line_delta. rewrite (sq_mag_raw p e Hf Hp He).
  assert (G : forall v : svec (nf p e) (Datatypes.S D), Forall (fun x => exists z, nf_value x = XReal (IZR z) /\ (Z.abs z <= M)%Z) (vlist v) -> Forall (int_at p e M) (vlist v)).
  { intros v Hv. eapply Forall_impl; [|exact Hv]. intros x (z & E & B). split; [eauto|]. exists z. unfold coord. rewrite E. auto. }
  apply G in Hk, Hc. assert (E := mag_int p e Hf Hp He M D (line_1 l) (line_0 l) HM0 HM HD Hc Hk). fold (rlen2 l) in E.
  set (w := sq_mag (nf_arith 53 1024) (vmap (FpSphereProof.up p e) (vmap2 (a_sub (nf_arith p e)) (line_1 l) (line_0 l)))) in *.
  split; [exact E|]. intros n Hn En. apply sqrt_exact; [lia|lia|]. rewrite E. now rewrite En.
Qed.
Print Assumptions C77_integers_partial.

(** A segment that meets the hypotheses of both: from (1, 2) to (4, 6) in [N64]. *)
Definition seg_345 : line n64 2 := {| line_0 := (ff 1 0, (ff 2 0, tt)) : svec n64 2; line_1 := (ff 4 0, (ff 6 0, tt)) : svec n64 2 |}.
Example seg_345_ok : finite_point (line_0 seg_345) /\ finite_point (line_1 seg_345) /\
  Forall (fun x => exists z, nf_value x = XReal (IZR z) /\ (Z.abs z <= 6)%Z) (vlist (line_0 seg_345) ++ vlist (line_1 seg_345)) /\
  SFeqb (nf_line_len 53 1024 seg_345) (f64_of_Z 5) = true.
Proof.
  split; [apply finite_pointb'; vm_compute; reflexivity|]. split; [apply finite_pointb'; vm_compute; reflexivity|]. split; [|vm_compute; reflexivity].
  repeat constructor.
  - exists 1%Z. split; [|lia]. rewrite int_value by (vm_compute; reflexivity). apply f_equal, f_equal. vm_compute. reflexivity.
  - exists 2%Z. split; [|lia]. rewrite int_value by (vm_compute; reflexivity). apply f_equal, f_equal. vm_compute. reflexivity.
  - exists 4%Z. split; [|lia]. rewrite int_value by (vm_compute; reflexivity). apply f_equal, f_equal. vm_compute. reflexivity.
  - exists 6%Z. split; [|lia]. rewrite int_value by (vm_compute; reflexivity). apply f_equal, f_equal. vm_compute. reflexivity.
Qed.

(** Two different [N64] numbers whose distance, [2^-600], is a double: the computed length is 0. *)
Definition tiny_seg : line n64 1 := {| line_0 := (ff 0 0, tt) : svec n64 1; line_1 := (ff 1 (-600), tt) : svec n64 1 |}.
Theorem C77_underflow_refuted :
  exists l : line n64 1, finite_point (line_0 l) /\ finite_point (line_1 l) /\
    rlen2 l = powerRZ 2 (-600) * powerRZ 2 (-600) /\
    nf_line_sq_len 53 1024 l = S754_zero false /\ nf_line_len 53 1024 l = S754_zero false.
Proof.
  exists tiny_seg. split; [apply finite_pointb'; vm_compute; reflexivity|]. split; [apply finite_pointb'; vm_compute; reflexivity|].
  split; [|split; vm_compute; reflexivity].
  assert (E1 : coord (ff 1 (-600)) = 1 * IZR 4503599627370496 * powerRZ 2 (-652)) by (apply (coord_fin _ false 4503599627370496 (-652)); vm_compute; reflexivity).
  assert (E0 : coord (ff 0 0) = 0) by (unfold coord, nf_value; replace (nf_raw (ff 0 0)) with (S754_zero false) by (vm_compute; reflexivity); reflexivity).
  assert (E2 : 1 * IZR 4503599627370496 * powerRZ 2 (-652) = powerRZ 2 (-600)).
  { change (-600)%Z with (52 + -652)%Z. rewrite powerRZ_add by lra. change 52%Z with (Z.of_nat 52). rewrite <- pow_powerRZ, pow_IZR.
    replace (2 ^ Z.of_nat 52)%Z with 4503599627370496%Z by (vm_compute; reflexivity). ring. }
  unfold rlen2, rdist2, tiny_seg, vzip. cbn [line_0 line_1 vlist combine map fold_right fst snd]. rewrite E0, E1, E2. ring.
Qed.
Print Assumptions C77_underflow_refuted.

(** Two finite numbers whose distance, [2^600], is a double: the computed length is infinite. *)
Definition huge_seg : line n64 1 := {| line_0 := (ff 0 0, tt) : svec n64 1; line_1 := (ff 1 600, tt) : svec n64 1 |}.
Theorem C77_overflow_refuted :
  exists l : line n64 1, finite_point (line_0 l) /\ finite_point (line_1 l) /\
    rlen2 l = powerRZ 2 600 * powerRZ 2 600 /\
    nf_line_sq_len 53 1024 l = S754_infinity false /\ nf_line_len 53 1024 l = S754_infinity false.
Proof.
  exists huge_seg. split; [apply finite_pointb'; vm_compute; reflexivity|]. split; [apply finite_pointb'; vm_compute; reflexivity|].
  split; [|split; vm_compute; reflexivity].
  assert (E1 : coord (ff 1 600) = 1 * IZR 4503599627370496 * powerRZ 2 548) by (apply (coord_fin _ false 4503599627370496 548); vm_compute; reflexivity).
  assert (E0 : coord (ff 0 0) = 0) by (unfold coord, nf_value; replace (nf_raw (ff 0 0)) with (S754_zero false) by (vm_compute; reflexivity); reflexivity).
  assert (E2 : 1 * IZR 4503599627370496 * powerRZ 2 548 = powerRZ 2 600).
  { change 600%Z with (52 + 548)%Z. rewrite powerRZ_add by lra. change 52%Z with (Z.of_nat 52). rewrite <- pow_powerRZ, pow_IZR.
    replace (2 ^ Z.of_nat 52)%Z with 4503599627370496%Z by (vm_compute; reflexivity). ring. }
  unfold rlen2, rdist2, huge_seg, vzip. cbn [line_0 line_1 vlist combine map fold_right fst snd]. rewrite E0, E1, E2. ring.
Qed.
Print Assumptions C77_overflow_refuted.
