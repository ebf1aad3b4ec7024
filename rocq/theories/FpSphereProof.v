(** Spheres with floating-point coordinates: proofs. *)
From Coq Require Import Reals Lra Floats.SpecFloat.
From Flocq Require Import Core Relative BinarySingleNaN.
From Verif Require Import FpSphereModel FpDist IterProof PropDist.
Local Open Scope R_scope.

(** *** Entries that a filter must find *)
Section Found.
Context {B K V Q : Type} (brw : K -> Q) (f : SpatialFilter B Q) (P : Params B K) (cfg : config) (ok : K -> Prop) (incl : B -> B -> Prop).
Context (good : K -> Prop) (Hgood : forall b k, ok k -> good k -> test_key f (brw k) = true -> incl b (key_bounds P k) -> test_bounds f b = true).
Notation missed_ok := (fun kv : K * V => ~ (test_key f (brw (fst kv)) = true /\ good (fst kv))).

Lemma pruned_found lo strict level (n : node B K V) : wf cfg ok (rel_cover P incl) lo strict level n ->
  exists rest, Permutation (entries n) (pruned brw f n ++ rest) /\ Forall missed_ok rest.
Proof.
  revert n; induction level as [|l IH]; intros n Hwf; destruct (wf_inv _ _ _ _ _ _ _ Hwf) as (b & x & ->).
  - cbn [pruned entries]. clear Hwf. induction x as [|[k v] x (rest & H1 & H2)]; [exists []; split; constructor|]. cbn [filter fst].
    destruct (test_key f (brw k)) eqn:E.
    + exists rest. split; [now constructor|exact H2].
    + exists ((k, v) :: rest). split; [rewrite <- Permutation_middle; now constructor|]. constructor; [|exact H2]. cbn. intros [G _]. congruence.
  - rewrite wf_inner in Hwf. destruct Hwf as (_ & _ & Hcs). cbn [pruned entries].
    induction Hcs as [|c cs [Hc _] _ (rest & H1 & H2)]; [exists []; split; constructor|]. cbn [flat_map].
    destruct (test_bounds f (node_bounds c)) eqn:E.
    + destruct (IH c Hc) as (rc & C1 & C2). exists (rc ++ rest). split; [|now apply Forall_app].
      rewrite C1, H1, <- !app_assoc. apply Permutation_app_head. rewrite !app_assoc. apply Permutation_app_tail, Permutation_app_comm.
    + exists (entries c ++ rest). cbn [app]. split.
      * rewrite H1. rewrite !app_assoc. apply Permutation_app_tail, Permutation_app_comm.
      * apply Forall_app. split; [|exact H2]. apply Forall_forall. intros [k v] Hin [G1 G2]. cbn [fst] in *.
        assert (Hi : In k (keys c)) by (unfold keys; now apply (in_map fst) in Hin).
        assert (Hcov := wf_rel _ _ _ _ _ _ _ Hc k Hi).
        assert (Hk := wf_ok _ _ _ _ _ _ _ Hc). rewrite Forall_forall in Hk. specialize (Hk (k, v) Hin).
        rewrite (Hgood _ k Hk G2 G1 Hcov) in E. discriminate.
Qed.

Lemma filter_iter_found (t : rtree B K V) lo strict : wf cfg ok (rel_cover P incl) lo strict (fst t) (snd t) ->
  exists s l rest, rtree_filter_iter t f = Ok s /\ iterates (iter_next_with brw f) s l /\
    sublist l (contents t) /\ Permutation (contents t) (l ++ rest) /\
    Forall (fun kv => test_key f (brw (fst kv)) = true) l /\ Forall missed_ok rest.
Proof.
  intros Hw. unfold rtree_filter_iter, filter_iter_new.
  assert (Hfs : forall l : list (K * V), sublist (filter (fun kv => test_key f (brw (fst kv))) l) l).
  { induction l as [|x l IH]; cbn; [constructor|]. destruct (test_key f (brw (fst x))); constructor; exact IH. }
  assert (Htr : forall a b c : list (K * V), sublist a b -> sublist b c -> sublist a c).
  { intros a b c H1 H2. revert a H1. induction H2; intros a H1; [exact H1|apply sub_skip; auto|]. inversion H1; subst; [apply sub_skip; auto|apply sub_take; auto]. }
  assert (Hp := pruned_sub brw f (snd t)).
  destruct (test_bounds f (node_bounds (snd t))) eqn:Eb.
  - destruct (iter_new_spec brw f t (wf_kinded _ _ _ _ _ _ _ Hw)) as (s & E & H1 & H2).
    destruct (pruned_found _ _ _ _ Hw) as (rest & R1 & R2).
    exists s, (pruned brw f (snd t)), rest. split; [exact E|]. split; [rewrite <- H2; now apply stack_iterates|].
    split; [eapply Htr; [exact Hp|apply Hfs]|]. split; [exact R1|]. split; [|exact R2].
    apply Forall_forall. intros kv Hin.
    assert (Hs : forall a b : list (K * V), sublist a b -> In kv a -> In kv b) by (induction 1; intros Hi; [exact Hi|right; auto|destruct Hi as [<-|Hi]; [now left|right; auto]]).
    apply (Hs _ _ Hp) in Hin. now apply filter_In in Hin.
  - exists [], [], (contents t). split; [reflexivity|]. split; [apply (stack_iterates brw f []); intros [|i] x; discriminate|].
    split; [generalize (contents t); induction l; constructor; auto|]. split; [reflexivity|]. split; [constructor|].
    apply Forall_forall. intros [k v] Hin [G1 G2]. cbn [fst] in *.
    assert (Hi : In k (keys (snd t))) by (unfold keys; now apply (in_map fst) in Hin).
    assert (Hcov := wf_rel _ _ _ _ _ _ _ Hw k Hi).
    assert (Hk := wf_ok _ _ _ _ _ _ _ Hw). rewrite Forall_forall in Hk. specialize (Hk (k, v) Hin).
    rewrite (Hgood _ k Hk G2 G1 Hcov) in Eb. discriminate.
Qed.
End Found.

Section Spheres.
Context (p e : Z) (Hf : fp_format p e) (Hp : (p <= 53)%Z) (He : (e <= 1024)%Z).
Local Instance sHp : FLX.Prec_gt_0 p := fHp p e Hf.
Local Instance sHe : Prec_lt_emax p e := fHe p e Hf.
Lemma Hf64 : fp_format 53 1024. Proof. split; reflexivity. Qed.
Notation fin x := (exists r, nf_value x = XReal r).
Notation rv := (rv p e).
Notation A := (nf_arith p e).
Notation A64 := (nf_arith 53 1024).

(** *** Conversion to [f64] *)
Lemma into_value (x : nf p e) : nf_ok 53 1024 (sf_into_f64 (nf_raw x)) = true /\ sf_value (sf_into_f64 (nf_raw x)) = nf_value x.
Proof.
  unfold nf_value. assert (Fx := rv_format p e x). assert (Rx := fb_R p e x). assert (Lx := abs_B2R_lt_emax p e (fb p e x)).
  unfold FpDist.rv in Fx. rewrite Rx in Lx. assert (Hok := nf_prop p e x).
  destruct (nf_raw x) as [s|s| |s m ex] eqn:Er; try (split; reflexivity); try discriminate.
  cbn [sf_into_f64]. replace (if s then Z.neg m else Z.pos m) with (cond_Zopp s (Z.pos m)) by now destruct s.
  rewrite (fbinary_normalize 53 1024 Hf64).
  assert (H := binary_normalize_correct 53 1024 (fHp 53 1024 Hf64) (fHe 53 1024 Hf64) mode_NE (cond_Zopp s (Z.pos m)) ex s).
  cbv zeta in H. change (F2R {| Fnum := cond_Zopp s (Z.pos m); Fexp := ex |}) with (SF2R radix2 (S754_finite s m ex)) in H.
  assert (G : round radix2 (SpecFloat.fexp 53 1024) (round_mode mode_NE) (SF2R radix2 (S754_finite s m ex)) = SF2R radix2 (S754_finite s m ex)).
  { apply round_generic; [apply valid_rnd_round_mode|]. change (SpecFloat.fexp 53 1024) with (FLT_exp (-1074) 53).
    apply FLT_format_generic in Fx; [|exact sHp]. destruct Fx as [g G1 G2 G3]. apply generic_format_FLT. exists g; [exact G1| |].
    - eapply Z.lt_le_trans; [exact G2|]. apply Zpower_le. lia.
    - destruct Hf. lia. }
  rewrite G in H. rewrite Rlt_bool_true in H.
  2:{ eapply Rlt_le_trans; [exact Lx|]. now apply bpow_le. }
  destruct H as (H1 & H2 & _). split.
  - apply ok_B2SF. match goal with |- B2SF ?b <> _ => destruct b; discriminate end.
  - rewrite (fb_value_fin 53 1024) by exact H2. rewrite H1. now rewrite (fin_value (S754_finite s m ex)).
Qed.

Definition up (x : nf p e) : n64 := nf_of 53 1024 (sf_into_f64 (nf_raw x)).
Lemma up_raw x : nf_raw (up x) = sf_into_f64 (nf_raw x).
Proof. apply nf_of_raw. apply into_value. Qed.
Lemma up_value x : nf_value (up x) = nf_value x.
Proof. unfold nf_value at 1. rewrite up_raw. apply into_value. Qed.

(** The magnitude of a float, from its value. *)
Definition xabs (a : xreal) : xreal := match a with XReal r => XReal (Rabs r) | _ => XPlus end.
Lemma fmag_value q e' (x : nf q e') : fmag (nf_raw x) = xabs (nf_value x).
Proof.
  unfold nf_value. assert (H := nf_prop q e' x). destruct (nf_raw x) as [s|[]| |s m ex] eqn:E; try discriminate; try reflexivity.
  rewrite (fin_value (S754_finite s m ex)) by reflexivity. reflexivity.
Qed.

(** *** The test, as real numbers *)
Lemma vlist_vmap {N M D} (g : N -> M) (v : svec N D) : vlist (vmap g v) = map g (vlist v).
Proof. induction D as [|D IH]; cbn; [reflexivity|]. now rewrite IH. Qed.

Lemma sq_mag_raw D (v : svec (nf p e) (Datatypes.S D)) :
  sq_mag f64_arith (vmap (fun x => sf_into_f64 (nf_raw x)) v) = nf_raw (sq_mag A64 (vmap up v)).
Proof.
  unfold sq_mag. cbn [vmap fst snd]. rewrite (sum_raw 53 1024 Hf64) by (apply mul_nonneg, Hf64). rewrite (amul_raw 53 1024 Hf64), up_raw.
  cbn [f64_arith a_add a_mul]. rewrite !vlist_vmap, !map_map. f_equal. apply map_ext. intros x. now rewrite up_raw.
Qed.

Notation sq64 := (sqx 53 1024).
Lemma test_values D (s : sphere (nf p e) (Datatypes.S D)) k :
  nf_sphere_test p e s k = true <->
  x_le (nf_value (sq_mag A64 (vmap up (vmap2 (a_sub A) k (center s))))) (sq64 (xabs (nf_value (radius s)))).
Proof.
  unfold nf_sphere_test, sphere_intersects_point. rewrite sq_mag_raw. cbn [a_mul f64_arith].
  rewrite <- up_raw. change (f64_mul ?a ?b) with (SFmul 53 1024 a b). rewrite <- (amul_raw 53 1024 Hf64). unfold f64_le.
  rewrite (le_value 53 1024) by apply nf_prop. unfold nf_value at 2. rewrite (amul_raw 53 1024 Hf64).
  destruct (sq_spec 53 1024 Hf64 (up (radius s))) as [_ ->]. now rewrite fmag_value, up_value.
Qed.

(** *** Accuracy *)
Notation u := (fp_u 53).
Notation uc := (fp_u p).
Notation eta := (fp_eta 53 1024).
Notation max64 := (fmax_ 1024).
Definition approx2 (a n : nat) (XL XH : R) (w : xreal) : Prop :=
  match w with
  | XMinus => False
  | XReal r => (1 - u) ^ a * XL - INR n * eta <= r <= (1 + u) ^ a * (XH + INR n * eta)
  | XPlus => max64 <= (1 + u) ^ a * (XH + INR n * eta) \/ bpow radix2 e * bpow radix2 e <= XH
  end.

Lemma sq_approx2 (x y : nf p e) : fin x -> fin y ->
  let d := rv x - rv y in
  approx2 1 1 ((1 - uc) ^ 2 * (d * d)) ((1 + uc) ^ 2 * (d * d)) (sq64 (xabs (nf_value (up (a_sub A x y))))).
Proof.
  intros Hx Hy d. rewrite up_value.
  assert (E : xabs (nf_value (a_sub A x y)) = rx p e (Rabs d)).
  { rewrite <- fmag_value, (asub_raw p e Hf) by assumption. apply (sub_spec p e Hf); now apply finite_value_SF. }
  rewrite E. assert (H := sub_approx p e Hf x y Hx Hy). fold d in H. set (g := Rabs d) in *.
  replace (d * d) with (g * g) by (unfold g; rewrite <- Rabs_mult; apply Rabs_pos_eq, Rle_0_sqr).
  assert (Hg : 0 <= g) by apply Rabs_pos. assert (Hu := u_range 53 1024 Hf64). assert (Huc := u_range p e Hf). assert (Het := eta_pos 53 1024).
  destruct (rx p e g) as [|r|]; [contradiction| |]; cbn [sqx].
  - assert (Hr : 0 <= r) by nra. assert (H2 := rnd_any 53 1024 Hf64 (r * r)). rewrite (Rabs_pos_eq (r * r)) in H2 by nra. apply Rabs_le_inv in H2.
    assert (L1 : (1 - uc) ^ 2 * (g * g) <= r * r).
    { replace ((1 - uc) ^ 2 * (g * g)) with (((1 - uc) * g) * ((1 - uc) * g)) by ring. apply Rmult_le_compat; nra. }
    assert (L2 : r * r <= (1 + uc) ^ 2 * (g * g)).
    { replace ((1 + uc) ^ 2 * (g * g)) with (((1 + uc) * g) * ((1 + uc) * g)) by ring. apply Rmult_le_compat; nra. }
    assert (G1 : (1 - u) * ((1 - uc) ^ 2 * (g * g)) <= (1 - u) * (r * r)) by (apply Rmult_le_compat_l; lra).
    assert (G2 : (1 + u) * (r * r) <= (1 + u) * ((1 + uc) ^ 2 * (g * g))) by (apply Rmult_le_compat_l; lra).
    assert (G3 : 1 * eta <= (1 + u) * eta) by (apply Rmult_le_compat_r; lra).
    set (GH := (1 + uc) ^ 2 * (g * g)) in *. set (GL := (1 - uc) ^ 2 * (g * g)) in *.
    unfold rx. destruct (Rlt_bool_spec (frnd 53 1024 (r * r)) max64); cbn [approx2]; change (INR 1) with 1; rewrite !pow_1; [split|left]; lra.
  - right. unfold fmax_ in H. assert (0 <= bpow radix2 e) by apply bpow_ge_0.
    replace ((1 + uc) ^ 2 * (g * g)) with (((1 + uc) * g) * ((1 + uc) * g)) by ring. apply Rmult_le_compat; lra.
Qed.

Lemma add_approx2 a n XL XH YL YH (x y : n64) : (1 <= a)%nat -> 0 <= XL -> 0 <= YL -> 0 <= XH -> 0 <= YH -> x_nonneg (nf_value x) -> x_nonneg (nf_value y) ->
  approx2 a n XL XH (nf_value x) -> approx2 1 1 YL YH (nf_value y) -> approx2 (Datatypes.S a) (Datatypes.S n) (XL + YL) (XH + YH) (addx 53 1024 (nf_value x) (nf_value y)).
Proof.
  intros Ha HXL HYL HXH HYH Nx Ny Ax Ay. assert (Hu := u_range 53 1024 Hf64). assert (Het := eta_pos 53 1024). assert (Hn : 0 <= INR n) by apply pos_INR.
  assert (P1 : (1 - u) ^ a <= (1 - u) ^ 1 /\ 0 <= (1 - u) ^ a).
  { split; [|apply pow_le; lra]. replace a with (1 + (a - 1))%nat by lia. rewrite pow_add.
    assert (0 <= (1 - u) ^ 1) by (apply pow_le; lra). assert ((1 - u) ^ (a - 1) <= 1).
    2:{ rewrite <- (Rmult_1_r ((1 - u) ^ 1)) at 2. now apply Rmult_le_compat_l. }
    assert (K := pow_incr (1 - u) 1 (a - 1) ltac:(lra)). now rewrite pow1 in K. }
  assert (P2 : (1 + u) ^ 1 <= (1 + u) ^ a) by (apply Rle_pow; [lra|exact Ha]).
  assert (P3 : 1 <= (1 + u) ^ 1) by (apply pow_R1_Rle; lra).
  assert (UB : forall t, t <= (1 + u) ^ a * (XH + INR n * eta) + (1 + u) ^ 1 * (YH + INR 1 * eta) ->
             0 <= t -> (1 + u) * t <= (1 + u) ^ Datatypes.S a * (XH + YH + INR (Datatypes.S n) * eta)).
  { intros t Ht Ht0. rewrite S_INR. change (INR 1) with 1 in Ht. cbn [pow]. rewrite Rmult_assoc. apply Rmult_le_compat_l; [lra|].
    eapply Rle_trans; [exact Ht|]. assert ((1 + u) ^ 1 * (YH + 1 * eta) <= (1 + u) ^ a * (YH + 1 * eta)) by (apply Rmult_le_compat_r; lra).
    replace ((1 + u) ^ a * (XH + YH + (INR n + 1) * eta)) with ((1 + u) ^ a * (XH + INR n * eta) + (1 + u) ^ a * (YH + 1 * eta)) by ring. lra. }
  assert (Z1 : 0 <= (1 + u) ^ a * (XH + INR n * eta)) by (apply Rmult_le_pos; [lra|nra]).
  assert (Z2 : 0 <= (1 + u) ^ 1 * (YH + INR 1 * eta)) by (change (INR 1) with 1; apply Rmult_le_pos; lra).
  assert (Hm := fmax_ge 53 1024 Hf64).
  assert (OV : forall t, max64 <= t -> t <= (1 + u) ^ a * (XH + INR n * eta) + (1 + u) ^ 1 * (YH + INR 1 * eta) ->
             max64 <= (1 + u) ^ Datatypes.S a * (XH + YH + INR (Datatypes.S n) * eta)).
  { intros t H1 H2. specialize (UB t H2 ltac:(lra)). nra. }
  destruct (nf_value x) as [|r|] eqn:Ex; [contradiction| |].
  2:{ cbn [addx approx2] in *. destruct Ax as [Ax|Ax]; [left; apply (OV _ Ax); lra|right; lra]. }
  destruct (nf_value y) as [|s|] eqn:Ey; [contradiction| |].
  2:{ cbn [addx approx2] in *. destruct Ay as [Ay|Ay]; [left; apply (OV _ Ay); lra|right; lra]. }
  cbn [addx approx2 x_nonneg x_le] in *.
  assert (Er : FpDist.rv 53 1024 x = r) by (assert (H := fin_rv 53 1024 x (ex_intro _ r Ex)); congruence).
  assert (Es : FpDist.rv 53 1024 y = s) by (assert (H := fin_rv 53 1024 y (ex_intro _ s Ey)); congruence).
  assert (H := rnd_sum 53 1024 Hf64 r s). rewrite <- Er, <- Es in H at 1. specialize (H (rv_format 53 1024 x) (rv_format 53 1024 y)).
  rewrite (Rabs_pos_eq (r + s)) in H by lra. apply Rabs_le_inv in H.
  specialize (UB (r + s) ltac:(lra) ltac:(lra)).
  unfold rx. destruct (Rlt_bool_spec (frnd 53 1024 (r + s)) max64); cbn [approx2]; [split|left]; [|lra|lra].
  rewrite S_INR. cbn [pow]. destruct Ax as [Ax _], Ay as [Ay _]. change (INR 1) with 1 in Ay.
  assert (K : (1 - u) ^ a * (XL + YL) - (INR n + 1) * eta <= r + s).
  { assert ((1 - u) ^ a * YL <= (1 - u) ^ 1 * YL) by (apply Rmult_le_compat_r; lra). lra. }
  assert (K2 : (1 - u) * ((1 - u) ^ a * (XL + YL) - (INR n + 1) * eta) <= (1 - u) * (r + s)) by (apply Rmult_le_compat_l; lra).
  assert (0 <= u * ((INR n + 1) * eta)) by (apply Rmult_le_pos; [lra|nra]). lra.
Qed.

Lemma mul_value64 (x : n64) : nf_value (a_mul A64 x x) = sq64 (xabs (nf_value x)).
Proof. unfold nf_value at 1. rewrite (amul_raw 53 1024 Hf64). destruct (sq_spec 53 1024 Hf64 x) as [_ ->]. now rewrite fmag_value. Qed.

Lemma sum_approx2 D (k c : svec (nf p e) D) (acc : n64) n m XL XH : finite_point k -> finite_point c -> (1 <= m)%nat -> 0 <= XL -> 0 <= XH ->
  x_nonneg (nf_value acc) -> approx2 m n XL XH (nf_value acc) ->
  approx2 (m + D) (n + D) (XL + (1 - uc) ^ 2 * rdist2 k c) (XH + (1 + uc) ^ 2 * rdist2 k c)
    (nf_value (fold_left (a_add A64) (map (fun x => a_mul A64 x x) (vlist (vmap up (vmap2 (a_sub A) k c)))) acc)).
Proof.
  unfold rdist2, vzip. revert acc n m XL XH; induction D as [|D IH]; intros acc n m XL XH Hk Hc Hm HXL HXH Hn Happ.
  - cbn [vlist combine map fold_right fold_left vmap vmap2]. rewrite !Rmult_0_r, !Rplus_0_r, !Nat.add_0_r. exact Happ.
  - inversion Hk as [|? ? Hk1 Hk2]; inversion Hc as [|? ? Hc1 Hc2]; subst. cbn [vlist vmap vmap2 map fold_left combine fold_right fst snd].
    rewrite !Rmult_plus_distr_l, <- !Rplus_assoc, <- !Nat.add_succ_comm. rewrite !(coord_rv p e) by assumption.
    assert (Q0 := Rle_0_sqr (rv (fst k) - rv (fst c))). unfold Rsqr in Q0. assert (Huc := u_range p e Hf).
    assert (Q1 : 0 <= (1 - uc) ^ 2 * ((rv (fst k) - rv (fst c)) * (rv (fst k) - rv (fst c)))) by (apply Rmult_le_pos; [apply pow_le; lra|exact Q0]).
    assert (Q2 : 0 <= (1 + uc) ^ 2 * ((rv (fst k) - rv (fst c)) * (rv (fst k) - rv (fst c)))) by (apply Rmult_le_pos; [apply pow_le; lra|exact Q0]).
    assert (Hm' := mul_nonneg 53 1024 Hf64).
    apply IH; try assumption; try lia; try lra.
    + rewrite (add_value 53 1024 Hf64) by auto. apply addx_nonneg; auto; apply Hf64.
    + rewrite (add_value 53 1024 Hf64) by auto. apply add_approx2; try assumption; try apply Hm'.
      rewrite mul_value64. now apply sq_approx2.
Qed.

Lemma delta_approx D (k c : svec (nf p e) (Datatypes.S D)) : finite_point k -> finite_point c ->
  approx2 (1 + D) (1 + D) ((1 - uc) ^ 2 * rdist2 k c) ((1 + uc) ^ 2 * rdist2 k c) (nf_value (sq_mag A64 (vmap up (vmap2 (a_sub A) k c)))).
Proof.
  intros Hk Hc. unfold sq_mag. cbn [vmap vmap2 fst snd].
  inversion Hk as [|? ? Hk1 Hk2]; inversion Hc as [|? ? Hc1 Hc2]; subst.
  change (rdist2 k c) with ((coord (fst k) - coord (fst c)) * (coord (fst k) - coord (fst c)) + rdist2 (snd k) (snd c)).
  rewrite !(coord_rv p e) by assumption. rewrite !Rmult_plus_distr_l.
  assert (Q0 := Rle_0_sqr (rv (fst k) - rv (fst c))). unfold Rsqr in Q0. assert (Huc := u_range p e Hf).
  apply sum_approx2; try assumption; try lia; try (apply Rmult_le_pos; [apply pow_le; lra|exact Q0]); [apply mul_nonneg, Hf64|].
  rewrite mul_value64. now apply sq_approx2.
Qed.

(** The square of the radius. *)
Lemma radius_approx r : 0 <= r ->
  match sq64 (XReal r) with
  | XReal w => (1 - u) * (r * r) - eta <= w <= (1 + u) * (r * r) + eta /\ w < max64
  | XPlus => max64 <= (1 + u) * (r * r) + eta
  | XMinus => False
  end.
Proof.
  intros Hr. cbn [sqx]. assert (H := rnd_any 53 1024 Hf64 (r * r)). rewrite (Rabs_pos_eq (r * r)) in H by nra. apply Rabs_le_inv in H.
  unfold rx. destruct (Rlt_bool_spec (frnd 53 1024 (r * r)) max64); [split; [lra|assumption]|lra].
Qed.

Lemma rv_lt_max (x : nf p e) : Rabs (rv x) < bpow radix2 e.
Proof. unfold FpDist.rv. rewrite <- fb_R. apply abs_B2R_lt_emax. Qed.

(** Well inside: accepted. *)
Lemma inside_accepted D (s : sphere (nf p e) (Datatypes.S D)) k : finite_point k -> finite_point (center s) -> fin (radius s) -> 0 <= coord (radius s) ->
  (1 + u) ^ (D + 1) * ((1 + uc) ^ 2 * rdist2 k (center s) + INR (D + 1) * eta) <= (1 - u) * (coord (radius s) * coord (radius s)) - eta ->
  nf_sphere_test p e s k = true.
Proof.
  intros Hk Hc Hr Hr0 H. apply test_values. assert (Ap := delta_approx D k (center s) Hk Hc). rewrite (Nat.add_comm 1 D) in Ap.
  rewrite (fin_rv p e _ Hr), <- (coord_rv p e _ Hr). cbn [xabs]. rewrite Rabs_pos_eq by exact Hr0.
  assert (Rr := radius_approx _ Hr0). assert (Lr := rv_lt_max (radius s)). rewrite <- (coord_rv p e _ Hr) in Lr. rewrite (Rabs_pos_eq _ Hr0) in Lr.
  assert (Hu := u_range 53 1024 Hf64). assert (Het := eta_pos 53 1024).
  set (X := (1 + uc) ^ 2 * rdist2 k (center s)) in *.
  destruct (sq64 (XReal (coord (radius s)))) as [|w|]; [contradiction| |].
  - destruct (nf_value (sq_mag A64 (vmap up (vmap2 (a_sub A) k (center s))))) as [|v|]; cbn [approx2 x_le] in *; [exact Logic.I|lra|].
    destruct Ap as [Ap|Ap]; [lra|].
    assert (K1 : 1 * (X + INR (D + 1) * eta) <= (1 + u) ^ (D + 1) * (X + INR (D + 1) * eta)).
    { apply Rmult_le_compat_r; [|apply pow_R1_Rle; lra]. assert (0 <= bpow radix2 e) by apply bpow_ge_0. assert (0 <= INR (D + 1)) by apply pos_INR. nra. }
    assert (K2 : coord (radius s) * coord (radius s) < bpow radix2 e * bpow radix2 e) by nra.
    assert (0 <= INR (D + 1) * eta) by (apply Rmult_le_pos; [apply pos_INR|lra]). nra.
  - destruct (nf_value (sq_mag A64 (vmap up (vmap2 (a_sub A) k (center s))))); exact Logic.I.
Qed.

(** Accepted: not far outside. *)
Lemma accepted_inside D (s : sphere (nf p e) (Datatypes.S D)) k : finite_point k -> finite_point (center s) -> fin (radius s) -> 0 <= coord (radius s) ->
  (1 + u) * (coord (radius s) * coord (radius s)) + eta < bpow radix2 1024 ->
  nf_sphere_test p e s k = true ->
  (1 - u) ^ (D + 1) * ((1 - uc) ^ 2 * rdist2 k (center s)) - INR (D + 1) * eta <= (1 + u) * (coord (radius s) * coord (radius s)) + eta.
Proof.
  intros Hk Hc Hr Hr0 Hov H. apply test_values in H. assert (Ap := delta_approx D k (center s) Hk Hc). rewrite (Nat.add_comm 1 D) in Ap.
  rewrite (fin_rv p e _ Hr), <- (coord_rv p e _ Hr) in H. cbn [xabs] in H. rewrite Rabs_pos_eq in H by exact Hr0.
  assert (Rr := radius_approx _ Hr0). unfold fmax_ in Rr.
  destruct (sq64 (XReal (coord (radius s)))) as [|w|]; [contradiction| |lra].
  destruct (nf_value (sq_mag A64 (vmap up (vmap2 (a_sub A) k (center s))))) as [|v|]; cbn [approx2 x_le] in *; [contradiction|lra|contradiction].
Qed.

(** *** The bounding box *)
Lemma frnd_fix (x : nf p e) : frnd p e (rv x) = rv x.
Proof. unfold frnd. apply round_generic; [apply valid_rnd_N|]. apply (rv_format p e). Qed.

Lemma sign_zero (x : nf p e) : 0 <= rv x -> Bsign (fb p e x) = true -> rv x = 0.
Proof.
  unfold FpDist.rv. rewrite <- fb_R. destruct (fb p e x) as [s|s| |s m ex b]; cbn [Bsign B2R]; try reflexivity.
  intros H ->. exfalso. assert (F2R (beta := radix2) {| Fnum := cond_Zopp true (Z.pos m); Fexp := ex |} < 0) by (apply F2R_lt_0; cbn; lia). lra.
Qed.

Lemma low_le (c r k : nf p e) : fin c -> fin r -> fin k -> 0 <= rv r -> rv c - rv r <= rv k -> x_le (nf_value (a_sub A c r)) (nf_value k).
Proof.
  intros Hc Hr Hk Hr0 Hle. assert (Fc := finite_value_SF _ _ c Hc). assert (Fr := finite_value_SF _ _ r Hr).
  unfold nf_value at 1. rewrite (asub_raw p e Hf) by assumption. rewrite (fin_rv p e k Hk).
  rewrite <- (fb_raw p e c), <- (fb_raw p e r). rewrite (fsub_equiv p e Hf).
  assert (H := Bminus_correct p e (fHp p e Hf) (fHe p e Hf) mode_NE (fb p e c) (fb p e r)). rewrite !fb_R, !fb_fin in H. specialize (H Fc Fr).
  cbn [round_mode] in H. change (round radix2 (SpecFloat.fexp p e) ZnearestE ?z) with (frnd p e z) in H.
  change (SF2R radix2 (nf_raw c)) with (rv c) in H. change (SF2R radix2 (nf_raw r)) with (rv r) in H.
  destruct (Rlt_bool_spec (Rabs (frnd p e (rv c - rv r))) (bpow radix2 e)) as [C|C].
  - destruct H as (H1 & H2 & _). rewrite (fb_value_fin p e) by exact H2. rewrite H1. cbn [x_le]. rewrite <- (frnd_fix k). now apply (frnd_le p e Hf).
  - destruct H as [H Hs]. rewrite H. unfold binary_overflow. cbn [overflow_to_inf].
    destruct (Bsign (fb p e c)) eqn:Sc; [exact Logic.I|]. exfalso. symmetry in Hs. apply Bool.negb_false_iff in Hs.
    apply sign_zero in Hs; [|exact Hr0]. rewrite Hs, Rminus_0_r, frnd_fix in C. assert (L := rv_lt_max c). lra.
Qed.

Lemma high_ge (c r k : nf p e) : fin c -> fin r -> fin k -> 0 <= rv r -> rv k <= rv c + rv r ->
  nf_ok p e (SFadd p e (nf_raw c) (nf_raw r)) = true /\ x_le (nf_value k) (nf_value (a_add A c r)).
Proof.
  intros Hc Hr Hk Hr0 Hle. assert (Fc := finite_value_SF _ _ c Hc). assert (Fr := finite_value_SF _ _ r Hr).
  assert (H := Bplus_correct p e sHp sHe mode_NE (fb p e c) (fb p e r)). rewrite !fb_R, !fb_fin in H. specialize (H Fc Fr).
  cbn [round_mode] in H. change (round radix2 (SpecFloat.fexp p e) ZnearestE ?z) with (frnd p e z) in H.
  change (SF2R radix2 (nf_raw c)) with (rv c) in H. change (SF2R radix2 (nf_raw r)) with (rv r) in H.
  assert (E : SFadd p e (nf_raw c) (nf_raw r) = B2SF (Bplus mode_NE (fb p e c) (fb p e r))) by (rewrite <- (fb_raw p e c), <- (fb_raw p e r) at 1; exact (fadd_equiv p e Hf (fb p e c) (fb p e r))).
  assert (G : nf_ok p e (SFadd p e (nf_raw c) (nf_raw r)) = true /\ x_le (XReal (rv k)) (sf_value (SFadd p e (nf_raw c) (nf_raw r)))).
  { rewrite E. destruct (Rlt_bool_spec (Rabs (frnd p e (rv c + rv r))) (bpow radix2 e)) as [C|C].
    - destruct H as (H1 & H2 & _). split.
      + apply ok_B2SF. destruct (Bplus mode_NE (fb p e c) (fb p e r)); discriminate.
      + rewrite (fb_value_fin p e) by exact H2. rewrite H1. cbn [x_le]. rewrite <- (frnd_fix k). now apply (frnd_le p e Hf).
    - destruct H as [H Hs]. rewrite H. unfold binary_overflow. cbn [overflow_to_inf].
      destruct (Bsign (fb p e c)) eqn:Sc; [|split; [reflexivity|exact Logic.I]]. exfalso. symmetry in Hs.
      apply sign_zero in Hs; [|exact Hr0]. rewrite Hs, Rplus_0_r, frnd_fix in C. assert (L := rv_lt_max c). lra. }
  destruct G as [G1 G2]. split; [exact G1|]. rewrite (fin_rv p e k Hk). unfold nf_value. cbn [nf_arith a_add]. now rewrite nf_of_raw.
Qed.

Lemma add_ok (x y : nf p e) : is_finite_SF (nf_raw x) = true -> is_finite_SF (nf_raw y) = true -> nf_ok p e (SFadd p e (nf_raw x) (nf_raw y)) = true.
Proof.
  intros Fx Fy. assert (H := Bplus_correct p e sHp sHe mode_NE (fb p e x) (fb p e y)). rewrite !fb_fin in H. specialize (H Fx Fy).
  assert (E : SFadd p e (nf_raw x) (nf_raw y) = B2SF (Bplus mode_NE (fb p e x) (fb p e y)))
    by (rewrite <- (fb_raw p e x), <- (fb_raw p e y) at 1; exact (fadd_equiv p e Hf (fb p e x) (fb p e y))).
  rewrite E. destruct (Rlt_bool _ _).
  - destruct H as (_ & H & _). apply ok_B2SF. destruct (Bplus mode_NE (fb p e x) (fb p e y)); discriminate.
  - destruct H as [H _]. rewrite H. unfold binary_overflow. cbn [overflow_to_inf]. reflexivity.
Qed.

Lemma near_box D (s : sphere (nf p e) D) (k : svec (nf p e) D) : finite_point k -> finite_point (center s) -> fin (radius s) -> 0 <= coord (radius s) ->
  rdist2 k (center s) <= coord (radius s) * coord (radius s) -> x_in_box (nf_sphere_bounds p e s) k.
Proof.
  destruct s as [c r]. unfold nf_sphere_bounds, sphere_bounds, x_in_box, xle, rdist2, vzip. cbn [center radius bmin bmax].
  intros Hk Hc Hr Hr0. assert (Er := coord_rv p e r Hr). rewrite Er in *. 
  induction D as [|D IH]; intros H; [split; constructor|]. cbn [vlist vmap combine map fold_right fst snd] in *.
  inversion Hk as [|? ? Hk1 Hk2]; inversion Hc as [|? ? Hc1 Hc2]; subst.
  assert (Hn : 0 <= fold_right Rplus 0 (map (fun xy => (coord (fst xy) - coord (snd xy)) * (coord (fst xy) - coord (snd xy))) (combine (vlist (snd k)) (vlist (snd c))))).
  { clear. induction (combine (vlist (snd k)) (vlist (snd c))) as [|x l IHl]; cbn [map fold_right]; [lra|]. assert (Hx := Rle_0_sqr (coord (fst x) - coord (snd x))). unfold Rsqr in Hx. lra. }
  assert (Hs := Rle_0_sqr (coord (fst k) - coord (fst c))). unfold Rsqr in Hs.
  destruct (IH (snd c) (snd k) Hk2 Hc2) as [I1 I2]; [lra|].
  assert (H0 : - rv r <= coord (fst k) - coord (fst c) <= rv r) by (split; nra).
  rewrite !(coord_rv p e) in H0 by assumption.
  split; constructor; try assumption.
  - apply low_le; try assumption. lra.
  - apply high_ge; try assumption. lra.
Qed.

Lemma box_found D VO (s : sphere (nf p e) (Datatypes.S D)) b k :
  x_in_box (nf_sphere_bounds p e s) k -> box_incl (nf_ops p e) b (key_bounds (point_params (nf_ops p e) VO) k) ->
  test_bounds (nf_sphere_filter p e s) b = true.
Proof.
  intros H [H1 H2]. apply in_box_x in H as [H3 H4]. cbn in H1, H2. cbn [nf_sphere_filter bounded_intersects_filter test_bounds box_bounds_ops b_intersects].
  apply (intersects_box_iff (nf_ops p e)). split; eapply (vec_le_trans (nf_ops p e) (nf_order p e)); eassumption.
Qed.

(** *** Integers *)
Lemma frnd_int q e' (Hq : fp_format q e') z : (Z.abs z <= 2 ^ q)%Z -> frnd q e' (IZR z) = IZR z.
Proof.
  intros Hz. unfold frnd. apply round_generic; [apply valid_rnd_N|]. rewrite (fexp_FLT q e').
  destruct (Z.eq_dec (Z.abs z) (2 ^ q)) as [E|E].
  - apply generic_format_abs_inv. rewrite <- abs_IZR, E. rewrite (IZR_Zpower radix2) by (destruct Hq; lia).
    apply generic_format_bpow. unfold FLT_exp. destruct Hq. lia.
  - apply generic_format_FLT. exists (Float radix2 z 0); cbn [Fnum Fexp].
    + unfold F2R. cbn. lra.
    + change (radix_val radix2) with 2%Z. lia.
    + destruct Hq. lia.
Qed.

Lemma int_lt_max q e' (Hq : fp_format q e') z : (Z.abs z <= 2 ^ q)%Z -> Rabs (IZR z) < fmax_ e'.
Proof.
  intros Hz. rewrite <- abs_IZR. apply Rle_lt_trans with (IZR (2 ^ q)); [now apply IZR_le|]. rewrite (IZR_Zpower radix2) by (destruct Hq; lia).
  apply bpow_lt. destruct Hq. lia.
Qed.

Lemma rx_int q e' (Hq : fp_format q e') z : (0 <= z <= 2 ^ q)%Z -> rx q e' (IZR z) = XReal (IZR z).
Proof.
  intros Hz. unfold rx. rewrite (frnd_int q e' Hq) by lia. rewrite Rlt_bool_true; [reflexivity|].
  assert (H := int_lt_max q e' Hq z ltac:(lia)). rewrite Rabs_pos_eq in H by (apply IZR_le; lia). exact H.
Qed.

Definition int_at (M : Z) (x : nf p e) : Prop := fin x /\ exists z, coord x = IZR z /\ (Z.abs z <= M)%Z.

Lemma gap_int M (x y : nf p e) : (2 * M <= 2 ^ p)%Z -> ((2 * M) * (2 * M) <= 2 ^ 53)%Z -> int_at M x -> int_at M y ->
  exists g, ((coord x - coord y) * (coord x - coord y) = IZR g)%R /\ (0 <= g <= (2 * M) * (2 * M))%Z /\
    sq64 (xabs (nf_value (up (a_sub A x y)))) = XReal (IZR g).
Proof.
  intros HM HM2 [Hx (a & Ea & Ba)] [Hy (b & Eb & Bb)]. exists ((a - b) * (a - b))%Z.
  split; [now rewrite Ea, Eb, mult_IZR, minus_IZR|]. assert (Hab : (Z.abs (a - b) <= 2 * M)%Z) by lia. split; [nia|].
  rewrite up_value. rewrite <- fmag_value, (asub_raw p e Hf) by assumption.
  destruct (sub_spec p e Hf x y) as [_ ->]; try now apply finite_value_SF. 
  change (SF2R radix2 (nf_raw x)) with (rv x). change (SF2R radix2 (nf_raw y)) with (rv y).
  rewrite <- !(coord_rv p e) by assumption. rewrite Ea, Eb, <- minus_IZR, <- abs_IZR. rewrite (rx_int p e Hf) by lia. cbn [sqx].
  rewrite <- mult_IZR. replace (Z.abs (a - b) * Z.abs (a - b))%Z with ((a - b) * (a - b))%Z by (rewrite <- Z.abs_mul; symmetry; apply Z.abs_eq; nia).
  apply (rx_int 53 1024 Hf64). nia.
Qed.

Lemma sum_int M D (k c : svec (nf p e) D) (acc : n64) z : (0 <= M)%Z -> (2 * M <= 2 ^ p)%Z ->
  Forall (int_at M) (vlist k) -> Forall (int_at M) (vlist c) ->
  nf_value acc = XReal (IZR z) -> (0 <= z)%Z -> (z + Z.of_nat D * ((2 * M) * (2 * M)) <= 2 ^ 53)%Z ->
  nf_value (fold_left (a_add A64) (map (fun x => a_mul A64 x x) (vlist (vmap up (vmap2 (a_sub A) k c)))) acc) = XReal (IZR z + rdist2 k c).
Proof.
  unfold rdist2, vzip. intros HM0 HM. revert acc z; induction D as [|D IH]; intros acc z Hk Hc Ha Hz0 Hz.
  - cbn. now rewrite Rplus_0_r.
  - inversion Hk as [|? ? Hk1 Hk2]; inversion Hc as [|? ? Hc1 Hc2]; subst. cbn [vlist vmap vmap2 map fold_left combine fold_right fst snd].
    rewrite Nat2Z.inj_succ in Hz.
    destruct (gap_int M (fst k) (fst c) HM ltac:(nia) Hk1 Hc1) as (g & G1 & G2 & G3).
    rewrite <- Rplus_assoc, G1, <- plus_IZR. apply IH; try assumption; [|lia|lia].
    rewrite (add_value 53 1024 Hf64); [|rewrite Ha; cbn; apply IZR_le; lia|apply mul_nonneg, Hf64].
    rewrite mul_value64, G3, Ha. cbn [addx]. rewrite <- plus_IZR. apply (rx_int 53 1024 Hf64). nia.
Qed.

Lemma test_int M D (s : sphere (nf p e) (Datatypes.S D)) k : (0 <= M)%Z -> (2 * M <= 2 ^ p)%Z ->
  (Z.of_nat (Datatypes.S D) * ((2 * M) * (2 * M)) <= 2 ^ 53)%Z ->
  Forall (int_at M) (vlist k) -> Forall (int_at M) (vlist (center s)) ->
  fin (radius s) -> (exists r, coord (radius s) = IZR r /\ (0 <= r)%Z /\ (r * r <= 2 ^ 53)%Z) ->
  (nf_sphere_test p e s k = true <-> rdist2 k (center s) <= coord (radius s) * coord (radius s)).
Proof.
  intros HM0 HM HD Hk Hc Hr (r & Er & R0 & R1). rewrite test_values.
  rewrite (fin_rv p e _ Hr), <- (coord_rv p e _ Hr). cbn [xabs]. rewrite Er, <- abs_IZR, Z.abs_eq by exact R0.
  cbn [sqx]. rewrite <- mult_IZR, (rx_int 53 1024 Hf64) by nia.
  assert (E : nf_value (sq_mag A64 (vmap up (vmap2 (a_sub A) k (center s)))) = XReal (rdist2 k (center s))).
  { unfold sq_mag. cbn [vmap vmap2 fst snd]. inversion Hk as [|? ? Hk1 Hk2]; inversion Hc as [|? ? Hc1 Hc2]; subst.
    rewrite Nat2Z.inj_succ in HD.
    destruct (gap_int M (fst k) (fst (center s)) HM ltac:(nia) Hk1 Hc1) as (g & G1 & G2 & G3).
    change (rdist2 k (center s)) with ((coord (fst k) - coord (fst (center s))) * (coord (fst k) - coord (fst (center s))) + rdist2 (snd k) (snd (center s))).
    rewrite G1. apply sum_int with (M := M); try assumption; try lia. now rewrite mul_value64. }
  rewrite E. reflexivity.
Qed.
End Spheres.
