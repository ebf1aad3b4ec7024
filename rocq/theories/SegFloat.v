(** Segments and rays with [i32] coordinates: the tests computed in [f64] (C37, C38). *)
From Coq Require Import Lra.
From Flocq Require Import Core Relative.
From Flocq Require Import BinarySingleNaN.
From Verif Require Export SegProof FloatReal SphereProof.
From Coq Require Import Floats.SpecFloat.
Local Open Scope R_scope.

(** The double [x] is the number [e]. *)
Definition repx (x : f64) (e : ext) : Prop :=
  match e with ENaN => x = S754_nan | EInf s => x = S754_infinity s | EFin r => rep x r end.

Lemma rep_cases x r : rep x r -> (exists s, x = S754_zero s) \/ exists s m e, x = S754_finite s m e.
Proof. intros ([s|s| |s m e ?] & <- & Hf & _); try discriminate Hf; cbn; eauto. Qed.

Lemma repx_lt x y a b : repx x a -> repx y b -> f64_lt x y = e_lt a b.
Proof.
  unfold f64_lt. destruct a as [|s|a], b as [|s'|b]; cbn [repx e_lt]; intros Hx Hy; try (now rewrite (rep_lt _ _ _ _ Hx Hy)); subst;
    try (apply rep_cases in Hx as [(? & ->)|(? & ? & ? & ->)]); try (apply rep_cases in Hy as [(? & ->)|(? & ? & ? & ->)]);
    unfold SFltb; cbn; try (destruct s); try (destruct s'); reflexivity.
Qed.
Lemma repx_le x y a b : repx x a -> repx y b -> f64_le x y = e_le a b.
Proof.
  unfold f64_le. destruct a as [|s|a], b as [|s'|b]; cbn [repx e_le]; intros Hx Hy; try (now rewrite (rep_le _ _ _ _ Hx Hy)); subst;
    try (apply rep_cases in Hx as [(? & ->)|(? & ? & ? & ->)]); try (apply rep_cases in Hy as [(? & ->)|(? & ? & ? & ->)]);
    unfold SFleb; cbn; try (destruct s); try (destruct s'); reflexivity.
Qed.

Notation rops := (ext_ops rnd).

Lemma repx_min x y a b : repx x a -> repx y b -> repx (f64_min f64_fops x y) (f64_min rops a b).
Proof. intros Hx Hy. unfold f64_min. cbn [fl_lt f64_fops ext_ops]. rewrite (repx_lt _ _ _ _ Hx Hy). destruct (e_lt a b); assumption. Qed.
Lemma repx_max x y a b : repx x a -> repx y b -> repx (f64_max f64_fops x y) (f64_max rops a b).
Proof. intros Hx Hy. unfold f64_max. cbn [fl_lt f64_fops ext_ops]. rewrite (repx_lt _ _ _ _ Hy Hx). destruct (e_lt b a); assumption. Qed.

(** A product with infinity. *)
Lemma repx_scale x a s : rep x a -> repx (f64_mul x (S754_infinity s)) (e_scale a s).
Proof.
  intros (b & <- & Hf & <-). unfold e_scale. destruct b as [s'|s'| |s' m e Hb]; try discriminate Hf.
  - cbn. rewrite Rcompare_Eq by reflexivity. reflexivity.
  - cbn [B2R B2SF]. destruct s'; cbn [cond_Zopp].
    + rewrite Rcompare_Lt; [cbn; destruct s; reflexivity|]. apply F2R_lt_0. reflexivity.
    + rewrite Rcompare_Gt; [cbn; destruct s; reflexivity|]. apply F2R_gt_0. reflexivity.
Qed.

(** An [i32] coordinate as a number. *)
Definition i32_ext (a : i32) : ext := EFin (i32_real a).

Lemma i32_rep (a : i32) : rep (i32_into_f64 a) (i32_real a).
Proof. apply rep_of_Z. assert (H := i32_bounds a). change (2 ^ 53)%Z with 9007199254740992%Z. lia. Qed.

Lemma inv_rep d : d <> 0%Z -> (Z.abs d <= 2147483648)%Z -> Rabs (1 / IZR d) <= 1.
Proof.
  intros Hd _. unfold Rdiv. rewrite Rmult_1_l, Rabs_inv. rewrite <- abs_IZR.
  rewrite <- Rinv_1. apply Rinv_le_contravar; [lra|]. apply IZR_le. lia.
Qed.
Lemma rnd_le_int x z : (0 <= z <= 2 ^ 53)%Z -> Rabs x <= IZR z -> Rabs (rnd x) <= IZR z.
Proof.
  intros Hz Hx. apply abs_round_le_generic; [apply FLT_exp_valid; reflexivity|apply valid_rnd_N|apply int_format; lia|exact Hx].
Qed.

Lemma time_repx x d : repx (f64_mul (i32_into_f64 x) (f64_div (f64_of_Z 1) (i32_into_f64 d)))
                           (e_mul rnd (i32_ext x) (e_div rnd (EFin 1) (i32_ext d))).
Proof.
  unfold i32_ext. assert (Hx := i32_rep x). assert (Hd := i32_rep d). assert (Bx := i32_bounds x). assert (Bd := i32_bounds d).
  destruct (Z.eq_dec (i32_val d) 0) as [E|E].
  - assert (E1 : f64_div (f64_of_Z 1) (i32_into_f64 d) = S754_infinity false) by (unfold i32_into_f64; rewrite E; vm_compute; reflexivity).
    assert (E2 : e_div rnd (EFin 1) (EFin (i32_real d)) = EInf false).
    { unfold e_div, i32_real. rewrite E. rewrite Req_bool_true by reflexivity. unfold e_scale. rewrite Rcompare_Gt by lra. reflexivity. }
    rewrite E1, E2. cbn [e_mul]. now apply repx_scale.
  - assert (Hd0 : i32_real d <> 0) by (apply IZR_neq, E).
    unfold e_div. rewrite Req_bool_false by exact Hd0. cbn [e_mul repx].
    assert (Hi : Rabs (rnd (1 / i32_real d)) <= IZR 1) by (apply rnd_le_int; [lia|]; unfold i32_real; apply inv_rep; lia).
    assert (Rd : rep (f64_div (f64_of_Z 1) (i32_into_f64 d)) (rnd (1 / i32_real d))).
    { apply rep_div; [apply (rep_of_Z 1); vm_compute; discriminate|exact Hd|exact Hd0|]. apply Rle_lt_trans with (1 := Hi).
      unfold maxf. change (IZR 1) with (bpow radix2 0). apply bpow_lt. lia. }
    apply rep_mul; [exact Hx|exact Rd|]. apply (rnd_bound _ 2147483648); [lia|]. rewrite Rabs_mult.
    rewrite <- (Rmult_1_r (IZR 2147483648)). apply Rmult_le_compat; [apply Rabs_pos|apply Rabs_pos| |exact Hi].
    unfold i32_real. rewrite <- abs_IZR. apply IZR_le. lia.
Qed.

Lemma slab_repx l h o d : repx (fst (slab i32_sub i32_into_f64 f64_fops l h o d)) (fst (slab i32_sub i32_ext rops l h o d)) /\
  repx (snd (slab i32_sub i32_into_f64 f64_fops l h o d)) (snd (slab i32_sub i32_ext rops l h o d)).
Proof. unfold slab. cbn [fst snd fl_mul fl_div fl_one f64_fops ext_ops]. split; apply time_repx. Qed.

Lemma loop_repx D (bmn bmx o d : svec i32 D) s e : repx (fst s) (fst e) -> repx (snd s) (snd e) ->
  repx (fst (slab_loop i32_sub i32_into_f64 f64_fops bmn bmx o d s)) (fst (slab_loop i32_sub i32_ext rops bmn bmx o d e)) /\
  repx (snd (slab_loop i32_sub i32_into_f64 f64_fops bmn bmx o d s)) (snd (slab_loop i32_sub i32_ext rops bmn bmx o d e)).
Proof.
  revert s e; induction D as [|D IH]; intros s e H1 H2; cbn [slab_loop]; [split; assumption|].
  destruct (slab_repx (fst bmn) (fst bmx) (fst o) (fst d)) as [K1 K2].
  destruct (slab i32_sub i32_into_f64 f64_fops (fst bmn) (fst bmx) (fst o) (fst d)) as [t1 t2].
  destruct (slab i32_sub i32_ext rops (fst bmn) (fst bmx) (fst o) (fst d)) as [u1 u2].
  destruct s as [s1 s2], e as [e1 e2]. cbn [fst snd] in *. apply IH; cbn [slab_step fst snd].
  - apply repx_min; apply repx_max; assumption.
  - apply repx_max; apply repx_min; assumption.
Qed.

(** The test on doubles is the test on numbers rounded to doubles. *)
Lemma line_test_ext D (b : saabb i32 D) o d :
  line_bounds_intersect i32_sub i32_into_f64 f64_fops b o d = line_bounds_intersect i32_sub i32_ext rops b o d.
Proof.
  unfold line_bounds_intersect.
  destruct (loop_repx D (bmin b) (bmax b) o d (fl_zero f64_fops, fl_one f64_fops) (fl_zero rops, fl_one rops)) as [H1 H2].
  - cbn [fst repx fl_zero f64_fops ext_ops]. apply (rep_of_Z 0). vm_compute. discriminate.
  - cbn [snd repx fl_one f64_fops ext_ops]. apply (rep_of_Z 1). vm_compute. discriminate.
  - destruct (slab_loop i32_sub i32_into_f64 f64_fops (bmin b) (bmax b) o d _) as [t1 t2].
    destruct (slab_loop i32_sub i32_ext rops (bmin b) (bmax b) o d _) as [u1 u2]. cbn [fst snd] in *. now apply repx_le.
Qed.
Lemma ray_test_ext D (b : saabb i32 (Datatypes.S D)) o d :
  ray_bounds_intersect i32_sub i32_into_f64 f64_fops b o d = ray_bounds_intersect i32_sub i32_ext rops b o d.
Proof.
  unfold ray_bounds_intersect. destruct (slab_repx (fst (bmin b)) (fst (bmax b)) (fst o) (fst d)) as [K1 K2].
  destruct (slab i32_sub i32_into_f64 f64_fops (fst (bmin b)) (fst (bmax b)) (fst o) (fst d)) as [s1 s2].
  destruct (slab i32_sub i32_ext rops (fst (bmin b)) (fst (bmax b)) (fst o) (fst d)) as [e1 e2]. cbn [fst snd] in *.
  destruct (loop_repx D (snd (bmin b)) (snd (bmax b)) (snd o) (snd d) (f64_min f64_fops s1 s2, f64_max f64_fops s1 s2)
              (f64_min rops e1 e2, f64_max rops e1 e2)) as [H1 H2].
  - now apply repx_min.
  - now apply repx_max.
  - destruct (slab_loop i32_sub i32_into_f64 f64_fops _ _ _ _ _) as [t1 t2].
    destruct (slab_loop i32_sub i32_ext rops _ _ _ _ _) as [u1 u2]. cbn [fst snd] in *. now apply repx_lt.
Qed.

(** ** The rounding error of a quotient *)
Definition u53 : R := bpow radix2 (-53).
Lemma u53_val : 0 < u53 /\ u53 * 9007199254740992 = 1.
Proof.
  unfold u53. split; [apply bpow_gt_0|]. change 9007199254740992 with (bpow radix2 53). rewrite <- bpow_plus. reflexivity.
Qed.

Lemma rnd_rel x : bpow radix2 (-100) <= Rabs x -> exists e, Rabs e <= u53 /\ rnd x = x * (1 + e).
Proof.
  intros Hx. destruct (relative_error_N_FLT_ex radix2 (-1074) 53 eq_refl (fun x => negb (Z.even x)) x) as (e & He & E).
  - apply Rle_trans with (2 := Hx). apply bpow_le. lia.
  - exists e. split; [|exact E]. apply Rle_trans with (1 := He). apply Req_le. unfold u53.
    change (/ 2) with (bpow radix2 (-1)). rewrite <- bpow_plus. reflexivity.
Qed.

Lemma quo_err x d : (Z.abs x <= 2147483648)%Z -> (1 <= Z.abs d <= 2147483648)%Z ->
  Rabs (quo rnd (IZR x) (IZR d) - IZR x / IZR d) <= 5 / 2 * u53 * Rabs (IZR x / IZR d).
Proof.
  intros Hx Hd. destruct u53_val as [Hu Eu]. unfold quo.
  assert (Hd0 : IZR d <> 0) by (apply IZR_neq; lia).
  destruct (Z.eq_dec x 0) as [->|Hx0].
  { rewrite Rmult_0_l, rnd_0. unfold Rdiv. rewrite !Rmult_0_l, Rminus_0_r, Rabs_R0. lra. }
  assert (Hd1 : 1 <= Rabs (IZR d) <= 2147483648) by (rewrite <- abs_IZR; split; apply IZR_le; lia).
  assert (Hx1 : 1 <= Rabs (IZR x)) by (rewrite <- abs_IZR; apply IZR_le; lia).
  assert (Hinv : bpow radix2 (-31) <= Rabs (1 / IZR d)).
  { unfold Rdiv. rewrite Rmult_1_l, Rabs_inv. change (bpow radix2 (-31)) with (/ 2147483648).
    apply Rinv_le_contravar; lra. }
  destruct (rnd_rel (1 / IZR d)) as (e1 & He1 & E1); [apply Rle_trans with (2 := Hinv), bpow_le; lia|].
  apply Rabs_le_inv in He1.
  assert (Hb : bpow radix2 (-32) <= Rabs (IZR x * rnd (1 / IZR d))).
  { rewrite E1, !Rabs_mult. replace (bpow radix2 (-32)) with (1 * (bpow radix2 (-31) * / 2)).
    - apply Rmult_le_compat; [lra| |exact Hx1|].
      + assert (P := bpow_gt_0 radix2 (-31)). lra.
      + apply Rmult_le_compat; [apply bpow_ge_0|lra|exact Hinv|]. apply Rle_trans with (1 + e1); [lra|apply Rle_abs].
    - rewrite Rmult_1_l. change (/ 2) with (bpow radix2 (-1)). rewrite <- bpow_plus. reflexivity. }
  destruct (rnd_rel (IZR x * rnd (1 / IZR d))) as (e2 & He2 & E2); [apply Rle_trans with (2 := Hb), bpow_le; lia|].
  apply Rabs_le_inv in He2. rewrite E2, E1.
  replace (IZR x * (1 / IZR d * (1 + e1)) * (1 + e2) - IZR x / IZR d) with ((IZR x / IZR d) * (e1 + e2 + e1 * e2)) by (field; exact Hd0).
  rewrite Rabs_mult, Rmult_comm. apply Rmult_le_compat_r; [apply Rabs_pos|].
  apply Rabs_le. nra.
Qed.

Lemma close_sign q a : Rabs (q - a) <= 5 / 2 * u53 * Rabs a -> (0 <= a -> 0 <= q) /\ (a < 0 -> q < 0) /\ (0 < a -> 0 < q).
Proof.
  intros H. destruct u53_val as [Hu Eu]. apply Rabs_le_inv in H.
  unfold Rabs in H. destruct (Rcase_abs a) as [Ha|Ha]; repeat split; intros; nra.
Qed.

(** Different quotients, at least 1/2^50 apart, that matter between 0 and 1, are not confused. *)
Lemma order_unit A B qA qB : Rabs (qA - A) <= 5 / 2 * u53 * Rabs A -> Rabs (qB - B) <= 5 / 2 * u53 * Rabs B ->
  8 * u53 <= B - A -> A <= 1 -> 0 <= B -> qA < qB.
Proof.
  intros HA HB Hg HA1 HB0. destruct u53_val as [Hu Eu]. destruct (close_sign _ _ HA) as (_ & SA & _), (close_sign _ _ HB) as (SB & _).
  destruct (Rlt_le_dec A 0) as [Ha|Ha]; [specialize (SA Ha); specialize (SB HB0); lra|].
  rewrite (Rabs_pos_eq A) in HA by exact Ha. rewrite (Rabs_pos_eq B) in HB by exact HB0. apply Rabs_le_inv in HA, HB.
  destruct (Rle_lt_dec B 2) as [Hb|Hb]; nra.
Qed.

(** Different quotients whose distance is not too small relative to them are not confused. *)
Lemma order_rel A B qA qB : Rabs (qA - A) <= 5 / 2 * u53 * Rabs A -> Rabs (qB - B) <= 5 / 2 * u53 * Rabs B ->
  A < B -> 8 * u53 * Rabs A <= B - A -> 8 * u53 * Rabs B <= B - A -> qA < qB.
Proof.
  intros HA HB Hlt H1 H2. destruct u53_val as [Hu Eu]. apply Rabs_le_inv in HA, HB.
  assert (P1 := Rabs_pos A). assert (P2 := Rabs_pos B).
  assert (Hne : 0 < Rabs A + Rabs B).
  { destruct (Req_dec A 0) as [->|Ha]; [|assert (0 < Rabs A) by (now apply Rabs_pos_lt); lra].
    assert (0 < Rabs B) by (apply Rabs_pos_lt; lra). lra. }
  nra.
Qed.

Lemma quo_gap x d y e : (d <> 0)%Z -> (e <> 0)%Z -> IZR x / IZR d < IZR y / IZR e -> 1 <= (IZR y / IZR e - IZR x / IZR d) * (Rabs (IZR d) * Rabs (IZR e)).
Proof.
  intros Hd He Hlt. assert (Hd0 : IZR d <> 0) by (now apply IZR_neq). assert (He0 : IZR e <> 0) by (now apply IZR_neq).
  rewrite <- Rabs_mult, <- (Rabs_pos_eq (IZR y / IZR e - IZR x / IZR d)) by lra. rewrite <- Rabs_mult.
  replace ((IZR y / IZR e - IZR x / IZR d) * (IZR d * IZR e)) with (IZR (y * d - x * e)) by (rewrite minus_IZR, !mult_IZR; field; split; assumption).
  rewrite <- abs_IZR. apply IZR_le.
  assert (y * d - x * e <> 0)%Z; [|lia]. intros E. assert (E' : (IZR y / IZR e - IZR x / IZR d) * (IZR d * IZR e) = 0).
  { replace ((IZR y / IZR e - IZR x / IZR d) * (IZR d * IZR e)) with (IZR (y * d - x * e)) by (rewrite minus_IZR, !mult_IZR; field; split; assumption).
    now rewrite E. }
  apply Rmult_integral in E' as [E'|E']; [lra|]. apply Rmult_integral in E'. tauto.
Qed.

Lemma abs_range d m : (1 <= Z.abs d <= m)%Z -> 1 <= Rabs (IZR d) <= IZR m.
Proof. intros H. rewrite <- abs_IZR. split; apply IZR_le; lia. Qed.

Lemma quo_order_unit x d y e : (Z.abs x <= 2147483648)%Z -> (Z.abs y <= 2147483648)%Z ->
  (1 <= Z.abs d <= 33554432)%Z -> (1 <= Z.abs e <= 33554432)%Z ->
  IZR x / IZR d < IZR y / IZR e -> IZR x / IZR d <= 1 -> 0 <= IZR y / IZR e -> quo rnd (IZR x) (IZR d) < quo rnd (IZR y) (IZR e).
Proof.
  intros Hx Hy Hd He Hlt H1 H2. assert (G := quo_gap x d y e ltac:(lia) ltac:(lia) Hlt).
  assert (Rd := abs_range _ _ Hd). assert (Re := abs_range _ _ He). destruct u53_val as [Hu Eu].
  apply (order_unit (IZR x / IZR d) (IZR y / IZR e)); auto; try (apply quo_err; lia).
  assert (P : Rabs (IZR d) * Rabs (IZR e) <= 33554432 * 33554432) by (apply Rmult_le_compat; try apply Rabs_pos; lra).
  assert (Q : 0 <= IZR y / IZR e - IZR x / IZR d) by lra.
  assert (M := Rmult_le_compat_l _ _ _ Q P). lra.
Qed.

Lemma rel_gap x d e g : (Z.abs x <= 33554432)%Z -> (1 <= Z.abs d)%Z -> (1 <= Z.abs e <= 33554432)%Z ->
  0 <= g -> 1 <= g * (Rabs (IZR d) * Rabs (IZR e)) -> 8 * u53 * Rabs (IZR x / IZR d) <= g.
Proof.
  intros Hx Hd He Hg G. destruct u53_val as [Hu Eu].
  assert (Hd0 : IZR d <> 0) by (apply IZR_neq; lia).
  assert (Rd : 1 <= Rabs (IZR d)) by (rewrite <- abs_IZR; apply IZR_le; lia).
  assert (Re := abs_range _ _ He).
  assert (Rx : 0 <= Rabs (IZR x) <= 33554432) by (split; [apply Rabs_pos|rewrite <- abs_IZR; apply IZR_le; lia]).
  unfold Rdiv. rewrite Rabs_mult, Rabs_inv.
  apply Rmult_le_reg_r with (Rabs (IZR d)); [lra|].
  replace (8 * u53 * (Rabs (IZR x) * / Rabs (IZR d)) * Rabs (IZR d)) with (8 * u53 * Rabs (IZR x)) by (field; lra).
  set (a := Rabs (IZR d)) in *. set (b := Rabs (IZR e)) in *. set (c := Rabs (IZR x)) in *.
  assert (K : 1 <= g * a * 33554432).
  { apply Rle_trans with (1 := G). replace (g * (a * b)) with (g * a * b) by ring. apply Rmult_le_compat_l; [nra|lra]. }
  nra.
Qed.

Lemma quo_order_rel x d y e : (Z.abs x <= 33554432)%Z -> (Z.abs y <= 33554432)%Z ->
  (1 <= Z.abs d <= 33554432)%Z -> (1 <= Z.abs e <= 33554432)%Z ->
  IZR x / IZR d < IZR y / IZR e -> quo rnd (IZR x) (IZR d) < quo rnd (IZR y) (IZR e).
Proof.
  intros Hx Hy Hd He Hlt. assert (G := quo_gap x d y e ltac:(lia) ltac:(lia) Hlt).
  apply (order_rel (IZR x / IZR d) (IZR y / IZR e)); auto; try (apply quo_err; lia).
  - eapply rel_gap; eauto; try lia. lra.
  - eapply (rel_gap y e d); eauto; try lia; [lra|]. now rewrite (Rmult_comm (Rabs (IZR e))).
Qed.

(** ** Intervals of parameters *)
Lemma max_attained {T} (f : T -> R) (l : list T) : l <> [] -> exists a, In a l /\ forall b, In b l -> f b <= f a.
Proof.
  induction l as [|x l IH]; [congruence|]. intros _. destruct l as [|y l].
  - exists x. split; [now left|]. intros b [<-|[]]. lra.
  - destruct IH as (a & Ha & H); [discriminate|]. destruct (Rle_lt_dec (f x) (f a)) as [Hx|Hx].
    + exists a. split; [now right|]. intros b [<-|Hb]; auto.
    + exists x. split; [now left|]. intros b [<-|Hb]; [lra|]. specialize (H b Hb). lra.
Qed.

(** The two ends of the parameters allowed by a dimension in which the direction is not zero. *)
Definition low (rho : R -> R) (a : axis) : R := if Rlt_bool 0 (snd a) then quo rho (fst (fst a)) (snd a) else quo rho (snd (fst a)) (snd a).
Definition high (rho : R -> R) (a : axis) : R := if Rlt_bool 0 (snd a) then quo rho (snd (fst a)) (snd a) else quo rho (fst (fst a)) (snd a).

Section LowHigh.
Variable (rho : R -> R).
Hypothesis (rho_mono : forall a b, a <= b -> rho a <= rho b).
Hypothesis (rho_0 : rho 0 = 0).

Lemma lo_low a r : fst (fst a) <= snd (fst a) -> snd a <> 0 -> lo_ok (slab_at rho a) r <-> low rho a <= r.
Proof.
  destruct a as [[x y] d]. unfold slab_at, low. cbn [fst snd]. intros Hxy Hd. destruct (Rlt_bool_spec 0 d).
  - apply lo_pos; auto.
  - apply lo_neg; auto. lra.
Qed.
Lemma hi_high a r : fst (fst a) <= snd (fst a) -> snd a <> 0 -> hi_ok (slab_at rho a) r <-> r <= high rho a.
Proof.
  destruct a as [[x y] d]. unfold slab_at, high. cbn [fst snd]. intros Hxy Hd. destruct (Rlt_bool_spec 0 d).
  - apply hi_pos; auto.
  - apply hi_neg; auto. lra.
Qed.
Lemma lo_flat a r : fst (fst a) <= snd (fst a) -> snd a = 0 -> lo_ok (slab_at rho a) r <-> fst (fst a) <= 0.
Proof. destruct a as [[x y] d]. unfold slab_at. cbn [fst snd]. intros Hxy ->. now apply lo_zero. Qed.
Lemma hi_flat a r : fst (fst a) <= snd (fst a) -> snd a = 0 -> hi_ok (slab_at rho a) r <-> 0 <= snd (fst a).
Proof. destruct a as [[x y] d]. unfold slab_at. cbn [fst snd]. intros Hxy ->. now apply hi_zero. Qed.

(** Parameters [r <= r'] (or [r < r']) allowed by all dimensions, in terms of the ends. *)
Definition moving (l : list axis) : list axis := filter (fun a => negb (Req_bool (snd a) 0)) l.
Lemma moving_in l a : In a (moving l) <-> In a l /\ snd a <> 0.
Proof.
  unfold moving. rewrite filter_In. destruct (Req_bool_spec (snd a) 0); cbn; intuition congruence.
Qed.

Definition flats_ok (l : list axis) : Prop := forall a, In a l -> snd a = 0 -> fst (fst a) <= 0 <= snd (fst a).

Lemma allowed_iff l (Hv : Forall (fun a => fst (fst a) <= snd (fst a)) l) :
  (exists r, Forall (fun a => lo_ok (slab_at rho a) r /\ hi_ok (slab_at rho a) r) l) <->
  flats_ok l /\ forall a b, In a (moving l) -> In b (moving l) -> low rho a <= high rho b.
Proof.
  rewrite Forall_forall in Hv. split.
  - intros (r & H). rewrite Forall_forall in H. split.
    + intros a Ha E. destruct (H a Ha) as [H1 H2]. rewrite lo_flat in H1 by auto. rewrite hi_flat in H2 by auto. lra.
    + intros a b Ha Hb. apply moving_in in Ha as [Ha Da], Hb as [Hb Db]. destruct (H a Ha) as [H1 _], (H b Hb) as [_ H2].
      rewrite lo_low in H1 by auto. rewrite hi_high in H2 by auto. lra.
  - intros [HF HM]. assert (HR : exists r, forall a, In a (moving l) -> low rho a <= r <= high rho a).
    { destruct (moving l) as [|x m] eqn:E; [exists 0; intros a []|].
      destruct (max_attained (low rho) (x :: m)) as (a & Ha & Hmax); [discriminate|]. exists (low rho a). intros b Hb. split; [auto|apply HM; auto]. }
    destruct HR as [r HR]. exists r. apply Forall_forall. intros a Ha. destruct (Req_dec (snd a) 0) as [E|E].
    + specialize (HF a Ha E). rewrite lo_flat, hi_flat by auto. exact HF.
    + specialize (HR a (proj2 (moving_in l a) (conj Ha E))). rewrite lo_low, hi_high by auto. exact HR.
Qed.

Lemma allowed_strict_iff l (Hv : Forall (fun a => fst (fst a) <= snd (fst a)) l) :
  (exists r r', r < r' /\ Forall (fun a => lo_ok (slab_at rho a) r /\ hi_ok (slab_at rho a) r') l) <->
  flats_ok l /\ forall a b, In a (moving l) -> In b (moving l) -> low rho a < high rho b.
Proof.
  rewrite Forall_forall in Hv. split.
  - intros (r & r' & Hr & H). rewrite Forall_forall in H. split.
    + intros a Ha E. destruct (H a Ha) as [H1 H2]. rewrite lo_flat in H1 by auto. rewrite hi_flat in H2 by auto. lra.
    + intros a b Ha Hb. apply moving_in in Ha as [Ha Da], Hb as [Hb Db]. destruct (H a Ha) as [H1 _], (H b Hb) as [_ H2].
      rewrite lo_low in H1 by auto. rewrite hi_high in H2 by auto. lra.
  - intros [HF HM]. assert (HR : exists r r', r < r' /\ forall a, In a (moving l) -> low rho a <= r /\ r' <= high rho a).
    { destruct (moving l) as [|x m] eqn:E; [exists 0, 1; split; [lra|intros a []]|].
      destruct (max_attained (low rho) (x :: m)) as (a & Ha & Hmax); [discriminate|].
      destruct (max_attained (fun a => - high rho a) (x :: m)) as (b & Hb & Hmin); [discriminate|].
      exists (low rho a), (high rho b). split; [auto|]. intros c Hc. split; [auto|]. specialize (Hmin c Hc). cbn in Hmin. lra. }
    destruct HR as (r & r' & Hr & HR). exists r, r'. split; [exact Hr|]. apply Forall_forall. intros a Ha. destruct (Req_dec (snd a) 0) as [E|E].
    + specialize (HF a Ha E). rewrite lo_flat, hi_flat by auto. exact HF.
    + specialize (HR a (proj2 (moving_in l a) (conj Ha E))). rewrite lo_low, hi_high by auto. exact HR.
Qed.
End LowHigh.

(** The exact point of view. *)
Lemma inside_iff l (Hv : Forall (fun a => fst (fst a) <= snd (fst a)) l) :
  (exists t, Forall (axis_in t) l) <->
  flats_ok l /\ forall a b, In a (moving l) -> In b (moving l) -> low (fun r => r) a <= high (fun r => r) b.
Proof.
  rewrite <- (allowed_iff (fun r => r)) by auto. rewrite Forall_forall in Hv.
  split; intros (t & H); exists t; rewrite Forall_forall in *; intros a Ha; apply exact_axis; auto.
Qed.
Lemma inside_strict_iff l (Hv : Forall (fun a => fst (fst a) <= snd (fst a)) l) :
  (exists t t', t < t' /\ Forall (axis_in t) l /\ Forall (axis_in t') l) <->
  flats_ok l /\ forall a b, In a (moving l) -> In b (moving l) -> low (fun r => r) a < high (fun r => r) b.
Proof.
  rewrite <- (allowed_strict_iff (fun r => r)) by auto. rewrite Forall_forall in Hv. split.
  - intros (t & t' & Ht & H1 & H2). exists t, t'. split; [exact Ht|]. rewrite Forall_forall in *. intros a Ha. split.
    + apply exact_axis; auto.
    + apply exact_axis; auto.
  - intros (t & t' & Ht & H). exists t, t'. split; [exact Ht|]. rewrite Forall_forall in H.
    split; apply Forall_forall; intros a Ha; apply exact_axis; auto; destruct (H a Ha) as [H1 H2].
    + split; [exact H1|]. exact (hi_down rnd _ _ _ (Rlt_le _ _ Ht) H2).
    + split; [|exact H2]. exact (lo_up rnd _ _ _ (Rlt_le _ _ Ht) H1).
Qed.

(** Dimensions with integer data: offsets up to [m], directions up to [k]. *)
Definition int_axis (m k : Z) (a : axis) : Prop :=
  exists x y d, a = (IZR x, IZR y, IZR d) /\ (x <= y)%Z /\ (Z.abs x <= m)%Z /\ (Z.abs y <= m)%Z /\ (Z.abs d <= k)%Z.

Lemma int_axis_valid m k a : int_axis m k a -> fst (fst a) <= snd (fst a).
Proof. intros (x & y & d & -> & H & _). cbn. now apply IZR_le. Qed.

Lemma int_low m k a : int_axis m k a -> snd a <> 0 -> exists x d, (Z.abs x <= m)%Z /\ (1 <= Z.abs d <= k)%Z /\
  forall rho, low rho a = quo rho (IZR x) (IZR d).
Proof.
  intros (x & y & d & -> & H1 & H2 & H3 & H4) Hd. cbn in Hd. assert (d <> 0)%Z by (intros ->; auto).
  unfold low. cbn [fst snd]. destruct (Rlt_bool_spec 0 (IZR d)); [exists x, d|exists y, d]; repeat split; auto; lia.
Qed.
Lemma int_high m k a : int_axis m k a -> snd a <> 0 -> exists x d, (Z.abs x <= m)%Z /\ (1 <= Z.abs d <= k)%Z /\
  forall rho, high rho a = quo rho (IZR x) (IZR d).
Proof.
  intros (x & y & d & -> & H1 & H2 & H3 & H4) Hd. cbn in Hd. assert (d <> 0)%Z by (intros ->; auto).
  unfold high. cbn [fst snd]. destruct (Rlt_bool_spec 0 (IZR d)); [exists y, d|exists x, d]; repeat split; auto; lia.
Qed.

Lemma quo_id x d : quo (fun r => r) (IZR x) (IZR d) = IZR x / IZR d.
Proof. unfold quo, Rdiv. now rewrite Rmult_1_l. Qed.

(** The parameters between 0 and 1, as a dimension. *)
Definition unit_axis : axis := (IZR 0, IZR 1, IZR 1).
Lemma quo_unit_0 : quo rnd (IZR 0) (IZR 1) = 0.
Proof. unfold quo. rewrite Rmult_0_l. apply rnd_0. Qed.
Lemma quo_unit_1 : quo rnd (IZR 1) (IZR 1) = 1.
Proof.
  unfold quo. assert (E : 1 / IZR 1 = IZR 1) by lra. rewrite E, (rnd_int 1) by (vm_compute; discriminate).
  rewrite Rmult_1_l. apply (rnd_int 1). vm_compute. discriminate.
Qed.
Lemma unit_allowed r : lo_ok (slab_at rnd unit_axis) r /\ hi_ok (slab_at rnd unit_axis) r <-> 0 <= r <= 1.
Proof.
  rewrite lo_low, hi_high by (try exact rnd_le; try exact rnd_0; cbn; lra). unfold low, high, unit_axis. cbn [fst snd].
  rewrite Rlt_bool_true by lra. rewrite quo_unit_0, quo_unit_1. tauto.
Qed.
Lemma unit_inside t : axis_in t unit_axis <-> 0 <= t <= 1.
Proof. unfold axis_in, unit_axis. cbn [fst snd]. lra. Qed.

Lemma unit_int : int_axis 2147483648 33554432 unit_axis.
Proof. exists 0%Z, 1%Z, 1%Z. repeat split; vm_compute; discriminate. Qed.

(** Segments: what the rounded test says and what is true. *)
Lemma segment_sound l : Forall (int_axis 2147483648 33554432) l ->
  (exists r, 0 <= r <= 1 /\ Forall (fun a => lo_ok (slab_at rnd a) r /\ hi_ok (slab_at rnd a) r) l) ->
  exists t, 0 <= t <= 1 /\ Forall (axis_in t) l.
Proof.
  intros Hi (r & Hr & H). set (L := unit_axis :: l).
  assert (HiL : Forall (int_axis 2147483648 33554432) L) by (constructor; [apply unit_int|exact Hi]).
  assert (HvL : Forall (fun a : axis => fst (fst a) <= snd (fst a)) L) by (eapply Forall_impl; [|exact HiL]; apply int_axis_valid).
  assert (HL : exists r, Forall (fun a => lo_ok (slab_at rnd a) r /\ hi_ok (slab_at rnd a) r) L).
  { exists r. constructor; [now apply unit_allowed|exact H]. }
  apply (allowed_iff rnd rnd_le rnd_0 L HvL) in HL. destruct HL as [HF HM].
  assert (Hu : In unit_axis (moving L)) by (apply moving_in; split; [now left|cbn; lra]).
  cut (exists t, Forall (axis_in t) L).
  { intros (t & Ht). inversion Ht; subst. exists t. split; [now apply unit_inside|assumption]. }
  apply inside_iff; [exact HvL|]. split; [exact HF|]. intros a b Ha Hb.
  apply Rnot_lt_le. intros Hlt.
  rewrite Forall_forall in HiL. assert (Ga := proj1 (moving_in _ _) Ha). assert (Gb := proj1 (moving_in _ _) Hb).
  destruct (int_low _ _ a (HiL a (proj1 Ga)) (proj2 Ga)) as (x & d & Hx & Hd & Ex).
  destruct (int_high _ _ b (HiL b (proj1 Gb)) (proj2 Gb)) as (y & e & Hy & He & Ey).
  assert (M1 := HM a b Ha Hb). assert (M2 := HM a unit_axis Ha Hu). assert (M3 := HM unit_axis b Hu Hb).
  unfold low at 1 in M3. unfold high at 1 in M2. cbn [fst snd unit_axis] in M2, M3. rewrite Rlt_bool_true in M2, M3 by lra.
  rewrite Ex, Ey, !quo_id in *.
  destruct (Rle_lt_dec (IZR y / IZR e) 1) as [B1|B1].
  - destruct (Rle_lt_dec 0 (IZR x / IZR d)) as [A0|A0].
    + assert (K := quo_order_unit y e x d Hy Hx He Hd Hlt B1 A0). lra.
    + assert (Hn : IZR y / IZR e < IZR 0 / IZR 1) by (unfold Rdiv at 2; rewrite Rmult_0_l; lra).
      assert (K := quo_order_unit y e 0 1 Hy ltac:(lia) He ltac:(lia) Hn B1 ltac:(lra)). lra.
  - assert (Hn : IZR 1 / IZR 1 < IZR x / IZR d) by lra.
    assert (K := quo_order_unit 1 1 x d ltac:(lia) Hx ltac:(lia) Hd Hn ltac:(lra) ltac:(lra)). lra.
Qed.

Lemma segment_complete l : Forall (int_axis 2147483648 33554432) l ->
  (exists t t', 0 <= t /\ t < t' /\ t' <= 1 /\ Forall (axis_in t) l /\ Forall (axis_in t') l) ->
  exists r, 0 <= r <= 1 /\ Forall (fun a => lo_ok (slab_at rnd a) r /\ hi_ok (slab_at rnd a) r) l.
Proof.
  intros Hi (t & t' & H0 & Ht & H1 & F & F'). set (L := unit_axis :: l).
  assert (HiL : Forall (int_axis 2147483648 33554432) L) by (constructor; [apply unit_int|exact Hi]).
  assert (HvL : Forall (fun a : axis => fst (fst a) <= snd (fst a)) L) by (eapply Forall_impl; [|exact HiL]; apply int_axis_valid).
  assert (HL : exists t t', t < t' /\ Forall (axis_in t) L /\ Forall (axis_in t') L).
  { exists t, t'. split; [exact Ht|]. split; (constructor; [apply unit_inside; lra|assumption]). }
  apply (inside_strict_iff L HvL) in HL. destruct HL as [HF HM].
  assert (Hu : In unit_axis (moving L)) by (apply moving_in; split; [now left|cbn; lra]).
  cut (exists r, Forall (fun a => lo_ok (slab_at rnd a) r /\ hi_ok (slab_at rnd a) r) L).
  { intros (r & Hr). inversion Hr; subst. exists r. split; [now apply unit_allowed|assumption]. }
  apply (allowed_iff rnd rnd_le rnd_0 L HvL). split; [exact HF|]. intros a b Ha Hb.
  rewrite Forall_forall in HiL. assert (Ga := proj1 (moving_in _ _) Ha). assert (Gb := proj1 (moving_in _ _) Hb).
  destruct (int_low _ _ a (HiL a (proj1 Ga)) (proj2 Ga)) as (x & d & Hx & Hd & Ex).
  destruct (int_high _ _ b (HiL b (proj1 Gb)) (proj2 Gb)) as (y & e & Hy & He & Ey).
  assert (M1 := HM a b Ha Hb). assert (M2 := HM a unit_axis Ha Hu). assert (M3 := HM unit_axis b Hu Hb).
  unfold low at 1 in M3. unfold high at 1 in M2. cbn [fst snd unit_axis] in M2, M3. rewrite Rlt_bool_true in M2, M3 by lra.
  rewrite Ex, Ey, !quo_id in *.
  assert (K := quo_order_unit x d y e Hx Hy Hd He M1 ltac:(lra) ltac:(lra)). lra.
Qed.

(** Rays (in both directions). *)
Lemma ray_sound l : Forall (int_axis 33554432 33554432) l ->
  (exists r r', r < r' /\ Forall (fun a => lo_ok (slab_at rnd a) r /\ hi_ok (slab_at rnd a) r') l) -> exists t, Forall (axis_in t) l.
Proof.
  intros Hi HL.
  assert (Hv : Forall (fun a : axis => fst (fst a) <= snd (fst a)) l) by (eapply Forall_impl; [|exact Hi]; apply int_axis_valid).
  apply (allowed_strict_iff rnd rnd_le rnd_0 l Hv) in HL. destruct HL as [HF HM].
  apply inside_iff; [exact Hv|]. split; [exact HF|]. intros a b Ha Hb. apply Rnot_lt_le. intros Hlt.
  rewrite Forall_forall in Hi. assert (Ga := proj1 (moving_in _ _) Ha). assert (Gb := proj1 (moving_in _ _) Hb).
  destruct (int_low _ _ a (Hi a (proj1 Ga)) (proj2 Ga)) as (x & d & Hx & Hd & Ex).
  destruct (int_high _ _ b (Hi b (proj1 Gb)) (proj2 Gb)) as (y & e & Hy & He & Ey).
  assert (M1 := HM a b Ha Hb). rewrite Ex, Ey, !quo_id in *.
  assert (K := quo_order_rel y e x d Hy Hx He Hd Hlt). lra.
Qed.
Lemma ray_complete l : Forall (int_axis 33554432 33554432) l ->
  (exists t t', t < t' /\ Forall (axis_in t) l /\ Forall (axis_in t') l) ->
  exists r r', r < r' /\ Forall (fun a => lo_ok (slab_at rnd a) r /\ hi_ok (slab_at rnd a) r') l.
Proof.
  intros Hi HL.
  assert (Hv : Forall (fun a : axis => fst (fst a) <= snd (fst a)) l) by (eapply Forall_impl; [|exact Hi]; apply int_axis_valid).
  apply (inside_strict_iff l Hv) in HL. destruct HL as [HF HM].
  apply (allowed_strict_iff rnd rnd_le rnd_0 l Hv). split; [exact HF|]. intros a b Ha Hb.
  rewrite Forall_forall in Hi. assert (Ga := proj1 (moving_in _ _) Ha). assert (Gb := proj1 (moving_in _ _) Hb).
  destruct (int_low _ _ a (Hi a (proj1 Ga)) (proj2 Ga)) as (x & d & Hx & Hd & Ex).
  destruct (int_high _ _ b (Hi b (proj1 Gb)) (proj2 Gb)) as (y & e & Hy & He & Ey).
  assert (M1 := HM a b Ha Hb). rewrite Ex, Ey, !quo_id in *.
  exact (quo_order_rel x d y e Hx Hy Hd He M1).
Qed.
