(** The volume of a box: rounding, exactness, monotonicity (C80). *)
From Coq Require Import Reals Lra Floats.SpecFloat.
From Flocq Require Import Core Relative BinarySingleNaN.
From Verif Require Export VolSpec CheckI32 BoxDistProof FpDist FpSphereProof UProof.
Local Open Scope R_scope.
Local Existing Instance FloatReal.Hprec.
Local Existing Instance FloatReal.Hmax.

Lemma rnd_rne x : rnd x = rne 53 1024 x. Proof. reflexivity. Qed.

Lemma rep_computes x r : rep x r <-> computes x r /\ nf_ok 53 1024 x = true.
Proof.
  split.
  - intros (b & <- & Hf & <-). split; [split; [now destruct b|]|].
    + apply (fb_value_fin 53 1024). exact Hf.
    + apply ok_B2SF. destruct b; discriminate.
  - intros ((Hf & Hv) & Hok). destruct x as [s|s| |s m ex]; try discriminate.
    + exists (B754_zero s). injection Hv as <-. repeat split.
    + exists (B754_finite s m ex Hok). rewrite fin_value in Hv by reflexivity. injection Hv as <-. repeat split.
Qed.

Lemma rep_fin x r : rep x r -> is_finite_SF x = true.
Proof. intros H. apply rep_computes in H. apply H. Qed.
Lemma rep_val x r : rep x r -> computes x r.
Proof. intros H. apply rep_computes in H. apply H. Qed.
Lemma rep_unique x a b : rep x a -> rep x b -> a = b.
Proof. intros Ha Hb. apply rep_val in Ha, Hb. destruct Ha as [_ Ha], Hb as [_ Hb]. congruence. Qed.

Lemma rep_lt_maxf x r : rep x r -> Rabs r < maxf.
Proof. intros (b & _ & _ & <-). apply abs_B2R_lt_emax. Qed.

Lemma rep_cmp x y a b : rep x a -> rep y b -> (n64_cmp_f x y <> Gt <-> a <= b).
Proof.
  intros Hx Hy. unfold n64_cmp_f. rewrite (rep_lt _ _ _ _ Hx Hy), (rep_eqb _ _ _ _ Hx Hy).
  destruct (Rlt_bool_spec a b); [split; [lra|discriminate]|]. destruct (Req_bool_spec a b); [split; [lra|discriminate]|].
  split; [congruence|lra].
Qed.

(** *** Products *)

Lemma rnd_nonneg x : 0 <= x -> 0 <= rnd x.
Proof. intros H. rewrite <- rnd_0. now apply rnd_le. Qed.

Definition rprod (a : R) (l : list R) : R := fold_left (fun a s => rnd (a * s)) l a.

Lemma rprod_nonneg l : forall a, 0 <= a -> Forall (fun s => 0 <= s) l -> 0 <= rprod a l.
Proof.
  induction l as [|s l IH]; intros a Ha Hl; [exact Ha|]. inversion Hl; subst. cbn. apply IH; [|assumption].
  apply rnd_nonneg. now apply Rmult_le_pos.
Qed.

Lemma rprod_cons a s l : rprod a (s :: l) = rprod (rnd (a * s)) l. Proof. reflexivity. Qed.

Definition le_sides (s t : R) : Prop := 0 <= s <= t.

Lemma rprod_mono l l' : Forall2 le_sides l l' -> forall a a', 0 <= a <= a' -> 0 <= rprod a l <= rprod a' l'.
Proof.
  induction 1 as [|s t l l' [Hs1 Hs2] Hl IH]; intros a a' [Ha1 Ha2]; [now split|]. cbn. apply IH. split.
  - apply rnd_nonneg. now apply Rmult_le_pos.
  - apply rnd_le. apply Rmult_le_compat; lra.
Qed.

Lemma mul_finite x y : is_finite_SF (f64_mul x y) = true -> is_finite_SF x = true /\ is_finite_SF y = true.
Proof. unfold f64_mul. destruct x as [[]|[]| |[] m ex], y as [[]|[]| |[] m' ex']; cbn; try discriminate; auto. Qed.

Lemma fold_finite l : forall x, is_finite_SF (fold_left f64_mul l x) = true -> is_finite_SF x = true /\ Forall (fun y => is_finite_SF y = true) l.
Proof.
  induction l as [|y l IH]; intros x H; [now split|]. cbn in H. apply IH in H. destruct H as [H Hl]. apply mul_finite in H.
  destruct H. split; [assumption|]. now constructor.
Qed.

Lemma mul_rep_finite x y a b : rep x a -> rep y b -> is_finite_SF (f64_mul x y) = true -> Rabs (rnd (a * b)) < maxf.
Proof.
  intros (bx & <- & Fx & <-) (by_ & <- & Fy & <-) Hfin. rewrite mul_equiv in Hfin.
  assert (H := Bmult_correct 53 1024 FloatReal.Hprec FloatReal.Hmax mode_NE bx by_). cbn [round_mode] in H.
  unfold rnd, maxf. destruct (Rlt_bool_spec (Rabs (round radix2 (SpecFloat.fexp 53 1024) ZnearestE (B2R bx * B2R by_))) (bpow radix2 1024)) as [C|C].
  - exact C.
  - rewrite H in Hfin. discriminate Hfin.
Qed.

(** A product that is finite has a finite value. *)
Lemma fold_rep l rs : Forall2 rep l rs -> forall x a, rep x a -> is_finite_SF (fold_left f64_mul l x) = true ->
  rep (fold_left f64_mul l x) (rprod a rs).
Proof.
  induction 1 as [|y s l rs Hy Hl IH]; intros x a Hx Hfin; [exact Hx|]. cbn in Hfin |- *. apply IH; [|exact Hfin].
  apply rep_mul; [exact Hx|exact Hy|]. apply mul_rep_finite with x y; [exact Hx|exact Hy|]. apply fold_finite in Hfin. apply Hfin.
Qed.

(** Smaller factors: the product is finite too. *)
Lemma fold_mono l l' rs rs' : Forall2 rep l rs -> Forall2 rep l' rs' -> Forall2 le_sides rs rs' ->
  forall x x' a a', rep x a -> rep x' a' -> 0 <= a <= a' -> is_finite_SF (fold_left f64_mul l' x') = true ->
  rep (fold_left f64_mul l x) (rprod a rs) /\ rep (fold_left f64_mul l' x') (rprod a' rs').
Proof.
  intros Hl Hl' Hs. revert l l' Hl Hl'. induction Hs as [|s s' rs rs' [Hs1 Hs2] Hrs IH]; intros l l' Hl Hl' x x' a a' Hx Hx' [Ha1 Ha2] Hfin.
  - inversion Hl; inversion Hl'; subst. now split.
  - inversion Hl as [|y ? l0 ? Hy Hl0]; subst. inversion Hl' as [|y' ? l0' ? Hy' Hl0']; subst. cbn in Hfin |- *.
    assert (Hb : Rabs (rnd (a' * s')) < maxf).
    { apply mul_rep_finite with x' y'; [exact Hx'|exact Hy'|]. apply fold_finite in Hfin. apply Hfin. }
    assert (Hle : 0 <= rnd (a * s) <= rnd (a' * s')).
    { split; [apply rnd_nonneg; now apply Rmult_le_pos|apply rnd_le, Rmult_le_compat; lra]. }
    apply IH; try assumption.
    + apply rep_mul; try assumption. rewrite Rabs_pos_eq in Hb |- * by lra. lra.
    + now apply rep_mul.
Qed.

(** *** Lists of integers *)

Notation zprod l := (fold_right Rmult 1 (map IZR l)).

Lemma zprod_nonneg l : Forall (fun s => 0 <= s)%Z l -> 0 <= zprod l.
Proof. induction 1 as [|s l Hs Hl IH]; cbn; [lra|]. apply Rmult_le_pos; [now apply IZR_le|exact IH]. Qed.

Lemma zprod_ge1 l : Forall (fun s => 1 <= s)%Z l -> 1 <= zprod l.
Proof. induction 1 as [|s l Hs Hl IH]; cbn; [lra|]. apply IZR_le in Hs. nra. Qed.

Lemma rprod_0 l : rprod 0 l = 0.
Proof. induction l as [|s l IH]; [reflexivity|]. cbn. now rewrite Rmult_0_l, rnd_0. Qed.

Lemma rprod_zero l : In 0%Z l -> forall a, rprod a (map IZR l) = 0.
Proof.
  induction l as [|s l IH]; intros H a; [elim H|]. cbn. destruct H as [->|H]; [|now apply IH].
  rewrite Rmult_0_r, rnd_0. apply rprod_0.
Qed.

Lemma zprod_zero l : In 0%Z l -> zprod l = 0.
Proof. induction l as [|s l IH]; intros H; [elim H|]. cbn. destruct H as [->|H]; [lra|]. rewrite IH by exact H. lra. Qed.

Lemma no_zero l : Forall (fun s => 0 <= s)%Z l -> ~ In 0%Z l -> Forall (fun s => 1 <= s)%Z l.
Proof. intros H Hn. rewrite Forall_forall in *. intros x Hx. specialize (H x Hx). assert (x <> 0)%Z by (intros ->; contradiction). lia. Qed.

Lemma rnd_ge1 x : 1 <= x -> 1 <= rnd x.
Proof. intros H. replace 1 with (rnd 1) by (apply (rnd_int 1); lia). now apply rnd_le. Qed.

Lemma rprod_ge1 l : Forall (fun s => 1 <= s)%Z l -> forall a, 1 <= a -> 1 <= rprod a (map IZR l).
Proof.
  induction 1 as [|s l Hs Hl IH]; intros a Ha; [exact Ha|]. cbn. apply IH. apply rnd_ge1. apply IZR_le in Hs. nra.
Qed.

Lemma rprod_exact1 l : Forall (fun s => 1 <= s)%Z l -> forall z, (1 <= z)%Z -> IZR z * zprod l <= bpow radix2 53 -> rprod (IZR z) (map IZR l) = IZR z * zprod l.
Proof.
  induction 1 as [|s l Hs Hl IH]; intros z Hz Hb; cbn [map fold_right] in *; [change (rprod (IZR z) []) with (IZR z); lra|]. rewrite rprod_cons.
  assert (H1 := zprod_ge1 l Hl). rewrite <- mult_IZR.
  assert (Hzs : IZR (z * s) <= bpow radix2 53).
  { eapply Rle_trans; [|exact Hb]. rewrite <- Rmult_assoc, <- mult_IZR. rewrite <- (Rmult_1_r (IZR (z * s))) at 1. apply Rmult_le_compat_l; [apply IZR_le; nia|exact H1]. }
  change (bpow radix2 53) with (IZR (2 ^ 53)) in Hzs. apply le_IZR in Hzs.
  rewrite rnd_int by nia. rewrite IH; [|nia|].
  - rewrite mult_IZR. ring.
  - eapply Rle_trans; [|exact Hb]. rewrite mult_IZR. right. ring.
Qed.

(** Exact if it fits 53 bits. *)
Lemma rprod_exact z l : (0 <= z)%Z -> Forall (fun s => 0 <= s)%Z l -> IZR z * zprod l <= bpow radix2 53 -> rprod (IZR z) (map IZR l) = IZR z * zprod l.
Proof.
  intros Hz Hl Hb. destruct (Z.eq_dec z 0) as [->|Hz'].
  { rewrite rprod_0. lra. }
  destruct (in_dec Z.eq_dec 0%Z l) as [H0|H0].
  - rewrite rprod_zero, zprod_zero by exact H0. lra.
  - apply rprod_exact1; [now apply no_zero|lia|exact Hb].
Qed.

Lemma rprod_zero_iff z l : (0 <= z)%Z -> Forall (fun s => 0 <= s)%Z l -> (rprod (IZR z) (map IZR l) = 0 <-> In 0%Z (z :: l)).
Proof.
  intros Hz Hl. split.
  - intros H. destruct (Z.eq_dec z 0) as [->|Hz']; [now left|]. destruct (in_dec Z.eq_dec 0%Z l) as [H0|H0]; [now right|].
    assert (H1 := rprod_ge1 l (no_zero l Hl H0) (IZR z)). rewrite H in H1. assert (1 <= IZR z) by (apply IZR_le; lia). lra.
  - intros [->|H0]; [apply rprod_0|now apply rprod_zero].
Qed.

(** *** Accuracy *)
Notation u := (powerRZ 2 (-53)).
Lemma u_val : u = bpow radix2 (-53). Proof. rewrite bpow_powerRZ. reflexivity. Qed.
Lemma u_pos : 0 < u. Proof. rewrite u_val. apply bpow_gt_0. Qed.

Lemma rnd_rel x : 1 <= x -> Rabs (rnd x - x) <= u * x.
Proof.
  intros Hx. rewrite u_val. assert (H := relative_error_N_FLT radix2 (-1074) 53 ltac:(reflexivity) (fun z => negb (Z.even z)) x).
  rewrite (Rabs_pos_eq x) in H by lra. change (SpecFloat.fexp 53 1024) with (FLT_exp (-1074) 53) in *.
  assert (Hlow : bpow radix2 (-1074 + 53 - 1) <= x).
  { apply Rle_trans with (bpow radix2 0); [now apply bpow_le|exact Hx]. }
  specialize (H Hlow). unfold rnd. eapply Rle_trans; [exact H|].
  apply Rmult_le_compat_r; [lra|]. change (bpow radix2 (-53 + 1)) with (bpow radix2 (-52)).
  replace (/2) with (bpow radix2 (-1)) by reflexivity. rewrite <- bpow_plus. apply bpow_le. lia.
Qed.

Lemma rprod_accuracy l : Forall (fun s => 1 <= s)%Z l -> forall a X k, 1 <= a -> 0 <= X -> Rabs (a - X) <= ((1 + u) ^ k - 1) * X ->
  Rabs (rprod a (map IZR l) - X * zprod l) <= ((1 + u) ^ (k + length l) - 1) * (X * zprod l).
Proof.
  assert (Hu := u_pos). induction 1 as [|s l Hs Hl IH]; intros a X k Ha HX Hb.
  - cbn. rewrite Nat.add_0_r, Rmult_1_r. exact Hb.
  - cbn [map length fold_right]. change (rprod a (IZR s :: map IZR l)) with (rprod (rnd (a * IZR s)) (map IZR l)).
    apply IZR_le in Hs. replace (X * (IZR s * zprod l)) with ((X * IZR s) * zprod l) by ring.
    replace (k + Datatypes.S (length l))%nat with (Datatypes.S k + length l)%nat by lia. apply IH.
    + apply rnd_ge1. nra.
    + nra.
    + assert (Has : 1 <= a * IZR s) by nra. assert (Hr := rnd_rel _ Has).
      assert (Hp : 1 <= (1 + u) ^ k) by (apply pow_R1_Rle; lra).
      assert (HaX : a <= (1 + u) ^ k * X). { apply Rabs_le_inv in Hb. lra. }
      replace (rnd (a * IZR s) - X * IZR s) with ((rnd (a * IZR s) - a * IZR s) + (a - X) * IZR s) by ring.
      eapply Rle_trans; [apply Rabs_triang|]. rewrite Rabs_mult, (Rabs_pos_eq (IZR s)) by lra.
      apply Rle_trans with (u * (((1 + u) ^ k * X) * IZR s) + ((1 + u) ^ k - 1) * X * IZR s).
      * apply Rplus_le_compat.
        -- eapply Rle_trans; [exact Hr|]. apply Rmult_le_compat_l; [lra|]. apply Rmult_le_compat_r; lra.
        -- apply Rmult_le_compat_r; lra.
      * right. cbn [pow]. ring.
Qed.

Lemma rprod_close z l : (0 <= z)%Z -> Forall (fun s => 0 <= s)%Z l ->
  Rabs (rprod (IZR z) (map IZR l) - IZR z * zprod l) <= ((1 + u) ^ length l - 1) * (IZR z * zprod l).
Proof.
  intros Hz Hl. assert (Hp : 1 <= (1 + u) ^ length l) by (apply pow_R1_Rle; assert (Hu := u_pos); lra).
  destruct (in_dec Z.eq_dec 0%Z (z :: l)) as [H0|H0].
  - rewrite (proj2 (rprod_zero_iff z l Hz Hl) H0). change (IZR z * zprod l) with (zprod (z :: l)). rewrite zprod_zero by exact H0.
    rewrite Rminus_0_r, Rabs_R0. lra.
  - apply (rprod_accuracy l) with (k := 0%nat); cbn [pow].
    + apply no_zero; [exact Hl|]. intros H. apply H0. now right.
    + apply IZR_le. assert (z <> 0)%Z by (intros ->; apply H0; now left). lia.
    + now apply IZR_le.
    + rewrite Rminus_diag_eq by reflexivity. rewrite Rabs_R0. lra.
Qed.

Lemma F2_length {A B} (Q : A -> B -> Prop) l m : Forall2 Q l m -> length l = length m.
Proof. induction 1; cbn; congruence. Qed.
Lemma Forall2_cons_iff_r {A B} (Q : A -> B -> Prop) l y m : Forall2 Q l (y :: m) -> exists x l', l = x :: l' /\ Q x y /\ Forall2 Q l' m.
Proof. intros H. inversion H; subst. eauto. Qed.

(** *** Boxes of integers *)
Section Ints.
Context {N : Type} (S : ScalarOps N) (val : N -> Z) (sub : N -> N -> N) (into : N -> f64) (k : Z).
Hypothesis (Hle : forall a b, s_le S a b = (val a <=? val b)%Z) (Hk : (0 <= k)%Z).

(** The difference is computed exactly. *)
Definition side_ok (q : N * N) : Prop :=
  (0 <= val (snd q) - val (fst q))%Z /\ IZR (val (snd q) - val (fst q)) <= bpow radix2 k /\
  rep (into (sub (snd q) (fst q))) (IZR (val (snd q) - val (fst q))).
Definition sides_ok {D} (b : saabb N D) : Prop := Forall side_ok (combine (vlist (bmin b)) (vlist (bmax b))).
Definition zsides {D} (b : saabb N D) : list Z := map (fun q => (val (snd q) - val (fst q))%Z) (combine (vlist (bmin b)) (vlist (bmax b))).
Notation vol := (box_volume sub into f64_mul (f64_of_Z 1)).
Notation rval := (fun n => IZR (val n)).

Lemma sides_z {D} (b : saabb N D) : side_lengths rval b = map IZR (zsides b).
Proof. unfold side_lengths, zsides. rewrite map_map. apply map_ext. intros q. now rewrite minus_IZR. Qed.

Lemma zsides_length {D} (b : saabb N D) : length (zsides b) = D.
Proof. unfold zsides. rewrite map_length, combine_length, !vlist_len. apply Nat.min_id. Qed.

Lemma sides_ok_reps {D} (b : saabb N D) : sides_ok b ->
  Forall2 rep (map (fun p => into (sub (snd p) (fst p))) (vzip (bmin b) (bmax b))) (map IZR (zsides b)) /\
  Forall (fun s => 0 <= s)%Z (zsides b) /\ Forall (fun s => IZR s <= bpow radix2 k) (zsides b).
Proof.
  unfold sides_ok, zsides, vzip. induction 1 as [|q l (H1 & H2 & H3) Hl (IH1 & IH2 & IH3)]; cbn; repeat split; constructor; assumption.
Qed.

Lemma vol_value {D} (b : saabb N (Datatypes.S D)) : sides_ok b -> (k * Z.of_nat (Datatypes.S D) <= 1023)%Z ->
  exists z l, zsides b = z :: l /\ (0 <= z)%Z /\ Forall (fun s => 0 <= s)%Z l /\ rep (vol b) (rprod (IZR z) (map IZR l)) /\ length l = D.
Proof.
  intros Hb HD. apply sides_ok_reps in Hb. destruct Hb as (H1 & H2 & H3). assert (Hlen := zsides_length b). unfold box_volume.
  destruct (zsides b) as [|z l]; [discriminate Hlen|]. injection Hlen as Hlen. exists z, l.
  cbn [map] in H1. apply Forall2_cons_iff_r in H1. destruct H1 as (x & xs & -> & Hx & Hxs). inversion H2 as [|? ? Hz2 Hl2]; subst. inversion H3 as [|? ? Hz3 Hl3]; subst.
  repeat split; try assumption; try reflexivity.
  apply fold_rep; try assumption.
  assert (Hlx : length xs = length l) by (rewrite <- (map_length IZR l); exact (F2_length _ _ _ Hxs)).
  destruct (products_rep k xs Hk) with (acc := x) (a := IZR z) (j := k) as (_ & r & Hr).
  - clear -Hxs Hl2 Hl3. revert l Hxs Hl2 Hl3. induction xs as [|y xs IH]; intros l Hxs H5 Hl3; [constructor|].
    destruct l as [|s l]; cbn [map] in Hxs; inversion Hxs; subst. inversion H5; subst. inversion Hl3; subst. constructor; [|eapply IH; eassumption].
    exists (IZR s). split; [assumption|]. rewrite Rabs_pos_eq; [assumption|now apply IZR_le].
  - exact Hx.
  - exact Hk.
  - rewrite Rabs_pos_eq; [assumption|now apply IZR_le].
  - rewrite Hlx. lia.
  - now apply rep_fin in Hr.
Qed.

Lemma vol_rounded {D} (b : saabb N (Datatypes.S D)) : sides_ok b -> (k * Z.of_nat (Datatypes.S D) <= 1023)%Z ->
  rep (vol b) (rounded_product (side_lengths rval b)).
Proof.
  intros Hb HD. destruct (vol_value b Hb HD) as (z & l & E & _ & _ & H & _). rewrite sides_z, E. exact H.
Qed.

Lemma vol_exact {D} (b : saabb N (Datatypes.S D)) : sides_ok b -> (k * Z.of_nat (Datatypes.S D) <= 1023)%Z ->
  exact_volume rval b <= 2 ^ 53 -> rep (vol b) (exact_volume rval b).
Proof.
  intros Hb HD Hs. destruct (vol_value b Hb HD) as (z & l & E & Hz & Hl & H & _). unfold exact_volume in *. rewrite sides_z, E in *. cbn [map fold_right] in *.
  rewrite <- rprod_exact; try assumption. replace (bpow radix2 53) with (2 ^ 53); [exact Hs|]. now rewrite bpow_powerRZ.
Qed.

Lemma vol_close {D} (b : saabb N (Datatypes.S D)) : sides_ok b -> (k * Z.of_nat (Datatypes.S D) <= 1023)%Z ->
  exists r, rep (vol b) r /\ Rabs (r - exact_volume rval b) <= ((1 + u) ^ D - 1) * exact_volume rval b.
Proof.
  intros Hb HD. destruct (vol_value b Hb HD) as (z & l & E & Hz & Hl & H & <-). exists (rprod (IZR z) (map IZR l)). split; [exact H|].
  unfold exact_volume. rewrite sides_z, E. cbn [map fold_right]. now apply rprod_close.
Qed.

Lemma vol_flat {D} (b : saabb N (Datatypes.S D)) : sides_ok b -> (k * Z.of_nat (Datatypes.S D) <= 1023)%Z ->
  exists r, rep (vol b) r /\ 0 <= r /\ (r = 0 <-> In 0 (side_lengths rval b)).
Proof.
  intros Hb HD. destruct (vol_value b Hb HD) as (z & l & E & Hz & Hl & H & _). exists (rprod (IZR z) (map IZR l)). split; [exact H|].
  split.
  - apply rprod_nonneg; [now apply IZR_le|]. apply Forall_map. eapply Forall_impl; [|exact Hl]. intros s. apply IZR_le.
  - rewrite rprod_zero_iff by assumption. rewrite sides_z, E. split.
    + intros Hi. apply (in_map IZR) in Hi. exact Hi.
    + intros Hi. apply in_map_iff in Hi. destruct Hi as (s & Es & Hi). apply eq_IZR in Es. now subst.
Qed.

Lemma le_val D (a b : svec N D) : vec_le S a b -> Forall2 (fun x y => (val x <= val y)%Z) (vlist a) (vlist b).
Proof. unfold vec_le. induction 1 as [|x y l m H Hl IH]; constructor; [|exact IH]. rewrite Hle in H. now apply Z.leb_le. Qed.

Lemma incl_sides {D} (a b : saabb N D) : box_incl S b a -> valid_box S a -> Forall2 (fun s t => (0 <= s <= t)%Z) (zsides a) (zsides b).
Proof.
  intros [H1 H2] H3. apply le_val in H1, H2. unfold valid_box in H3. apply le_val in H3. unfold zsides.
  destruct a as [amin amax], b as [bmin0 bmax0]. cbn [bmin bmax] in *.
  generalize dependent (vlist amin). generalize dependent (vlist amax). generalize dependent (vlist bmin0). generalize dependent (vlist bmax0). clear.
  intros mx' mn' mx H2. revert mn'. induction H2 as [|x y mx mx' Hxy H IH]; intros mn' mn H1 H3.
  - inversion H3; subst. inversion H1; subst. constructor.
  - inversion H3; subst. inversion H1; subst. cbn. constructor; [cbn; lia|]. now apply IH.
Qed.

Lemma vol_mono {D} (a b : saabb N (Datatypes.S D)) : sides_ok a -> sides_ok b -> (k * Z.of_nat (Datatypes.S D) <= 1023)%Z ->
  valid_box S a -> box_incl S b a -> exists r s, rep (vol a) r /\ rep (vol b) s /\ r <= s.
Proof.
  intros Ha Hb HD Hv Hi. assert (Hs := incl_sides a b Hi Hv).
  destruct (vol_value a Ha HD) as (z & l & E & Hz & Hl & H & _). destruct (vol_value b Hb HD) as (z' & l' & E' & Hz' & Hl' & H' & _).
  rewrite E, E' in Hs. inversion Hs as [|? ? ? ? Hzz Hll]; subst. exists (rprod (IZR z) (map IZR l)), (rprod (IZR z') (map IZR l')).
  repeat split; try assumption. apply rprod_mono.
  - clear -Hll. induction Hll as [|s t l l' [Hs1 Hs2] Hl IH]; constructor; [|exact IH]. split; now apply IZR_le.
  - split; apply IZR_le; lia.
Qed.
End Ints.

(** *** Boxes of floats *)
Section Floats.
Context (p e : Z) (Hf : fp_format p e) (Hp : (p <= 53)%Z) (He : (e <= 1024)%Z).
Local Existing Instance fHp.
Local Existing Instance fHe.
Notation fin x := (exists r, nf_value x = XReal r).
Notation rv := (rv p e).
Notation fside := (fun q : nf p e * nf p e => sf_into_f64 (SFsub p e (nf_raw (snd q)) (nf_raw (fst q)))).
Notation frnd := (frnd p e).

Lemma frnd_rne x : frnd x = rne p e x. Proof. reflexivity. Qed.

(** A difference that does not overflow is the rounded one. *)
Lemma side_value (x y : nf p e) : fin x -> fin y ->
  (Rabs (frnd (rv y - rv x)) < fmax_ e -> rep (fside (x, y)) (frnd (rv y - rv x))) /\
  (is_finite_SF (fside (x, y)) = true -> Rabs (frnd (rv y - rv x)) < fmax_ e).
Proof.
  intros Fx Fy. cbn [fst snd]. apply finite_value_SF in Fx, Fy. rewrite <- (fb_raw p e x), <- (fb_raw p e y). rewrite (fsub_equiv p e Hf).
  assert (H := Bminus_correct p e (fHp p e Hf) (fHe p e Hf) mode_NE (fb p e y) (fb p e x)). rewrite !fb_fin in H. specialize (H Fy Fx).
  cbn [round_mode] in H. unfold frnd, FpDist.rv. rewrite !fb_R in H. unfold fmax_.
  set (d := @Bminus p e (fHp p e Hf) (fHe p e Hf) mode_NE (fb p e y) (fb p e x)) in *.
  destruct (Rlt_bool_spec (Rabs (round radix2 (SpecFloat.fexp p e) ZnearestE (SF2R radix2 (nf_raw y) - SF2R radix2 (nf_raw x)))) (bpow radix2 e)) as [C|C].
  - split; [intros _|intros _; exact C]. destruct H as (H1 & H2 & _). rewrite <- H1.
    assert (Hn : nf_ok p e (B2SF d) = true) by (apply ok_B2SF; destruct d; discriminate).
    assert (Hi := into_value p e Hf Hp He (nf_of p e (B2SF d))). rewrite (nf_of_raw p e) in Hi by exact Hn.
    destruct Hi as [Hi1 Hi2]. unfold nf_value in Hi2. rewrite (nf_of_raw p e) in Hi2 by exact Hn. rewrite (fb_value_fin p e) in Hi2 by exact H2.
    apply rep_computes. split; [|exact Hi1]. split; [|exact Hi2].
    destruct (sf_into_f64 _) as [s|[]| |s m ex]; try discriminate Hi1; try discriminate Hi2; reflexivity.
  - split; [lra|]. intros Hfin. exfalso. destruct H as [H _]. rewrite H in Hfin. discriminate Hfin.
Qed.

Definition fsides {D} (b : saabb (nf p e) D) : list R := map (rne p e) (side_lengths coord b).

Definition box_fin {D} (b : saabb (nf p e) D) : Prop := Forall (fun q : nf p e * nf p e => fin (fst q) /\ fin (snd q)) (vzip (bmin b) (bmax b)).
Lemma finite_box_fin {D} (b : saabb (nf p e) D) : finite_box b -> box_fin b.
Proof.
  intros [H1 H2]. unfold finite_point, box_fin, vzip in *. rewrite Forall_forall in *. intros [x y] H. cbn [fst snd].
  split; [apply H1; eapply in_combine_l; exact H|apply H2; eapply in_combine_r; exact H].
Qed.

Lemma sides_rep (l : list (nf p e * nf p e)) : Forall (fun q => fin (fst q) /\ fin (snd q)) l ->
  Forall (fun y => is_finite_SF y = true) (map fside l) ->
  Forall2 rep (map fside l) (map (rne p e) (map (fun q => coord (snd q) - coord (fst q)) l)).
Proof.
  induction 1 as [|[x y] l [Hx Hy] Hl IH]; intros H; cbn [map] in *; [constructor|]. inversion H as [|? ? H1 H2]; subst.
  constructor; [|now apply IH]. cbn [fst snd] in *. rewrite !(coord_rv p e) by assumption. rewrite <- frnd_rne.
  destruct (side_value x y Hx Hy) as [S1 S2]. apply S1, S2, H1.
Qed.

Lemma x_le_rv (x y : nf p e) : fin x -> fin y -> x_le (nf_value x) (nf_value y) -> rv x <= rv y.
Proof. intros Hx Hy H. rewrite (fin_rv p e x Hx), (fin_rv p e y Hy) in H. exact H. Qed.

(** The volume, if it is finite. *)
Lemma nf_volume_value {D} (b : saabb (nf p e) (Datatypes.S D)) : finite_box b -> is_finite_SF (nf_volume p e b) = true ->
  rep (nf_volume p e b) (rounded_product (fsides b)).
Proof.
  intros Hb Hfin. apply finite_box_fin in Hb. unfold box_fin in Hb. unfold nf_volume, fsides, side_lengths in *. fold (vzip (bmin b) (bmax b)).
  assert (E : vzip (bmin b) (bmax b) <> []) by discriminate. destruct (vzip (bmin b) (bmax b)) as [|q l]; [congruence|]. clear E.
  cbn [map rounded_product] in *. assert (Hall := fold_finite _ _ Hfin). destruct Hall as [H1 H2].
  assert (Hr := sides_rep (q :: l) Hb (Forall_cons _ H1 H2)). cbn [map] in Hr. inversion Hr as [|? ? ? ? Hr1 Hr2]; subst.
  exact (fold_rep _ _ Hr2 _ _ Hr1 Hfin).
Qed.

Lemma fsides_mono_list (l l' : list (nf p e * nf p e)) :
  Forall2 (fun q q' => fin (fst q) /\ fin (snd q) /\ fin (fst q') /\ fin (snd q') /\
     rv (fst q') <= rv (fst q) <= rv (snd q) /\ rv (snd q) <= rv (snd q')) l l' ->
  Forall (fun y => is_finite_SF y = true) (map fside l') ->
  Forall2 rep (map fside l) (map (rne p e) (map (fun q => coord (snd q) - coord (fst q)) l)) /\
  Forall2 le_sides (map (rne p e) (map (fun q => coord (snd q) - coord (fst q)) l)) (map (rne p e) (map (fun q => coord (snd q) - coord (fst q)) l')).
Proof.
  induction 1 as [|[x y] [x' y'] l l' H Hl IH]; intros Hfin; cbn [map fst snd] in *; [now split|].
  destruct H as (Fx & Fy & Fx' & Fy' & [H1 H2] & H3). inversion Hfin as [|? ? F1 F2]; subst. destruct (IH F2) as [I1 I2].
  rewrite !(coord_rv p e) by assumption. rewrite <- !frnd_rne.
  assert (Hle : 0 <= frnd (rv y - rv x) <= frnd (rv y' - rv x')).
  { split; [apply (frnd_nonneg p e Hf); lra|apply (frnd_le p e Hf); lra]. }
  destruct (side_value x' y' Fx' Fy') as [_ S']. apply S' in F1. destruct (side_value x y Fx Fy) as [S1 _].
  rewrite Rabs_pos_eq in F1 by lra. split; constructor; try assumption. apply S1. rewrite Rabs_pos_eq by lra. lra.
Qed.

Lemma nf_volume_mono {D} (a b : saabb (nf p e) (Datatypes.S D)) : finite_box a -> finite_box b -> x_valid a -> x_incl b a ->
  is_finite_SF (nf_volume p e b) = true -> exists r s, rep (nf_volume p e a) r /\ rep (nf_volume p e b) s /\ 0 <= r <= s.
Proof.
  intros Ha Hb Hv [Hi1 Hi2] Hfin.
  assert (HL : Forall2 (fun q q' : nf p e * nf p e => fin (fst q) /\ fin (snd q) /\ fin (fst q') /\ fin (snd q') /\
     rv (fst q') <= rv (fst q) <= rv (snd q) /\ rv (snd q) <= rv (snd q')) (vzip (bmin a) (bmax a)) (vzip (bmin b) (bmax b))).
  { destruct Ha as [A1 A2], Hb as [B1 B2]. unfold x_valid, xle, finite_point, vzip in *.
    destruct a as [amin amax], b as [bmin0 bmax0]. cbn [bmin bmax] in *.
    generalize dependent (vlist amin). generalize dependent (vlist amax). generalize dependent (vlist bmin0). generalize dependent (vlist bmax0). clear.
    intros mx' B2 mn' B1 mx A2 Hi2. revert mn' B1 B2 A2. induction Hi2 as [|x y mx mx' Hxy H IH]; intros mn' B1 B2 A2 mn A1 Hv Hi1.
    - inversion Hv; subst. inversion Hi1; subst. constructor.
    - inversion Hv as [|z0 ? mn0 ? Hz Hv0]; subst. inversion Hi1 as [|z1 ? mn1 ? Hz1 Hv1]; subst.
      inversion B1; subst. inversion B2; subst. inversion A2; subst. inversion A1; subst. cbn [combine]. constructor; [|now apply IH].
      cbn [fst snd]. repeat split; try assumption; apply x_le_rv; assumption. }
  unfold nf_volume in *. revert HL Hfin. generalize (vzip (bmin a) (bmax a)) (vzip (bmin b) (bmax b)) (eq_refl : length (vzip (bmin b) (bmax b)) = Datatypes.S (length (vzip (snd (bmin b)) (snd (bmax b))))).
  intros la lb Hlen HL Hfin. destruct lb as [|q' lb]; [discriminate Hlen|]. inversion HL as [|q ? la0 ? Hq Hl]; subst. cbn [map] in *.
  assert (Hall := fold_finite _ _ Hfin). destruct Hall as [H1 H2].
  destruct (fsides_mono_list _ _ HL (Forall_cons _ H1 H2)) as [R1 R2]. cbn [map] in R1, R2.
  assert (R3 : Forall2 rep (map fside (q' :: lb)) (map (rne p e) (map (fun q => coord (snd q) - coord (fst q)) (q' :: lb)))).
  { apply sides_rep; [|constructor; assumption]. clear -HL. remember (q :: la0) as l eqn:E. clear E. revert l HL. generalize (q' :: lb). intros l' l H. induction H as [|? ? ? ? H Hl IH]; constructor; [|exact IH]. tauto. }
  cbn [map] in R3. inversion R1; subst. inversion R2; subst. inversion R3; subst.
  eexists _, _. edestruct fold_mono as [X1 X2]; [..|split; [exact X1|split; [exact X2|]]]; try eassumption.
  apply rprod_mono; assumption.
Qed.
End Floats.

(** *** Volume increases *)
Lemma increase_nonneg x y r s : rep x r -> rep y s -> 0 <= r <= s ->
  n64_cmp_f x y <> Gt /\ exists i, rep (f64_sub y x) i /\ 0 <= i /\ i = rne 53 1024 (s - r).
Proof.
  intros Hx Hy [H0 H]. split; [now apply (rep_cmp _ _ _ _ Hx Hy)|]. exists (rnd (s - r)).
  assert (Hm := rep_lt_maxf _ _ Hy). assert (Hg := rep_generic _ _ Hy).
  assert (Hle : 0 <= rnd (s - r) <= s).
  { split; [apply rnd_nonneg; lra|]. rewrite <- (round_generic radix2 (SpecFloat.fexp 53 1024) ZnearestE s Hg) at 2. apply rnd_le. lra. }
  repeat split; try apply Hle. destruct Hx as (bx & <- & Fx & <-), Hy as (by_ & <- & Fy & <-).
  assert (HB := Bminus_correct 53 1024 FloatReal.Hprec FloatReal.Hmax mode_NE by_ bx Fy Fx). cbn [round_mode] in HB.
  change (round radix2 (SpecFloat.fexp 53 1024) ZnearestE (B2R by_ - B2R bx)) with (rnd (B2R by_ - B2R bx)) in HB.
  rewrite Rabs_pos_eq in Hm by lra. rewrite Rlt_bool_true in HB.
  2:{ rewrite Rabs_pos_eq by apply Hle. unfold maxf in Hm. lra. }
  exists (Bminus mode_NE by_ bx). rewrite sub_equiv. repeat split; apply HB.
Qed.

(** *** The coordinate types *)
Definition i32_side_ok := side_ok i32_val i32_sub i32_into_f64 31.

Lemma i32_valid_sides D (b : saabb i32 D) : valid_box i32_ops b -> Forall (fun s => 0 <= s)%Z (zsides i32_val b).
Proof.
  intros H. assert (Hs := incl_sides i32_ops i32_val ltac:(reflexivity) b b (box_incl_refl _ i32_laws _ b) H).
  induction Hs; constructor; [lia|assumption].
Qed.

Lemma i32_sides_ok D (b : saabb i32 D) : valid_box i32_ops b -> Forall (fun s => s <= 2147483647)%Z (zsides i32_val b) ->
  sides_ok i32_val i32_sub i32_into_f64 31 b.
Proof.
  intros Hv Hn. apply i32_valid_sides in Hv. unfold sides_ok, zsides in *. rewrite Forall_map in Hv, Hn. rewrite Forall_forall in *.
  intros [x y] Hin. specialize (Hv _ Hin). specialize (Hn _ Hin). cbn [fst snd] in *. unfold side_ok. cbn [fst snd]. split; [exact Hv|]. split.
  - apply Rle_trans with (IZR (2 ^ 31)); [apply IZR_le; lia|]. right. reflexivity.
  - apply i32_sub_rep. unfold no_wrap. lia.
Qed.

Lemma narrow_sides D (b : saabb i32 D) : narrow b -> Forall (fun s => s <= 2147483647)%Z (zsides i32_val b).
Proof.
  unfold narrow, zsides. destruct b as [mn mx]. cbn [bmin bmax]. revert mn mx. induction D as [|D IH]; intros mn mx H; [constructor|].
  destruct H as [H1 H2]. cbn. constructor; [cbn; unfold no_wrap in H1; lia|]. now apply IH.
Qed.

Lemma i32_incl_sides D (a b : saabb i32 D) : valid_box i32_ops a -> box_incl i32_ops b a -> narrow b ->
  valid_box i32_ops b /\ sides_ok i32_val i32_sub i32_into_f64 31 a /\ sides_ok i32_val i32_sub i32_into_f64 31 b.
Proof.
  intros Hv Hi Hn. assert (Hb : valid_box i32_ops b).
  { destruct Hi as [H1 H2]. unfold valid_box in *. eapply (vec_le_trans _ i32_laws _); [exact H1|]. eapply (vec_le_trans _ i32_laws _); [exact Hv|exact H2]. }
  split; [exact Hb|]. apply narrow_sides in Hn. split; apply i32_sides_ok; try assumption.
  assert (Hs := incl_sides i32_ops i32_val ltac:(reflexivity) a b Hi Hv). revert Hn. induction Hs; intros Hn; constructor; inversion Hn; subst; [lia|auto].
Qed.

Section USides.
Context (w : nat) (Hw : (w <= 32)%nat).
Lemma u_le_val (a b : uint w) : s_le (uint_ops w) a b = (uint_val w a <=? uint_val w b)%Z.
Proof. reflexivity. Qed.

Lemma u_sides_ok D (b : saabb (uint w) D) : valid_box (uint_ops w) b -> sides_ok (uint_val w) (uint_sub w) (uint_into_f64 w) (Z.of_nat w) b.
Proof.
  intros Hv. assert (Hs := incl_sides (uint_ops w) (uint_val w) u_le_val b b (box_incl_refl _ (uint_laws w) _ b) Hv).
  assert (H0 : Forall (fun s => 0 <= s)%Z (zsides (uint_val w) b)) by (induction Hs; constructor; [lia|assumption]).
  unfold sides_ok, zsides in *. rewrite Forall_map in H0. rewrite Forall_forall in *. intros [x y] Hin. specialize (H0 _ Hin). cbn [fst snd] in *.
  unfold side_ok. cbn [fst snd]. split; [exact H0|]. unfold uint_into_f64, uint_sub.
  assert (Hx := uint_bounds w x). assert (Hy := uint_bounds w y). assert (Hz := size_le w Hw). rewrite uint_of_small by lia. split.
  - rewrite <- IZR_Zpower by lia. apply IZR_le. change (radix_val radix2 ^ Z.of_nat w)%Z with (uint_size w). lia.
  - apply rep_of_Z. lia.
Qed.
End USides.
