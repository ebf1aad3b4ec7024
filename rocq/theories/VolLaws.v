(** The volumes of boxes of integers are totally ordered, and so are their differences, whatever wraps (C42, C44, C81). *)
From Coq Require Import Reals Lra Floats.SpecFloat.
From Flocq Require Import Core BinarySingleNaN.
From Verif Require Export VolProof Heuristics.
Local Open Scope R_scope.
Local Existing Instance FloatReal.Hprec.
Local Existing Instance FloatReal.Hmax.

Lemma ok_cmp_laws {A} (f : A -> f64) : (forall a, nf_ok 53 1024 (f a) = true) -> cmp_laws (fun a b => n64_cmp_f (f a) (f b)).
Proof.
  intros H. assert (L := nf_cmp_laws 53 1024).
  assert (E : forall a b, nf_cmp (nf_of 53 1024 (f a)) (nf_of 53 1024 (f b)) = n64_cmp_f (f a) (f b)).
  { intros a b. unfold nf_cmp. now rewrite !nf_of_raw. }
  constructor; intros; rewrite <- ?E in *; [apply (cmp_flip _ L)|eapply (cmp_le_trans _ L); eassumption].
Qed.

Lemma sub_ok x y a b : rep x a -> rep y b -> nf_ok 53 1024 (f64_sub x y) = true.
Proof.
  intros Hx Hy. assert (Hn := sub_not_nan _ _ _ _ Hx Hy). destruct Hx as (bx & <- & _), Hy as (by_ & <- & _).
  rewrite sub_equiv in *. apply ok_B2SF. intros E. rewrite E in Hn. discriminate.
Qed.

Lemma rep_neg_inf x r : rep x r -> n64_cmp_f (S754_infinity true) x = Lt.
Proof. intros H. apply rep_fin in H. destruct x as [s|s| |s m ex]; try discriminate; reflexivity. Qed.

Section Laws.
Context {B : Type} (vol : B -> f64) (Hvol : forall b, exists r, rep (vol b) r).
Let VO : VolumeOps B := {| N64 := f64; volume := vol; n64_sub := f64_sub; n64_cmp := n64_cmp_f; n64_neg_inf := S754_infinity true |}.

Lemma finite_volume_laws : volume_laws VO.
Proof.
  split.
  - apply (ok_cmp_laws (fun o : option B => match o with Some b => vol b | None => S754_infinity true end)). intros [b|]; [|reflexivity].
    destruct (Hvol b) as [r Hr]. apply rep_computes in Hr. apply Hr.
  - apply (ok_cmp_laws (fun p : B * B => f64_sub (vol (fst p)) (vol (snd p)))). intros [a b].
    destruct (Hvol a) as [r Hr], (Hvol b) as [s Hs]. eapply sub_ok; eassumption.
Qed.
Lemma finite_neg_inf b : n64_cmp VO (n64_neg_inf VO) (volume VO b) = Lt.
Proof. destruct (Hvol b) as [r Hr]. eapply rep_neg_inf; exact Hr. Qed.
End Laws.

(** The volume of any box of integers whose computed side lengths are at most 2^k is finite. *)
Lemma int_volume_finite {N} (sub : N -> N -> N) (into : N -> f64) (k : Z) {D} (b : saabb N (S D)) :
  (0 <= k)%Z -> (k * Z.of_nat (S D) <= 1023)%Z ->
  (forall x y, exists r, rep (into (sub x y)) r /\ Rabs r <= bpow radix2 k) ->
  exists r, rep (box_volume sub into f64_mul (f64_of_Z 1) b) r.
Proof.
  intros Hk HD Hs. unfold box_volume.
  assert (Hlen : length (vzip (bmin b) (bmax b)) = S D) by (unfold vzip; rewrite combine_length, !vlist_len; apply Nat.min_id).
  destruct (vzip (bmin b) (bmax b)) as [|q l]; [discriminate|]. cbn [map length] in *.
  destruct (Hs (snd q) (fst q)) as (r & Hr & Hb).
  destruct (products_rep k (map (fun p => into (sub (snd p) (fst p))) l) Hk) with (acc := into (sub (snd q) (fst q))) (a := r) (j := k) as (_ & H); try assumption.
  - rewrite Forall_forall. intros x Hx. apply in_map_iff in Hx. destruct Hx as (p & <- & _). apply Hs.
  - rewrite map_length. nia.
Qed.

Lemma i32_volume_finite D (b : saabb i32 (S D)) : (S D <= 33)%nat -> exists r, rep (volume (i32_volume_ops (S D)) b) r.
Proof.
  intros HD. apply (int_volume_finite _ _ 31); [lia|lia|]. intros x y. unfold i32_into_f64.
  set (z := i32_val (i32_sub x y)). assert (Hz : (-2147483648 <= z <= 2147483647)%Z).
  { unfold z, i32_sub. rewrite i32_of_val. unfold wrap32. assert (H := Z.mod_pos_bound (i32_val x - i32_val y + 2147483648) 4294967296 ltac:(lia)). lia. }
  exists (IZR z). split; [apply rep_of_Z; lia|]. rewrite <- abs_IZR. change (bpow radix2 31) with (IZR 2147483648). apply IZR_le. lia.
Qed.

Lemma i32_volume_laws D : (S D <= 33)%nat -> volume_laws (i32_volume_ops (S D)).
Proof. intros HD. apply finite_volume_laws. intros b. now apply i32_volume_finite. Qed.
Lemma i32_neg_inf D b : (S D <= 33)%nat -> n64_cmp (i32_volume_ops (S D)) (n64_neg_inf (i32_volume_ops (S D))) (volume (i32_volume_ops (S D)) b) = Lt.
Proof. intros HD. apply finite_neg_inf. intros b'. now apply i32_volume_finite. Qed.

Section Unsigned.
Context (w D : nat) (Hw : (w <= 32)%nat) (HD : (S D <= 31)%nat).
Lemma uint_volume_finite (b : saabb (uint w) (S D)) : exists r, rep (volume (uint_volume_ops w (S D)) b) r.
Proof.
  apply (int_volume_finite _ _ (Z.of_nat w)); [lia|nia|]. intros x y. unfold uint_into_f64.
  assert (Hz := uint_bounds w (uint_sub w x y)). set (z := uint_val w (uint_sub w x y)) in *. unfold uint_size in Hz.
  assert (H32 : (2 ^ Z.of_nat w <= 2 ^ 32)%Z) by (apply Z.pow_le_mono_r; lia). change (2 ^ 32)%Z with 4294967296%Z in H32.
  exists (IZR z). split; [apply rep_of_Z; lia|]. rewrite <- abs_IZR, <- IZR_Zpower by lia. apply IZR_le. change (radix_val radix2) with 2%Z. lia.
Qed.
Lemma uint_volume_laws : volume_laws (uint_volume_ops w (S D)).
Proof. apply finite_volume_laws. intros b. apply uint_volume_finite. Qed.
Lemma uint_neg_inf b : n64_cmp (uint_volume_ops w (S D)) (n64_neg_inf (uint_volume_ops w (S D))) (volume (uint_volume_ops w (S D)) b) = Lt.
Proof. apply finite_neg_inf. intros b'. apply uint_volume_finite. Qed.
End Unsigned.
