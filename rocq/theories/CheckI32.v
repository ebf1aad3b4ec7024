(** With all coordinates in a window of less than 2^31, no check of [i32] boxes fails. *)
From Coq Require Import Reals Lra.
From Flocq Require Import Core BinarySingleNaN.
From Verif Require Export CheckProof CheckSpec FloatReal GeomProof.
From Coq Require Import Floats.SpecFloat.

Local Open Scope R_scope.
Local Existing Instance FloatReal.Hprec.
Local Existing Instance FloatReal.Hmax.

Lemma rep_not_nan x a : rep x a -> f64_is_nan x = false.
Proof. intros (b & <- & Hf & _). destruct b; try discriminate Hf; reflexivity. Qed.

Lemma sub_not_nan x y a b : rep x a -> rep y b -> f64_is_nan (f64_sub x y) = false.
Proof.
  intros (bx & <- & Fx & _) (by_ & <- & Fy & _). rewrite sub_equiv.
  assert (H := Bminus_correct 53 1024 FloatReal.Hprec FloatReal.Hmax mode_NE bx by_ Fx Fy).
  destruct (Rlt_bool _ _).
  - destruct H as (_ & H & _). destruct (Bminus mode_NE bx by_); try discriminate H; reflexivity.
  - destruct H as (H & _). rewrite H. unfold binary_overflow. destruct (overflow_to_inf _ _); reflexivity.
Qed.

Lemma rnd_pow x j : (0 <= j <= 1023)%Z -> Rabs x <= bpow radix2 j -> Rabs (rnd x) <= bpow radix2 j.
Proof.
  intros Hj Hx. apply abs_round_le_generic; [apply fexp_correct, FloatReal.Hprec|apply valid_rnd_N| |exact Hx].
  apply generic_format_bpow. unfold SpecFloat.fexp, emin. lia.
Qed.

(** A product of [n] factors at most [2 ^ k]. *)
Lemma products_rep (k : Z) l : (0 <= k)%Z -> Forall (fun x => exists r, rep x r /\ Rabs r <= bpow radix2 k) l ->
  forall acc a j, rep acc a -> (0 <= j)%Z -> Rabs a <= bpow radix2 j -> (j + k * Z.of_nat (length l) <= 1023)%Z ->
  products_fit acc l = true /\ exists r, rep (fold_left f64_mul l acc) r.
Proof.
  intros Hk. induction 1 as [|x l (r & Hr & Hb) Hl IH]; intros acc a j Ha Hj Haj Hle; cbn [products_fit fold_left length] in *.
  - split; [reflexivity|]. now exists a.
  - assert (Hm : Rabs (a * r) <= bpow radix2 (j + k)).
    { rewrite Rabs_mult, bpow_plus. apply Rmult_le_compat; auto using Rabs_pos. }
    assert (Hr2 : Rabs (rnd (a * r)) <= bpow radix2 (j + k)) by (apply rnd_pow; [nia|exact Hm]).
    assert (Hrep : rep (f64_mul acc x) (rnd (a * r))).
    { apply rep_mul; try assumption. apply Rle_lt_trans with (1 := Hr2). unfold maxf. apply bpow_lt. nia. }
    rewrite (rep_not_nan _ _ Hrep). cbn [negb andb]. apply (IH _ _ (j + k)%Z Hrep); [lia|exact Hr2|nia].
Qed.

Local Open Scope Z_scope.

(** Every coordinate of the box lies between [lo] and [hi]. *)
Definition box_in_window (lo hi : Z) {D} (b : saabb i32 D) : Prop :=
  Forall (fun p => lo <= i32_val (fst p) <= hi /\ lo <= i32_val (snd p) <= hi) (vzip (bmin b) (bmax b)).

Lemma vlist_len {A} D (v : svec A D) : length (vlist v) = D.
Proof. induction D as [|D IH]; [reflexivity|]. cbn [vlist length]. now rewrite IH. Qed.

Lemma window_vol (lo hi k : Z) D (b : saabb i32 D) : (1 <= D)%nat -> 0 <= k -> hi - lo <= 2147483647 -> hi - lo <= 2 ^ k -> k * Z.of_nat D <= 1023 ->
  box_in_window lo hi b -> i32_vol_fits b = true /\ exists r, rep (volume (i32_volume_ops D) b) r.
Proof.
  intros HD Hk Hw1 Hw2 Hkd Hb. unfold box_in_window in Hb. unfold i32_vol_fits. cbn [volume i32_volume_ops]. unfold box_volume.
  assert (Hlen : length (vzip (bmin b) (bmax b)) = D) by (unfold vzip; rewrite combine_length, !vlist_len; lia).
  assert (Hfit : forallb (fun p : i32 * i32 => i32_range (i32_val (snd p) - i32_val (fst p))) (vzip (bmin b) (bmax b)) = true).
  { apply forallb_forall. intros [x y] Hin. rewrite Forall_forall in Hb. specialize (Hb _ Hin). cbn [fst snd] in *. unfold i32_range.
    generalize dependent (i32_val x). generalize dependent (i32_val y). intros. apply andb_true_intro. split; apply Z.leb_le; lia. }
  assert (Hrep : Forall (fun x => exists r, rep x r /\ (Rabs r <= bpow radix2 k)%R)
    (map (fun p : i32 * i32 => i32_into_f64 (i32_sub (snd p) (fst p))) (vzip (bmin b) (bmax b)))).
  { apply Forall_map. eapply Forall_impl; [|exact Hb]. intros [x y] Hin. cbn [fst snd] in *. unfold i32_into_f64, i32_sub.
    assert (E : i32_val (i32_of (i32_val y - i32_val x)) = i32_val y - i32_val x).
    { rewrite i32_of_val. unfold wrap32. generalize dependent (i32_val x). generalize dependent (i32_val y). intros. rewrite Z.mod_small by lia. lia. }
    rewrite E. generalize dependent (i32_val x). generalize dependent (i32_val y). intros vy vx Hin _.
    exists (IZR (vy - vx)). split; [apply rep_of_Z; lia|]. rewrite <- abs_IZR, <- IZR_Zpower by exact Hk. apply IZR_le. change (radix_val radix2) with 2. lia. }
  rewrite Hfit. destruct (map _ _) as [|x l] eqn:El.
  { apply (f_equal (@length _)) in El. rewrite map_length, Hlen in El. cbn in El. lia. }
  apply (f_equal (@length _)) in El. rewrite map_length, Hlen in El. cbn [length] in El.
  inversion Hrep as [|? ? (r & Hr & Hb1) Hl]; subst.
  destruct (products_rep k l Hk Hl x r k Hr Hk Hb1) as (Hp & Hq); [nia|]. split; [exact Hp|exact Hq].
Qed.
