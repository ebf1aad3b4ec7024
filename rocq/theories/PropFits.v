(** C55, C69, C85: when the volume of a box with integer coordinates returns in a build with overflow checks. *)
From Coq Require Import Reals Lra Floats.SpecFloat.
From Flocq Require Import Core BinarySingleNaN.
From Verif Require Import CheckRun UProof SintProof GeomProof Witness.
Local Open Scope Z_scope.

Section Fits.
Context {N : Type} (val : N -> Z) (sub : N -> N -> N) (into : N -> f64) (rng : Z -> bool) (k : Z) (Hk : 0 <= k).
Context (Hrep : forall x y, rng (val y - val x) = true -> exists r, rep (into (sub y x)) r /\ (Rabs r <= bpow radix2 k)%R).

Lemma fits_iff D (b : saabb N D) : k * Z.of_nat D <= 1023 ->
  match map (fun p => into (sub (snd p) (fst p))) (vzip (bmin b) (bmax b)) with
  | [] => false
  | x :: r => forallb (fun p => rng (val (snd p) - val (fst p))) (vzip (bmin b) (bmax b)) && products_fit x r
  end = true <-> (1 <= D)%nat /\ Forall (fun q => rng (val (snd q) - val (fst q)) = true) (combine (vlist (bmin b)) (vlist (bmax b))).
Proof.
  intros HD. unfold vzip. assert (Hlen : length (combine (vlist (bmin b)) (vlist (bmax b))) = D) by (rewrite combine_length, !vlist_len; lia).
  revert Hlen. generalize (combine (vlist (bmin b)) (vlist (bmax b))). intros l Hlen. split.
  - destruct l as [|q l]; [discriminate|]. cbn [map]. intros H. apply andb_prop in H as [H _]. rewrite forallb_forall in H.
    split; [subst D; cbn; lia|]. apply Forall_forall. exact H.
  - intros [H1 H2]. assert (Hf : forallb (fun p => rng (val (snd p) - val (fst p))) l = true).
    { apply forallb_forall. rewrite Forall_forall in H2. exact H2. }
    assert (HF : Forall (fun x => exists r, rep x r /\ (Rabs r <= bpow radix2 k)%R) (map (fun p => into (sub (snd p) (fst p))) l)).
    { apply Forall_map. eapply Forall_impl; [|exact H2]. intros [x y] Hin. cbn [fst snd] in *. now apply Hrep. }
    rewrite Hf. destruct l as [|q l]; [cbn in Hlen; lia|]. cbn [map length] in *. inversion HF as [|? ? (r & Hr & Hb) Hl]; subst.
    refine (proj1 (products_rep k _ Hk Hl _ r k Hr Hk Hb _)). rewrite map_length. nia.
Qed.
End Fits.

(** [i32]: the volume returns exactly when there is a dimension and no [max - min] leaves the type. *)
Theorem C55_volume_returns_i32_partial :
  forall (D : nat) (b : saabb i32 D), (D <= 31)%nat ->
  (i32_vol_fits b = true <->
   (1 <= D)%nat /\ Forall (fun q => -2147483648 <= i32_val (snd q) - i32_val (fst q) <= 2147483647) (combine (vlist (bmin b)) (vlist (bmax b)))).
Proof.
  intros D b HD. unfold i32_vol_fits.
  assert (Hr : forall z, i32_range z = true <-> -2147483648 <= z <= 2147483647).
  { intros z. unfold i32_range. rewrite andb_true_iff, !Z.leb_le. tauto. }
  rewrite (fits_iff i32_val i32_sub i32_into_f64 i32_range 31 ltac:(lia)); [|clear -Hr|lia].
  - split; intros [H1 H2]; (split; [exact H1|]); (eapply Forall_impl; [|exact H2]); intros q Hq; cbn beta in *; now apply Hr.
  - intros x y H. apply Hr in H. unfold i32_into_f64, i32_sub. rewrite i32_of_val. unfold wrap32.
    generalize dependent (i32_val y). generalize dependent (i32_val x). intros vx vy H. rewrite Z.mod_small by lia.
    exists (IZR (vy - vx + 2147483648 - 2147483648)). split; [apply rep_of_Z; lia|]. rewrite <- abs_IZR, <- IZR_Zpower by lia. apply IZR_le.
    change (radix2 ^ 31)%Z with 2147483648. lia.
Qed.
Print Assumptions C55_volume_returns_i32_partial.

(** Unsigned: exactly when there is a dimension and [max] is not below [min] in any. *)
Theorem C69_volume_returns :
  forall (w D : nat) (b : saabb (uint w) D), (w <= 32)%nat -> (D <= 31)%nat ->
  (uint_vol_fits w b = true <->
   (1 <= D)%nat /\ Forall (fun q => uint_val w (fst q) <= uint_val w (snd q)) (combine (vlist (bmin b)) (vlist (bmax b)))).
Proof.
  intros w D b Hw HD. unfold uint_vol_fits.
  assert (Hs : 2 ^ Z.of_nat w <= 4294967296) by (change 4294967296 with (2 ^ 32); apply Z.pow_le_mono_r; lia).
  rewrite (fits_iff (uint_val w) (uint_sub w) (uint_into_f64 w) (uint_range w) (Z.of_nat w) ltac:(lia)); [| |nia].
  - split; intros [H1 H2]; (split; [exact H1|]); (eapply Forall_impl; [|exact H2]); intros [x y] Hq; cbn [fst snd] in *.
    + apply uint_range_iff in Hq. lia.
    + apply uint_range_iff. assert (Hx := uint_bounds w x). assert (Hy := uint_bounds w y). lia.
  - intros x y H. apply uint_range_iff in H. unfold uint_into_f64, uint_sub. rewrite uint_of_small by exact H.
    exists (IZR (uint_val w y - uint_val w x)). change (uint_size w) with (2 ^ Z.of_nat w) in H. split; [apply rep_of_Z; lia|].
    rewrite <- abs_IZR, <- IZR_Zpower by lia. apply IZR_le. change (radix_val radix2) with 2. lia.
Qed.
Print Assumptions C69_volume_returns.

(** Signed types of any width: as for [i32]. *)
Theorem C85_volume_returns :
  forall (w D : nat) (b : saabb (sint w) D), (w <= 31)%nat -> (D <= 31)%nat ->
  (sint_vol_fits w b = true <->
   (1 <= D)%nat /\ Forall (fun q => - 2 ^ Z.of_nat w <= sint_val w (snd q) - sint_val w (fst q) < 2 ^ Z.of_nat w)
                     (combine (vlist (bmin b)) (vlist (bmax b)))).
Proof.
  intros w D b Hw HD. unfold sint_vol_fits. assert (Hs := half_le w Hw).
  rewrite (fits_iff (sint_val w) (sint_sub w) (sint_into_f64 w) (sint_range w) (Z.of_nat w) ltac:(lia)); [| |nia].
  - split; intros [H1 H2]; (split; [exact H1|]); (eapply Forall_impl; [|exact H2]); intros [x y] Hq; cbn [fst snd] in *; now apply sint_range_iff.
  - intros x y H. apply sint_range_iff in H. unfold sint_into_f64, sint_sub. rewrite sint_of_small by exact H.
    exists (IZR (sint_val w y - sint_val w x)). split; [apply rep_of_Z; lia|].
    rewrite <- abs_IZR, <- IZR_Zpower by lia. apply IZR_le. change (radix_val radix2 ^ Z.of_nat w) with (sint_half w). lia.
Qed.
Print Assumptions C85_volume_returns.

(** An [i8] box with sides 127 and 100 has a volume; one with a side of 128 has none, nor has the box of no dimension. *)
Example C85_volume_returns_example :
  sint_vol_fits 7 (sibox 7 2 [-27; -50] [100; 50]) = true /\ sint_vol_fits 7 (sibox 7 2 [-28; -50] [100; 50]) = false /\
  sint_vol_fits 7 (sibox 7 0 [] []) = false.
Proof. repeat split; vm_compute; reflexivity. Qed.
