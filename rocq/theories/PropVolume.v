(** C80: the volume of an axis-aligned box.
    [volume (i32_volume_ops D)] etc. is [Volume::volume] of [SAABB<i32, D>] etc. (bounds.rs 131-147); the number of dimensions is
    written [S D], as the code panics in dimension 0. *)
From Coq Require Import Reals Lra Floats.SpecFloat.
From Flocq Require Import Core BinarySingleNaN.
From Verif Require Import VolProof.
Local Open Scope R_scope.

Lemma rep_cv x r : rep x r -> computes x r. Proof. apply rep_val. Qed.

(** ** [i32] *)

(** A box less than 2^31 wide in every dimension: the volume is the rounded product of the side lengths, exact up to 2^53, in any
    case with a relative error of at most [(1 + 2^-53)^D - 1]; it is 0 exactly if some side has length 0. *)
Theorem C80_i32_partial :
  forall (D : nat) (b : saabb i32 (S D)),
  valid_box i32_ops b -> narrow b -> (S D <= 33)%nat ->
  computes (volume (i32_volume_ops (S D)) b) (rounded_product (side_lengths i32_real b)) /\
  (exact_volume i32_real b <= 2 ^ 53 -> computes (volume (i32_volume_ops (S D)) b) (exact_volume i32_real b)) /\
  exists r, computes (volume (i32_volume_ops (S D)) b) r /\ 0 <= r /\ (r = 0 <-> In 0 (side_lengths i32_real b)) /\
    Rabs (r - exact_volume i32_real b) <= ((1 + powerRZ 2 (-53)) ^ D - 1) * exact_volume i32_real b.
Proof.
  intros D b Hv Hn HD. assert (Hk : (31 * Z.of_nat (S D) <= 1023)%Z) by lia.
  assert (Hb := i32_sides_ok _ b Hv (narrow_sides _ b Hn)). cbn [volume i32_volume_ops]. split; [|split].
  - apply rep_cv. now apply (vol_rounded i32_val i32_sub i32_into_f64 31).
  - intros Hs. apply rep_cv. now apply (vol_exact i32_val i32_sub i32_into_f64 31).
  - destruct (vol_flat i32_val i32_sub i32_into_f64 31 ltac:(lia) b Hb Hk) as (r & Hr & H0 & H1).
    destruct (vol_close i32_val i32_sub i32_into_f64 31 ltac:(lia) b Hb Hk) as (r' & Hr' & H2).
    rewrite <- (rep_unique _ _ _ Hr Hr') in H2. exists r. split; [now apply rep_cv|]. split; [exact H0|]. split; [exact H1|exact H2].
Qed.
Print Assumptions C80_i32_partial.

(** A box [b] that includes [a] has at least the volume of [a], and the difference computed by the code, the volume increase, is the
    rounded difference of the two volumes, not negative. *)
Theorem C80_i32_monotone_partial :
  forall (D : nat) (a b : saabb i32 (S D)),
  valid_box i32_ops a -> box_incl i32_ops b a -> narrow b -> (S D <= 33)%nat ->
  let VO := i32_volume_ops (S D) in
  n64_cmp VO (volume VO a) (volume VO b) <> Gt /\
  exists r s, computes (volume VO a) r /\ computes (volume VO b) s /\ 0 <= r <= s /\
    computes (n64_sub VO (volume VO b) (volume VO a)) (rne 53 1024 (s - r)) /\ 0 <= rne 53 1024 (s - r).
Proof.
  intros D a b Hv Hi Hn HD. assert (Hk : (31 * Z.of_nat (S D) <= 1023)%Z) by lia. cbn [volume i32_volume_ops n64_cmp n64_sub].
  destruct (i32_incl_sides _ a b Hv Hi Hn) as (Hvb & Ha & Hb).
  destruct (vol_mono i32_ops i32_val i32_sub i32_into_f64 31 ltac:(reflexivity) ltac:(lia) a b Ha Hb Hk Hv Hi) as (r & s & Hr & Hs & Hle).
  destruct (vol_flat i32_val i32_sub i32_into_f64 31 ltac:(lia) a Ha Hk) as (r' & Hr' & H0 & _).
  rewrite <- (rep_unique _ _ _ Hr Hr') in H0.
  destruct (increase_nonneg _ _ _ _ Hr Hs (conj H0 Hle)) as (Hc & i & Hi' & Hi0 & ->). split; [exact Hc|].
  exists r, s. repeat split; try assumption; try (now apply rep_cv); try (apply rep_cv in Hr, Hs, Hi'; apply Hr || apply Hs || apply Hi').
Qed.
Print Assumptions C80_i32_monotone_partial.

(** In particular the union of two boxes has at least the volume of each. *)
Theorem C80_i32_union_partial :
  forall (D : nat) (a b : saabb i32 (S D)),
  valid_box i32_ops a -> valid_box i32_ops b -> narrow (box_union i32_ops a b) -> (S D <= 33)%nat ->
  let VO := i32_volume_ops (S D) in let u := box_union i32_ops a b in
  n64_cmp VO (volume VO a) (volume VO u) <> Gt /\ n64_cmp VO (volume VO b) (volume VO u) <> Gt.
Proof.
  intros D a b Ha Hb Hn HD VO u. split; apply C80_i32_monotone_partial; try assumption.
  - apply (box_union_l i32_ops i32_laws).
  - apply (box_union_r i32_ops i32_laws).
Qed.
Print Assumptions C80_i32_union_partial.

(** Wider boxes: [max - min] wraps, so a box can have a negative volume and less than a box inside it. *)
Definition C80_wide : saabb i32 1 := ibox 1 [(-2147483648)%Z] [2147483647%Z].
Theorem C80_i32_refuted :
  ~ (forall b : saabb i32 1, valid_box i32_ops b -> n64_cmp_f (f64_of_Z 0) (volume (i32_volume_ops 1) b) <> Gt) /\
  ~ (forall a b : saabb i32 1, valid_box i32_ops a -> valid_box i32_ops b -> box_incl i32_ops b a ->
     n64_cmp (i32_volume_ops 1) (volume (i32_volume_ops 1) a) (volume (i32_volume_ops 1) b) <> Gt).
Proof.
  assert (Hv : valid_box i32_ops C80_wide) by (unfold valid_box; apply vec_le_cons; split; [reflexivity|apply vec_le_nil]). split.
  - intros H. specialize (H C80_wide Hv). vm_compute in H. congruence.
  - intros H. specialize (H (ibox 1 [0%Z] [5%Z]) C80_wide). apply H; try assumption.
    + unfold valid_box. apply vec_le_cons. split; [reflexivity|apply vec_le_nil].
    + split; apply vec_le_cons; (split; [reflexivity|apply vec_le_nil]).
    + vm_compute. reflexivity.
Qed.
Print Assumptions C80_i32_refuted.

Example C80_i32_example :
  valid_box i32_ops (ibox 2 [-1; 2]%Z [3; 7]%Z) /\ narrow (ibox 2 [-1; 2]%Z [3; 7]%Z) /\ exact_volume i32_real (ibox 2 [-1; 2]%Z [3; 7]%Z) = 20 /\
  volume (i32_volume_ops 2) (ibox 2 [-1; 2]%Z [3; 7]%Z) = f64_of_Z 20 /\
  box_incl i32_ops (ibox 2 [-2; 2]%Z [4; 7]%Z) (ibox 2 [-1; 2]%Z [3; 7]%Z) /\ narrow (ibox 2 [-2; 2]%Z [4; 7]%Z).
Proof.
  split; [|split; [|split; [|split; [|split]]]].
  - unfold valid_box. repeat (apply vec_le_cons; split; [reflexivity|]). apply vec_le_nil.
  - repeat split; vm_compute; congruence.
  - unfold exact_volume, side_lengths, i32_real. cbn. lra.
  - vm_compute. reflexivity.
  - split; repeat (apply vec_le_cons; split; [reflexivity|]); apply vec_le_nil.
  - repeat split; vm_compute; congruence.
Qed.

(** ** [u8], [u16], [u32]: all boxes with [min <= max] *)

Theorem C80_unsigned :
  forall (w D : nat) (b : saabb (uint w) (S D)),
  (w <= 32)%nat -> (S D <= 31)%nat -> valid_box (uint_ops w) b ->
  computes (volume (uint_volume_ops w (S D)) b) (rounded_product (side_lengths uint_real b)) /\
  (exact_volume uint_real b <= 2 ^ 53 -> computes (volume (uint_volume_ops w (S D)) b) (exact_volume uint_real b)) /\
  exists r, computes (volume (uint_volume_ops w (S D)) b) r /\ 0 <= r /\ (r = 0 <-> In 0 (side_lengths uint_real b)) /\
    Rabs (r - exact_volume uint_real b) <= ((1 + powerRZ 2 (-53)) ^ D - 1) * exact_volume uint_real b.
Proof.
  intros w D b Hw HD Hv. assert (Hk : (Z.of_nat w * Z.of_nat (S D) <= 1023)%Z) by nia.
  assert (Hb := u_sides_ok w Hw _ b Hv). cbn [volume uint_volume_ops]. split; [|split].
  - apply rep_cv. now apply (vol_rounded (uint_val w) (uint_sub w) (uint_into_f64 w) (Z.of_nat w) ltac:(lia)).
  - intros Hs. apply rep_cv. now apply (vol_exact (uint_val w) (uint_sub w) (uint_into_f64 w) (Z.of_nat w) ltac:(lia)).
  - destruct (vol_flat (uint_val w) (uint_sub w) (uint_into_f64 w) (Z.of_nat w) ltac:(lia) b Hb Hk) as (r & Hr & H0 & H1).
    destruct (vol_close (uint_val w) (uint_sub w) (uint_into_f64 w) (Z.of_nat w) ltac:(lia) b Hb Hk) as (r' & Hr' & H2).
    rewrite <- (rep_unique _ _ _ Hr Hr') in H2. exists r. split; [now apply rep_cv|]. split; [exact H0|]. split; [exact H1|exact H2].
Qed.
Print Assumptions C80_unsigned.

Theorem C80_unsigned_monotone :
  forall (w D : nat) (a b : saabb (uint w) (S D)),
  (w <= 32)%nat -> (S D <= 31)%nat -> valid_box (uint_ops w) a -> box_incl (uint_ops w) b a ->
  let VO := uint_volume_ops w (S D) in
  n64_cmp VO (volume VO a) (volume VO b) <> Gt /\
  exists r s, computes (volume VO a) r /\ computes (volume VO b) s /\ 0 <= r <= s /\
    computes (n64_sub VO (volume VO b) (volume VO a)) (rne 53 1024 (s - r)) /\ 0 <= rne 53 1024 (s - r).
Proof.
  intros w D a b Hw HD Hv Hi. assert (Hk : (Z.of_nat w * Z.of_nat (S D) <= 1023)%Z) by nia. cbn [volume uint_volume_ops n64_cmp n64_sub].
  assert (Hvb : valid_box (uint_ops w) b).
  { destruct Hi as [H1 H2]. unfold valid_box in *. eapply (vec_le_trans _ (uint_laws w)); [exact H1|]. eapply (vec_le_trans _ (uint_laws w)); [exact Hv|exact H2]. }
  assert (Ha := u_sides_ok w Hw _ a Hv). assert (Hb := u_sides_ok w Hw _ b Hvb).
  destruct (vol_mono (uint_ops w) (uint_val w) (uint_sub w) (uint_into_f64 w) (Z.of_nat w) (u_le_val w) ltac:(lia) a b Ha Hb Hk Hv Hi) as (r & s & Hr & Hs & Hle).
  destruct (vol_flat (uint_val w) (uint_sub w) (uint_into_f64 w) (Z.of_nat w) ltac:(lia) a Ha Hk) as (r' & Hr' & H0 & _).
  rewrite <- (rep_unique _ _ _ Hr Hr') in H0.
  destruct (increase_nonneg _ _ _ _ Hr Hs (conj H0 Hle)) as (Hc & i & Hi' & Hi0 & ->). split; [exact Hc|].
  exists r, s. split; [now apply rep_cv|]. split; [now apply rep_cv|]. split; [now split|]. split; [now apply rep_cv|exact Hi0].
Qed.
Print Assumptions C80_unsigned_monotone.

(** The box of all [u32] numbers, and one inside it. *)
Example C80_unsigned_example :
  valid_box (uint_ops 32) (ubox 32 2 [0; 7]%Z [4294967295; 10]%Z) /\ exact_volume uint_real (ubox 32 2 [0; 7]%Z [4294967295; 10]%Z) = 12884901885 /\
  volume (uint_volume_ops 32 2) (ubox 32 2 [0; 7]%Z [4294967295; 10]%Z) = f64_of_Z 12884901885 /\
  box_incl (uint_ops 32) (ubox 32 2 [0; 7]%Z [4294967295; 10]%Z) (ubox 32 2 [1; 7]%Z [2; 9]%Z).
Proof.
  split; [|split; [|split]].
  - unfold valid_box. repeat (apply vec_le_cons; split; [reflexivity|]). apply vec_le_nil.
  - unfold exact_volume, side_lengths, uint_real. cbn. lra.
  - vm_compute. reflexivity.
  - split; repeat (apply vec_le_cons; split; [reflexivity|]); apply vec_le_nil.
Qed.

(** ** [N32], [N64] *)

(** If the computed volume is finite, it is the product of the side lengths, these rounded to the coordinate type, the product to a
    double after every multiplication. *)
Theorem C80_floats_partial :
  forall (p e : Z) (D : nat) (b : saabb (nf p e) (S D)),
  fp_format p e -> (p <= 53)%Z -> (e <= 1024)%Z -> finite_box b -> is_finite_SF (volume (nf_volume_ops p e (S D)) b) = true ->
  computes (volume (nf_volume_ops p e (S D)) b) (rounded_product (map (rne p e) (side_lengths coord b))).
Proof.
  intros p e D b Hf Hp He Hb Hfin. apply rep_cv. now apply nf_volume_value.
Qed.
Print Assumptions C80_floats_partial.

(** A box [a] inside [b] then has a finite volume too, at most that of [b], and the volume increase is not negative. *)
Theorem C80_floats_monotone_partial :
  forall (p e : Z) (D : nat) (a b : saabb (nf p e) (S D)),
  fp_format p e -> (p <= 53)%Z -> (e <= 1024)%Z -> finite_box a -> finite_box b -> x_valid a -> x_incl b a ->
  let VO := nf_volume_ops p e (S D) in
  is_finite_SF (volume VO b) = true ->
  n64_cmp VO (volume VO a) (volume VO b) <> Gt /\
  exists r s, computes (volume VO a) r /\ computes (volume VO b) s /\ 0 <= r <= s /\
    computes (n64_sub VO (volume VO b) (volume VO a)) (rne 53 1024 (s - r)) /\ 0 <= rne 53 1024 (s - r).
Proof.
  intros p e D a b Hf Hp He Ha Hb Hv Hi VO Hfin.
  destruct (nf_volume_mono p e Hf Hp He a b Ha Hb Hv Hi Hfin) as (r & s & Hr & Hs & Hle).
  destruct (increase_nonneg _ _ _ _ Hr Hs Hle) as (Hc & i & Hi' & Hi0 & ->). split; [exact Hc|].
  exists r, s. split; [now apply rep_cv|]. split; [now apply rep_cv|]. split; [exact Hle|]. split; [now apply rep_cv|exact Hi0].
Qed.
Print Assumptions C80_floats_monotone_partial.

(** A box so wide that its width overflows to an infinity, and flat: the volume is NaN.  A small box with positive sides has volume 0. *)
Definition vz (z : Z) : n64 := nf_of 53 1024 (f64_of_Z z).
Definition vbox (a b c d : n64) : saabb n64 2 := {| bmin := (a, (b, tt)); bmax := (c, (d, tt)) |}.
Definition vtiny : n64 := nf_of 53 1024 (SpecFloat.binary_normalize 53 1024 1 (-600) false).
Theorem C80_floats_refuted :
  ~ (forall b : saabb n64 2, finite_box b -> x_valid b -> f64_is_nan (volume (nf_volume_ops 53 1024 2) b) = false) /\
  ~ (forall b : saabb n64 2, finite_box b -> x_valid b -> ~ In 0 (side_lengths coord b) -> ~ computes (volume (nf_volume_ops 53 1024 2) b) 0).
Proof.
  assert (Hf : fp_format 53 1024) by (split; reflexivity).
  assert (Hfin : forall a b c d : n64, Forall (fun x : n64 => is_finite_SF (nf_raw x) = true) [a; b; c; d] -> finite_box (vbox a b c d)).
  { intros a b c d H. inversion H as [|? ? H1 H']; subst. inversion H' as [|? ? H2 H'']; subst. inversion H'' as [|? ? H3 H3']; subst. inversion H3' as [|? ? H4 _]; subst.
    assert (Hx : forall x : n64, is_finite_SF (nf_raw x) = true -> exists r, nf_value x = XReal r) by (intros x Hx; exists (SF2R radix2 (nf_raw x)); now apply fin_value).
    split; repeat constructor; now apply Hx. }
  assert (Hval : forall a b c d : n64, SFleb (nf_raw a) (nf_raw c) = true -> SFleb (nf_raw b) (nf_raw d) = true -> x_valid (vbox a b c d)).
  { intros a b c d H1 H2. apply (valid_x 53 1024). unfold valid_box. apply vec_le_cons. split; [exact H1|]. apply vec_le_cons. split; [exact H2|apply vec_le_nil]. }
  split.
  - intros H. specialize (H (vbox (s_min_value (nf_ops 53 1024)) (vz 0) (s_max_value (nf_ops 53 1024)) (vz 0))).
    assert (H1 : f64_is_nan (volume (nf_volume_ops 53 1024 2) (vbox (s_min_value (nf_ops 53 1024)) (vz 0) (s_max_value (nf_ops 53 1024)) (vz 0))) = true) by (vm_compute; reflexivity).
    rewrite H in H1; [discriminate| |].
    + apply Hfin. repeat constructor; vm_compute; reflexivity.
    + apply Hval; vm_compute; reflexivity.
  - intros H. apply (H (vbox (vz 0) (vz 0) vtiny vtiny)).
    + apply Hfin. repeat constructor; vm_compute; reflexivity.
    + apply Hval; vm_compute; reflexivity.
    + assert (E0 : coord (vz 0) = 0) by (unfold coord, nf_value; replace (nf_raw (vz 0)) with (S754_zero false) by (vm_compute; reflexivity); reflexivity).
      assert (E1 : coord vtiny <> 0).
      { unfold coord, nf_value. replace (nf_raw vtiny) with (S754_finite false 4503599627370496 (-652)) by (vm_compute; reflexivity). cbn [sf_value].
        apply Rmult_integral_contrapositive_currified; [|apply powerRZ_NOR; lra]. assert (0 < IZR 4503599627370496) by (apply IZR_lt; reflexivity). lra. }
      unfold side_lengths. cbn [vbox bmin bmax vlist fst snd combine map In]. rewrite E0. intros [E|[E|[]]]; apply E1; lra.
    + split; [vm_compute; reflexivity|]. change (volume (nf_volume_ops 53 1024 2) ?b) with (nf_volume 53 1024 b).
      replace (nf_volume 53 1024 _) with (S754_zero false) by (vm_compute; reflexivity). reflexivity.
Qed.
Print Assumptions C80_floats_refuted.

Example C80_floats_example :
  finite_box (vbox (vz (-1)) (vz 2) (vz 3) (vz 7)) /\ is_finite_SF (volume (nf_volume_ops 53 1024 2) (vbox (vz (-1)) (vz 2) (vz 3) (vz 7))) = true /\
  volume (nf_volume_ops 53 1024 2) (vbox (vz (-1)) (vz 2) (vz 3) (vz 7)) = f64_of_Z 20 /\
  x_valid (vbox (vz 0) (vz 2) (vz 3) (vz 7)) /\ x_incl (vbox (vz (-1)) (vz 2) (vz 3) (vz 7)) (vbox (vz 0) (vz 2) (vz 3) (vz 7)).
Proof.
  assert (Hf : fp_format 53 1024) by (split; reflexivity).
  split; [|split; [|split; [|split]]].
  - split; repeat constructor; (eexists; apply fin_value; vm_compute; reflexivity).
  - vm_compute. reflexivity.
  - vm_compute. reflexivity.
  - apply (valid_x 53 1024). unfold valid_box. repeat (apply vec_le_cons; split; [vm_compute; reflexivity|]). apply vec_le_nil.
  - split; apply (vec_le_xle 53 1024); repeat (apply vec_le_cons; split; [vm_compute; reflexivity|]); apply vec_le_nil.
Qed.
