(** Segment and ray queries with [i32] coordinates (C37, C38). *)
From Coq Require Import Lra.
From Flocq Require Import Core.
From Coq Require Import Floats.SpecFloat.
From Verif Require Export SegFloat BoxJoinProof IterProof.
Local Open Scope R_scope.

Lemma i32_ext_sub a b : no_wrap a b -> i32_ext (i32_sub a b) = EFin (i32_real a - i32_real b).
Proof.
  intros H. unfold i32_ext, i32_real, i32_sub. rewrite i32_of_val, wrap32_small by exact H. now rewrite minus_IZR.
Qed.

Notation iaxes := (axes i32_real).

Lemma i32_exact D (bmn bmx o d : svec i32 D) : no_wraps bmn o -> no_wraps bmx o -> exact_at i32_real i32_sub i32_ext bmn bmx o d.
Proof.
  induction D as [|D IH]; cbn [no_wraps exact_at]; [auto|]. intros [H1 H2] [H3 H4].
  split; [|now apply IH]. split; [now apply i32_ext_sub|]. split; [now apply i32_ext_sub|reflexivity].
Qed.

Lemma valid_real D (b : saabb i32 D) : valid_box i32_ops b -> Forall2 (fun l h => i32_real l <= i32_real h) (vlist (bmin b)) (vlist (bmax b)).
Proof.
  unfold valid_box, vec_le. intros H. induction H as [|x y l l' Hxy H IH]; constructor; [|exact IH].
  apply IZR_le. cbn in Hxy. now apply Z.leb_le in Hxy.
Qed.

Lemma iaxes_int m k D (b : saabb i32 D) o d : valid_box i32_ops b -> within m (bmin b) o -> within m (bmax b) o -> bounded_by k d ->
  Forall (int_axis m k) (iaxes (bmin b) (bmax b) o d).
Proof.
  unfold valid_box, within, bounded_by, vec_le. destruct b as [bmn bmx]. cbn [bmin bmax].
  induction D as [|D IH]; cbn [axes]; [constructor|]. cbn [vlist]. intros H1 H2 H3 H4.
  inversion H1 as [|? ? ? ? G1 K1]; subst. inversion H2 as [|? ? ? ? G2 K2]; subst. inversion H3 as [|? ? ? ? G3 K3]; subst.
  inversion H4 as [|? ? G4 K4]; subst. constructor; [|now apply IH].
  exists (i32_val (fst bmn) - i32_val (fst o))%Z, (i32_val (fst bmx) - i32_val (fst o))%Z, (i32_val (fst d)).
  unfold i32_real. rewrite <- !minus_IZR. split; [reflexivity|]. cbn in G1. apply Z.leb_le in G1.
  split; [apply Z.sub_le_mono_r, G1|]. auto.
Qed.

(** The direction of a segment. *)
Lemma delta_real D (l : line i32 D) : no_wraps (line_1 l) (line_0 l) ->
  vmap i32_real (line_delta i32_sub l) = vmap2 Rminus (vmap i32_real (line_1 l)) (vmap i32_real (line_0 l)).
Proof.
  destruct l as [a b]. unfold line_delta. cbn [line_0 line_1]. induction D as [|D IH]; [reflexivity|]. cbn [no_wraps vmap vmap2 fst snd].
  intros [H1 H2]. f_equal; [|now apply IH]. unfold i32_real, i32_sub. rewrite i32_of_val, wrap32_small by exact H1. now rewrite minus_IZR.
Qed.
Lemma between_along D (a b : svec R D) t : part_way a b t = along a (vmap2 Rminus b a) t.
Proof. unfold part_way, along. induction D as [|D IH]; [reflexivity|]. cbn [vmap2 fst snd]. now rewrite IH. Qed.

Lemma segment_axes D (l : line i32 D) (b : saabb i32 D) t : no_wraps (line_1 l) (line_0 l) ->
  segment_hits l b t <-> Forall (axis_in t) (iaxes (bmin b) (bmax b) (line_0 l) (line_delta i32_sub l)).
Proof.
  intros H. unfold segment_hits, real_point. rewrite between_along, <- delta_real by exact H. apply in_box_axes.
Qed.

Lemma delta_bounded k D (l : line i32 D) : (k <= 2147483647)%Z -> within k (line_1 l) (line_0 l) -> bounded_by k (line_delta i32_sub l).
Proof.
  intros Hk. destruct l as [a b]. unfold within, bounded_by, line_delta. cbn [line_0 line_1]. induction D as [|D IH]; [constructor|].
  cbn [vlist vmap2 fst snd]. intros H. inversion H as [|? ? ? ? G K]; subst. constructor; [|now apply IH].
  unfold i32_sub. rewrite i32_of_val, wrap32_small; [exact G|]. lia.
Qed.
Lemma within_no_wraps k D (a b : svec i32 D) : (k <= 2147483647)%Z -> within k a b -> no_wraps a b.
Proof.
  intros Hk. unfold within. induction D as [|D IH]; [exact (fun _ => Logic.I)|]. cbn [vlist no_wraps]. intros H.
  inversion H as [|? ? ? ? G K]; subst. split; [unfold no_wrap; lia|now apply IH].
Qed.
Lemma no_wraps_within D (a b : svec i32 D) : no_wraps a b -> within 2147483648 a b.
Proof.
  unfold within. induction D as [|D IH]; [constructor|]. cbn [vlist no_wraps]. intros [H1 H2].
  apply Forall2_cons; [unfold no_wrap in H1; lia|now apply IH].
Qed.

Lemma line_test_i32 D (l : line i32 D) (b : saabb i32 D) : no_wraps (bmin b) (line_0 l) -> no_wraps (bmax b) (line_0 l) ->
  i32_line_test l b = true <->
  exists r, 0 <= r <= 1 /\ Forall (fun a => lo_ok (slab_at rnd a) r /\ hi_ok (slab_at rnd a) r)
                                  (iaxes (bmin b) (bmax b) (line_0 l) (line_delta i32_sub l)).
Proof.
  intros H1 H2. unfold i32_line_test, line_intersects_box. rewrite line_test_ext. apply line_test_axes. now apply i32_exact.
Qed.
Lemma ray_test_i32 D (r : ray i32 (Datatypes.S D)) (b : saabb i32 (Datatypes.S D)) : valid_box i32_ops b ->
  no_wraps (bmin b) (ray_origin r) -> no_wraps (bmax b) (ray_origin r) ->
  i32_ray_test r b = true <->
  (i32_real (fst (ray_n r)) = 0 -> i32_real (fst (bmin b)) < i32_real (fst (ray_origin r)) < i32_real (fst (bmax b))) /\
  exists t t', t < t' /\ Forall (fun a => lo_ok (slab_at rnd a) t /\ hi_ok (slab_at rnd a) t')
                                  (iaxes (bmin b) (bmax b) (ray_origin r) (ray_n r)).
Proof.
  intros Hv H1 H2. unfold i32_ray_test, ray_intersects_box. rewrite ray_test_ext. apply ray_test_axes; [now apply i32_exact|].
  apply valid_real in Hv. cbn [vlist] in Hv. now inversion Hv.
Qed.

(** A larger box is hit if a smaller one is. *)
Definition wider (a a' : axis) : Prop := fst (fst a) <= snd (fst a) /\ fst (fst a') <= fst (fst a) /\ snd (fst a) <= snd (fst a') /\ snd a = snd a'.

Lemma axes_wider D (b k : saabb i32 D) o d : box_incl i32_ops b k -> valid_box i32_ops k ->
  Forall2 wider (iaxes (bmin k) (bmax k) o d) (iaxes (bmin b) (bmax b) o d).
Proof.
  unfold valid_box, box_incl, vec_le. destruct b as [bmn bmx], k as [kmn kmx]. cbn [bmin bmax].
  induction D as [|D IH]; cbn [axes]; [intros; apply Forall2_nil|]. cbn [vlist]. intros [H1 H2] H3.
  inversion H1 as [|? ? ? ? G1 K1]; subst. inversion H2 as [|? ? ? ? G2 K2]; subst. inversion H3 as [|? ? ? ? G3 K3]; subst.
  apply Forall2_cons; [|apply IH; auto]. cbn in G1, G2, G3. apply Z.leb_le, IZR_le in G1, G2, G3. unfold wider, i32_real. cbn [fst snd].
  repeat split; lra.
Qed.

Lemma wider_ok a a' r r' : wider a a' -> lo_ok (slab_at rnd a) r /\ hi_ok (slab_at rnd a) r' -> lo_ok (slab_at rnd a') r /\ hi_ok (slab_at rnd a') r'.
Proof.
  destruct a as [[x y] d], a' as [[x' y'] d']. unfold wider, slab_at. cbn [fst snd]. intros (H1 & H2 & H3 & <-) [H4 H5].
  split; [eapply (lo_wider rnd rnd_le rnd_0 x y)|eapply (hi_wider rnd rnd_le rnd_0 x y)]; eauto.
Qed.
Lemma Forall_wider l l' r r' : Forall2 wider l l' -> Forall (fun a => lo_ok (slab_at rnd a) r /\ hi_ok (slab_at rnd a) r') l ->
  Forall (fun a => lo_ok (slab_at rnd a) r /\ hi_ok (slab_at rnd a) r') l'.
Proof.
  induction 1 as [|a a' l l' Ha H IH]; intros HF; [constructor|]. inversion HF; subst. constructor; [|auto]. eapply wider_ok; eauto.
Qed.

Section Window.
Context {D : nat} (W : saabb i32 D) (HW : narrow W).

(** Everything in the window is close enough to everything else in it. *)
Lemma window_apart n (v u : svec i32 n) (W' : saabb i32 n) : narrow W' -> in_box i32_ops W' v -> in_box i32_ops W' u -> no_wraps v u.
Proof.
  unfold narrow, in_box, vec_le. destruct W' as [a b]. cbn [bmin bmax]. clear. revert v u a b; induction n as [|n IH]; intros v u a b; [exact (fun _ _ _ => Logic.I)|].
  cbn [vlist no_wraps]. intros [H0 H] [H1 H2] [H3 H4].
  inversion H1 as [|? ? ? ? G1 K1]; subst. inversion H2 as [|? ? ? ? G2 K2]; subst. inversion H3 as [|? ? ? ? G3 K3]; subst. inversion H4 as [|? ? ? ? G4 K4]; subst.
  cbn in G1, G2, G3, G4. apply Z.leb_le in G1, G2, G3, G4. split; [|apply (IH (snd v) (snd u) (snd a) (snd b)); auto].
  unfold no_wrap in *. revert G1 G2 G3 G4 H0. clear.
  generalize (i32_val (fst a)) (i32_val (fst b)) (i32_val (fst v)) (i32_val (fst u)). intros; lia.
Qed.

Lemma corners_in (b : saabb i32 D) : box_incl i32_ops W b -> valid_box i32_ops b -> in_box i32_ops W (bmin b) /\ in_box i32_ops W (bmax b).
Proof.
  intros [H1 H2] Hv. unfold in_box, valid_box in *. repeat split; auto; eapply (vec_le_trans i32_ops i32_laws); eauto.
Qed.

Lemma box_apart (b : saabb i32 D) o : box_incl i32_ops W b -> valid_box i32_ops b -> in_box i32_ops W o ->
  no_wraps (bmin b) o /\ no_wraps (bmax b) o.
Proof. intros H Hv Ho. destruct (corners_in b H Hv) as [H1 H2]. split; eapply window_apart; eauto. Qed.

Lemma line_grows (l : line i32 D) b k : in_box i32_ops W (line_0 l) -> box_incl i32_ops W b -> box_incl i32_ops b k -> box_incl i32_ops W k ->
  valid_box i32_ops k -> i32_line_test l k = true -> i32_line_test l b = true.
Proof.
  intros H0 Hb Hbk Hk Hv Ht. destruct (box_apart k _ Hk Hv H0) as [K1 K2].
  destruct (box_apart b _ Hb (valid_incl _ _ _ Hbk Hv) H0) as [B1 B2].
  apply (line_test_i32 D l k K1 K2) in Ht. apply (line_test_i32 D l b B1 B2). destruct Ht as (r & Hr & HF). exists r. split; [exact Hr|].
  eapply Forall_wider; [|exact HF]. now apply axes_wider.
Qed.

(** Past the end of the segment. *)
Lemma quo_above_1 x d : (Z.abs x <= 2147483648)%Z -> (1 <= Z.abs d <= 2147483648)%Z -> 1 < IZR x / IZR d -> 1 < quo rnd (IZR x) (IZR d).
Proof.
  intros Hx Hd Hlt. destruct u53_val as [Hu Eu].
  apply (order_unit 1 (IZR x / IZR d)); [| |..]; try lra.
  - rewrite Rminus_diag_eq, Rabs_R0 by reflexivity. rewrite Rabs_R1. lra.
  - apply quo_err; assumption.
  - assert (G := quo_gap 1 1 x d ltac:(lia) ltac:(lia) ltac:(lra)). assert (E : IZR 1 / IZR 1 = 1) by lra. rewrite E in G.
    rewrite Rabs_R1, Rmult_1_l in G.
    assert (P : Rabs (IZR d) <= 2147483648) by (rewrite <- abs_IZR; apply IZR_le; lia).
    assert (Q : 0 <= IZR x / IZR d - 1) by lra. assert (M := Rmult_le_compat_l _ _ _ Q P). lra.
Qed.
Lemma quo_below_0 x d : (Z.abs x <= 2147483648)%Z -> (1 <= Z.abs d <= 2147483648)%Z -> IZR x / IZR d < 0 -> quo rnd (IZR x) (IZR d) < 0.
Proof. intros Hx Hd Hlt. apply (close_sign _ _ (quo_err x d Hx Hd)). exact Hlt. Qed.

Lemma quo_cases x d : (d <> 0)%Z -> (IZR x / IZR d) * IZR d = IZR x.
Proof. intros H. field. now apply IZR_neq. Qed.

(** One dimension of a hit: the box and the extent of the segment meet. *)
Lemma axis_meets x y d r : (x <= y)%Z -> (Z.abs x <= 2147483648)%Z -> (Z.abs y <= 2147483648)%Z -> (Z.abs d <= 2147483648)%Z ->
  0 <= r <= 1 -> lo_ok (slab_at rnd (IZR x, IZR y, IZR d)) r -> hi_ok (slab_at rnd (IZR x, IZR y, IZR d)) r ->
  (x <= Z.max 0 d)%Z /\ (Z.min 0 d <= y)%Z.
Proof.
  intros Hxy Hx Hy Hd Hr H1 H2. assert (Hv : IZR x <= IZR y) by (now apply IZR_le).
  destruct (Z.eq_dec d 0) as [->|Hd0].
  - rewrite (lo_flat rnd) in H1 by (cbn; auto). rewrite (hi_flat rnd) in H2 by (cbn; auto). cbn in H1, H2. apply le_IZR in H1, H2. lia.
  - assert (Hr0 : IZR d <> 0) by (now apply IZR_neq).
    rewrite (lo_low rnd rnd_le rnd_0) in H1 by (cbn; auto). rewrite (hi_high rnd rnd_le rnd_0) in H2 by (cbn; auto).
    unfold low, high in *. cbn [fst snd] in *. destruct (Rlt_bool_spec 0 (IZR d)) as [Hp|Hp].
    + assert (Hpz : (0 < d)%Z) by (now apply lt_IZR). rewrite Z.max_r, Z.min_l by lia. split; apply le_IZR, Rnot_lt_le; intros Hlt.
      * assert (K := quo_above_1 x d Hx ltac:(lia)). assert (E := quo_cases x d Hd0).
        assert (1 < IZR x / IZR d) by (apply Rnot_le_lt; intros Hc; nra). specialize (K H). lra.
      * assert (K := quo_below_0 y d Hy ltac:(lia)). assert (E := quo_cases y d Hd0).
        assert (IZR y / IZR d < 0) by (apply Rnot_le_lt; intros Hc; nra). specialize (K H). lra.
    + assert (Hpz : (d < 0)%Z) by (apply lt_IZR; lra). rewrite Z.max_l, Z.min_r by lia. assert (Hn : IZR d < 0) by (now apply IZR_lt). split; apply le_IZR, Rnot_lt_le; intros Hlt.
      * assert (K := quo_below_0 x d Hx ltac:(lia)). assert (E := quo_cases x d Hd0).
        assert (IZR x / IZR d < 0) by (apply Rnot_le_lt; intros Hc; nra). specialize (K H). lra.
      * assert (K := quo_above_1 y d Hy ltac:(lia)). assert (E := quo_cases y d Hd0).
        assert (1 < IZR y / IZR d) by (apply Rnot_le_lt; intros Hc; nra). specialize (K H). lra.
Qed.
End Window.

Lemma s_min_le (p q m : i32) : (Z.min 0 (i32_val q - i32_val p) <= i32_val m - i32_val p)%Z -> s_le i32_ops (s_min i32_ops p q) m = true.
Proof.
  intros H. unfold s_min. cbn [s_le i32_ops]. destruct (Z.leb_spec (i32_val p) (i32_val q)) as [L|L]; apply Z.leb_le;
    revert H L; generalize (i32_val p) (i32_val q) (i32_val m); intros; lia.
Qed.
Lemma s_max_ge (p q m : i32) : (i32_val m - i32_val p <= Z.max 0 (i32_val q - i32_val p))%Z -> s_le i32_ops m (s_max i32_ops p q) = true.
Proof.
  intros H. unfold s_max. cbn [s_le i32_ops]. destruct (Z.leb_spec (i32_val p) (i32_val q)) as [L|L]; apply Z.leb_le;
    revert H L; generalize (i32_val p) (i32_val q) (i32_val m); intros; lia.
Qed.

(** A segment whose test succeeds has bounds that meet the box. *)
Lemma line_in_bounds n (l : line i32 n) (b : saabb i32 n) : no_wraps (line_1 l) (line_0 l) -> no_wraps (bmin b) (line_0 l) -> no_wraps (bmax b) (line_0 l) ->
  valid_box i32_ops b -> i32_line_test l b = true -> box_intersects_box i32_ops (line_bounds i32_ops l) b = true.
Proof.
  intros H0 H1 H2 Hv Ht. apply (line_test_i32 n l b H1 H2) in Ht. destruct Ht as (r & Hr & HF).
  apply (intersects_box_iff i32_ops). unfold valid_box, vec_le in *. destruct l as [p q], b as [bmn bmx]. unfold line_bounds, line_delta in *. cbn [line_0 line_1 bmin bmax] in *.
  induction n as [|n IH]; [split; apply Forall2_nil|]. cbn [no_wraps vlist axes cw_min cw_max vmap2 fst snd] in *.
  destruct H0 as [N0 H0], H1 as [N1 H1], H2 as [N2 H2]. inversion Hv as [|? ? ? ? G1 K1]; subst. inversion HF as [|? ? [F1 F2] F3]; subst.
  destruct (IH (snd p) (snd q) (snd bmn) (snd bmx) H0 H1 H2 K1 F3) as [I1 I2]. clear IH.
  assert (E : i32_real (i32_sub (fst q) (fst p)) = IZR (i32_val (fst q) - i32_val (fst p))).
  { unfold i32_real, i32_sub. now rewrite i32_of_val, wrap32_small by exact N0. }
  rewrite E in F1, F2. unfold i32_real in F1, F2. rewrite <- !minus_IZR in F1, F2. cbn in G1. apply Z.leb_le in G1.
  assert (M : (i32_val (fst bmn) - i32_val (fst p) <= Z.max 0 (i32_val (fst q) - i32_val (fst p)))%Z /\
              (Z.min 0 (i32_val (fst q) - i32_val (fst p)) <= i32_val (fst bmx) - i32_val (fst p))%Z).
  { unfold no_wrap in *. eapply (axis_meets _ _ _ r); [apply Z.sub_le_mono_r, G1|apply Z.abs_le; lia|apply Z.abs_le; lia|apply Z.abs_le; lia|exact Hr|exact F1|exact F2]. }
  destruct M as [M1 M2]. split; (apply Forall2_cons; [|assumption]).
  - now apply s_min_le.
  - now apply s_max_ge.
Qed.

Section Queries.
Context {D : nat} (W : saabb i32 D) (HW : narrow W) (VO : VolumeOps (saabb i32 D)).
Notation P := (box_params i32_ops VO).
Notation okW := (fun k => valid_box i32_ops k /\ box_incl i32_ops W k).

Lemma line_lawful (l : line i32 D) : in_box i32_ops W (line_0 l) ->
  filter_lawful P (fun k => k) (incl_in i32_ops W) okW (test_bounds (i32_line_filter l)) (test_key (i32_line_filter l)).
Proof.
  intros H0 b k [Vk Wk] Hk [I0 W0]. cbn [i32_line_filter intersects_filter test_bounds test_key key_bounds box_params] in *.
  eapply (line_grows W HW); eauto.
Qed.
Lemma bounded_line_lawful (l : line i32 D) : in_box i32_ops W (line_0 l) -> in_box i32_ops W (line_1 l) ->
  filter_lawful P (fun k => k) (incl_in i32_ops W) okW (test_bounds (i32_bounded_line_filter l)) (test_key (i32_bounded_line_filter l)).
Proof.
  intros H0 H1 b k [Vk Wk] Hk [I0 W0].
  cbn [i32_bounded_line_filter bounded_intersects_filter test_bounds test_key key_bounds box_params b_intersects box_bounds_ops] in *.
  destruct (box_apart W HW k _ Wk Vk H0) as [K1 K2]. assert (K3 := window_apart _ _ _ W HW H1 H0).
  assert (Hm := line_in_bounds D l k K3 K1 K2 Vk Hk). apply (intersects_box_iff i32_ops) in Hm. apply (intersects_box_iff i32_ops).
  destruct Hm as [M1 M2], I0 as [I1 I2]. split; eapply (vec_le_trans i32_ops i32_laws); eauto.
Qed.
End Queries.

Lemma ray_grows D (W : saabb i32 (Datatypes.S D)) (r : ray i32 (Datatypes.S D)) b k : narrow W -> in_box i32_ops W (ray_origin r) ->
  box_incl i32_ops W b -> box_incl i32_ops b k -> box_incl i32_ops W k ->
  valid_box i32_ops k -> i32_ray_test r k = true -> i32_ray_test r b = true.
Proof.
  intros HW H0 Hb Hbk Hk Hv Ht. destruct (box_apart W HW k _ Hk Hv H0) as [K1 K2]. assert (Hvb := valid_incl _ _ _ Hbk Hv).
  destruct (box_apart W HW b _ Hb Hvb H0) as [B1 B2].
  apply (ray_test_i32 D r k Hv K1 K2) in Ht. apply (ray_test_i32 D r b Hvb B1 B2). destruct Ht as (Hz & t & t' & Hr & HF). split.
  - intros E. specialize (Hz E). destruct Hbk as [G1 G2]. unfold vec_le in G1, G2. cbn [vlist] in G1, G2. inversion G1; inversion G2; subst.
    cbn in *. match goal with H : (_ <=? _)%Z = true, H' : (_ <=? _)%Z = true |- _ => apply Z.leb_le, IZR_le in H, H' end.
    unfold i32_real in *. lra.
  - exists t, t'. split; [exact Hr|]. eapply Forall_wider; [|exact HF]. now apply axes_wider.
Qed.
Lemma ray_lawful D (W : saabb i32 (Datatypes.S D)) VO (r : ray i32 (Datatypes.S D)) : narrow W -> in_box i32_ops W (ray_origin r) ->
  filter_lawful (box_params i32_ops VO) (fun k => k) (incl_in i32_ops W) (fun k => valid_box i32_ops k /\ box_incl i32_ops W k)
    (test_bounds (i32_ray_filter r)) (test_key (i32_ray_filter r)).
Proof.
  intros HW H0 b k [Vk Wk] Hk [I0 W0]. cbn [i32_ray_filter intersects_filter test_bounds test_key key_bounds box_params] in *.
  eapply (ray_grows D W); eauto.
Qed.
