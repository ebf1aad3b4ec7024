(** C42, C44, C81 for boxes of floats ([N32], [N64]) in the window of C82, where no volume is NaN. *)
From Coq Require Import Reals Lra Floats.SpecFloat.
From Flocq Require Import Core BinarySingleNaN.
From Verif Require Import Witness FpCheckProof VolLaws VolExt PropFp PropFpCheck PropSplit.

Local Existing Instance FloatReal.Hprec.
Local Existing Instance FloatReal.Hmax.

(** A finite float, or zero in place of everything else. *)
Definition finite_or_zero (x : f64) : f64 := if is_finite_SF x && valid_binary 53 1024 x then x else S754_zero false.
Lemma finite_or_zero_rep x : exists r, rep (finite_or_zero x) r.
Proof.
  unfold finite_or_zero. destruct (is_finite_SF x && valid_binary 53 1024 x) eqn:E.
  - apply andb_prop in E as [E1 E2]. exists (B2R (SF2B x E2 : binary_float 53 1024)), (SF2B x E2). split; [apply B2SF_SF2B|]. split; [|reflexivity].
    rewrite is_finite_SF2B. exact E1.
  - exists 0%R, (B754_zero false). split; [reflexivity|]. split; reflexivity.
Qed.
Lemma finite_or_zero_id x r : rep x r -> finite_or_zero x = x.
Proof.
  intros (b & <- & Hb & _). unfold finite_or_zero. rewrite valid_binary_B2SF. now rewrite is_finite_SF_B2SF, Hb.
Qed.

Lemma Forall_vmin {N} (S : ScalarOps N) (Q : N -> Prop) D (x y : svec N D) :
  Forall Q (vlist x) -> Forall Q (vlist y) -> Forall Q (vlist (cw_min S x y)).
Proof.
  unfold cw_min. induction D as [|D IH]; [constructor|]. destruct x as [x1 x], y as [y1 y]. cbn [vmap2 vlist fst snd]. intros Hx Hy.
  inversion Hx; subst. inversion Hy; subst. constructor; [|now apply IH]. unfold s_min. now destruct (s_le S x1 y1).
Qed.
Lemma Forall_vmax {N} (S : ScalarOps N) (Q : N -> Prop) D (x y : svec N D) :
  Forall Q (vlist x) -> Forall Q (vlist y) -> Forall Q (vlist (cw_max S x y)).
Proof.
  unfold cw_max. induction D as [|D IH]; [constructor|]. destruct x as [x1 x], y as [y1 y]. cbn [vmap2 vlist fst snd]. intros Hx Hy.
  inversion Hx; subst. inversion Hy; subst. constructor; [|now apply IH]. unfold s_max. now destruct (s_le S x1 y1).
Qed.

Section Floats.
Context (p e : Z) (Hf : fp_format p e) (Hp : (p <= 53)%Z) (He : (e <= 1024)%Z) (k : nat) (Hk : (Z.of_nat k + 1 < e)%Z).
Context (D : nat) (HD : 1 <= D) (HkD : (k + 1) * D <= 1023).
Notation box := (saabb (nf p e) D).

Lemma float_total {K} (P : Params box K) : bops P = box_bounds_ops (nf_ops p e) -> vops P = nf_volume_ops p e D ->
  exists vol, volume_laws (vops (with_volume P vol)) /\
    (forall b, n64_cmp (vops P) (n64_neg_inf (vops P)) (vol b) = Lt) /\
    (forall b, small_box k b -> vol b = volume (vops P) b) /\
    (forall a b, small_box k a -> small_box k b -> small_box k (b_union (bops P) a b)).
Proof.
  destruct P as [bo vo kb ke]. cbn [bops vops]. intros -> ->.
  exists (fun b => finite_or_zero (nf_volume p e b)).
  assert (Hrep : forall b : box, exists r, rep (finite_or_zero (nf_volume p e b)) r) by (intros; apply finite_or_zero_rep).
  split; [exact (finite_volume_laws _ Hrep)|]. split; [exact (finite_neg_inf _ Hrep)|]. split.
  - intros b Hb. destruct (small_volume p e Hf Hp He k Hk D b HD ltac:(nia) (small_box_set p e k D b Hb)) as [_ [r Hr]].
    exact (finite_or_zero_id _ _ Hr).
  - intros a b [Ha1 Ha2] [Hb1 Hb2]. unfold small_point in *. cbn [box_bounds_ops b_union box_union]. split; cbn [bmin bmax box_union].
    + now apply Forall_vmin.
    + now apply Forall_vmax.
Qed.
End Floats.

(** ** C42: the child that needs least enlargement *)
Theorem C42_floats :
  forall (p e : Z) (k D : nat) (K : Type) (P : Params (saabb (nf p e) D) K) (bs : list (saabb (nf p e) D)) (eb : saabb (nf p e) D),
  fp_format p e -> (p <= 53)%Z -> (e <= 1024)%Z -> (Z.of_nat k + 1 < e)%Z -> 1 <= D -> (k + 1) * D <= 1023 ->
  bops P = box_bounds_ops (nf_ops p e) -> vops P = nf_volume_ops p e D ->
  Forall (small_box k) bs -> small_box k eb -> bs <> [] ->
  exists i, select P bs eb = Some i /\ least_enlargement P bs eb i.
Proof.
  intros * Hf Hp He Hk HD HkD Eb Ev Hbs Heb Hne. destruct (float_total p e Hf Hp He k Hk D HD HkD P Eb Ev) as (vol & VL & _ & Gv & Gu).
  destruct (select_spec P bs eb Hne) as (i & Es & _). exists i. split; [exact Es|].
  apply (ext_least P vol (small_box k) Gv Gu); auto. apply (select_least (with_volume P vol) VL).
  now rewrite (ext_select P vol (small_box k) Gv Gu).
Qed.
Print Assumptions C42_floats.

(** ** C44: the seeds start the groups of a split *)
Theorem C44_floats_partial :
  forall (p e : Z) (k D : nat) (K T : Type) (P : Params (saabb (nf p e) D) K) (bnd : T -> saabb (nf p e) D) (cap min : nat) (values : list T) (ov : T) b1 b2 g1 g2,
  fp_format p e -> (p <= 53)%Z -> (e <= 1024)%Z -> (Z.of_nat k + 1 < e)%Z -> 1 <= D -> (k + 1) * D <= 1023 ->
  bops P = box_bounds_ops (nf_ops p e) -> vops P = nf_volume_ops p e D ->
  Forall (fun x => small_box k (bnd x)) values -> small_box k (bnd ov) ->
  length values = cap -> split P bnd cap min values ov = Ok (b1, b2, g1, g2) ->
  exists i j s1 s2 m, i < j /\ nth_error (values ++ [ov]) i = Some s1 /\ nth_error (values ++ [ov]) j = Some s2 /\
    hd_error g1 = Some s1 /\ hd_error g2 = Some s2 /\ seed_volume P bnd values ov i j = Some m /\
    forall i' j' m', i' < j' -> seed_volume P bnd values ov i' j' = Some m' -> n64_cmp (vops P) m' m <> Gt.
Proof.
  intros * Hf Hp He Hk HD HkD Eb Ev Hvs Hov Hlen E. destruct (float_total p e Hf Hp He k Hk D HD HkD P Eb Ev) as (vol & VL & Hinf & Gv & Gu).
  rewrite <- (ext_split P vol (small_box k) Gv Gu) in E by assumption.
  destruct (C44_groups_partial _ _ _ (with_volume P vol) bnd cap min values ov b1 b2 g1 g2 VL Hinf Hlen E) as (i & j & s1 & s2 & m & H1 & H2 & H3 & H4 & H5 & H6 & H7).
  exists i, j, s1, s2, m. repeat (split; [assumption|]). rewrite (ext_seed_volume P vol (small_box k) Gv Gu) in H6 by assumption. split; [exact H6|].
  intros i' j' m' Hij Hm. apply (H7 i' j' m' Hij). now rewrite (ext_seed_volume P vol (small_box k) Gv Gu).
Qed.
Print Assumptions C44_floats_partial.

(** ** C81: the distribution of the elements *)
Theorem C81_floats_partial :
  forall (p e : Z) (k D : nat) (K T : Type) (P : Params (saabb (nf p e) D) K) (bnd : T -> saabb (nf p e) D) (cap min : nat) (values : list T) (ov : T) r,
  fp_format p e -> (p <= 53)%Z -> (e <= 1024)%Z -> (Z.of_nat k + 1 < e)%Z -> 1 <= D -> (k + 1) * D <= 1023 ->
  bops P = box_bounds_ops (nf_ops p e) -> vops P = nf_volume_ops p e D ->
  Forall (fun x => small_box k (bnd x)) values -> small_box k (bnd ov) ->
  2 * min <= cap -> length values = cap -> split P bnd cap min values ov = Ok r ->
  split_result P bnd (fun n => n <= min + 1) (fun n => n <= min) values ov r.
Proof.
  intros * Hf Hp He Hk HD HkD Eb Ev Hvs Hov Hc Hlen E. destruct (float_total p e Hf Hp He k Hk D HD HkD P Eb Ev) as (vol & VL & _ & Gv & Gu).
  rewrite <- (ext_split P vol (small_box k) Gv Gu) in E by assumption.
  apply (ext_split_result P vol (small_box k) Gv Gu); auto. exact (C81_partial _ _ _ (with_volume P vol) bnd cap min values ov r VL Hc Hlen E).
Qed.
Print Assumptions C81_floats_partial.

(** *** The hypotheses are met: splitting four points of the plane with coordinates between -16 and 16. *)
Definition C81_fpoints : list (svec n64 2) := [fp (fz 0) (fz 0); fp (fz 16) (fz (-3)); fp (fz 1) (fz 1); fp (fz 15) (fz 7)].
Definition C81_fcheck (o : res (saabb n64 2 * saabb n64 2 * list (svec n64 2) * list (svec n64 2))) : nat * nat :=
  match o with Ok (_, _, g1, g2) => (length g1, length g2) | _ => (0, 0) end.
Lemma small16_point (a : svec n64 2) :
  forallb (fun x => s_le (nf_ops 53 1024) x (fz 16) && s_le (nf_ops 53 1024) (fz (-16)) x) (vlist a) = true -> small_box 4 (point_bounds a).
Proof.
  intros H. assert (Ha : small_point 4 a).
  { apply Forall_forall. intros x Hx. apply (proj1 (forallb_forall _ _)) with (x := x) in H; [|exact Hx].
    apply andb_prop in H as [H1 H2]. apply (nf_le 53 1024) in H1, H2. destruct fz16 as [E1 E2]. rewrite E1 in H1. rewrite E2 in H2.
    unfold small_coord. destruct (nf_value x) as [|r|]; cbn in H1, H2; try contradiction. exists r. split; [reflexivity|lra]. }
  split; exact Ha.
Qed.
Example C81_floats_example :
  Forall (fun x => small_box 4 (point_bounds x)) (fp (fz 14) (fz 9) :: C81_fpoints) /\
  C81_fcheck (split (nf_point_params 53 1024 2) point_bounds 4 2 C81_fpoints (fp (fz 14) (fz 9))) = (3, 2).
Proof. split; [|vm_compute; reflexivity]. repeat (apply Forall_cons; [apply small16_point; vm_compute; reflexivity|]). apply Forall_nil. Qed.
