(** Segments and rays with floating-point coordinates: proofs. *)
From Coq Require Import Lra.
From Flocq Require Import Core Relative BinarySingleNaN.
From Verif Require Import FpSegModel FpSegSpec FpDist FpSphereProof IterProof SegFloat SegQuery.
From Coq Require Import Floats.SpecFloat.
Local Open Scope R_scope.

(** *** Doubles as numbers with infinities *)
Notation bf64 := (binary_float 53 1024).
Local Instance gHp : FLX.Prec_gt_0 53 := eq_refl.
Local Instance gHe : Prec_lt_emax 53 1024 := eq_refl.

Definition evb (b : bf64) : ext :=
  match b with B754_nan => ENaN | B754_infinity s => EInf s | b => EFin (B2R b) end.
Lemma repx_evb b : repx (B2SF b) (evb b).
Proof. destruct b as [s|s| |s m ex H]; cbn [evb repx]; try reflexivity; eexists; repeat split. Qed.
Lemma evb_fin b : is_finite b = true -> evb b = EFin (B2R b).
Proof. destruct b; (discriminate || reflexivity). Qed.

(** A rounded number, with overflow. *)
Definition ovf (r : R) : ext := if Rlt_bool (Rabs (rnd r)) maxf then EFin (rnd r) else EInf (Rlt_bool r 0).
Definition e_times (x y : ext) : ext :=
  match x, y with
  | ENaN, _ | _, ENaN => ENaN
  | EInf s, EInf s' => EInf (xorb s s')
  | EInf s, EFin a | EFin a, EInf s => e_scale a s
  | EFin a, EFin b => ovf (a * b)
  end.

Lemma fin_sign s m ex (H : SpecFloat.bounded 53 1024 m ex = true) : Rcompare (B2R (B754_finite s m ex H)) 0 = if s then Lt else Gt.
Proof.
  cbn [B2R]. destruct s; cbn [cond_Zopp].
  - apply Rcompare_Lt. apply F2R_lt_0. reflexivity.
  - apply Rcompare_Gt. apply F2R_gt_0. reflexivity.
Qed.

Lemma ovf_0 : ovf 0 = EFin 0.
Proof. unfold ovf. rewrite rnd_0, Rabs_R0, Rlt_bool_true; [reflexivity|]. apply bpow_gt_0. Qed.

Lemma evb_mul (x y : bf64) : evb (Bmult mode_NE x y) = e_times (evb x) (evb y).
Proof.
  destruct x as [sx|sx| |sx mx ex Bx] eqn:Ex; destruct y as [sy|sy| |sy my ey By] eqn:Ey; try reflexivity;
    try (cbn; rewrite ?Rmult_0_l, ?Rmult_0_r, ?ovf_0; unfold e_scale; rewrite ?Rcompare_Eq by reflexivity; reflexivity).
  - cbn [evb e_times]. unfold e_scale. rewrite fin_sign. destruct sx, sy; reflexivity.
  - cbn [evb e_times]. unfold e_scale. rewrite fin_sign. destruct sx, sy; reflexivity.
  - rewrite <- Ex, <- Ey. assert (H := Bmult_correct 53 1024 _ _ mode_NE x y).
    cbn [round_mode] in H. change (round radix2 (SpecFloat.fexp 53 1024) ZnearestE ?z) with (rnd z) in H. change (bpow radix2 1024) with maxf in H.
    rewrite (evb_fin x), (evb_fin y) by (subst; reflexivity). cbn [e_times]. unfold ovf. destruct (Rlt_bool (Rabs (rnd _)) maxf) eqn:C.
    + destruct H as (H1 & H2 & _). rewrite evb_fin, H1; [reflexivity|]. rewrite H2. subst; reflexivity.
    + rewrite <- (SF2B_B2SF 53 1024 (Bmult mode_NE x y) (valid_binary_B2SF 53 1024 _)). 
      assert (E : forall v Hv, v = S754_infinity (xorb (Bsign x) (Bsign y)) -> evb (SF2B v Hv) = EInf (xorb (Bsign x) (Bsign y))) by (intros v Hv ->; reflexivity).
      rewrite (E _ _ H). f_equal. subst x y. cbn [Bsign].
      assert (S1 := fin_sign sx mx ex Bx). assert (S2 := fin_sign sy my ey By). 
      set (a := B2R (B754_finite sx mx ex Bx)) in *. set (b := B2R (B754_finite sy my ey By)) in *.
      destruct (Rcompare_spec a 0), (Rcompare_spec b 0), sx, sy; try discriminate; cbn [xorb];
        (rewrite Rlt_bool_true by nra; reflexivity) || (rewrite Rlt_bool_false by nra; reflexivity).
Qed.

(** *** Order *)
Definition ele (x y : ext) : Prop :=
  match x, y with
  | ENaN, _ | _, ENaN => False
  | EInf true, _ | _, EInf false => True
  | EFin a, EFin b => a <= b
  | _, _ => False
  end.
Lemma ele_trans x y z : ele x y -> ele y z -> ele x z.
Proof. destruct x as [|[]|x], y as [|[]|y], z as [|[]|z]; cbn; try tauto; lra. Qed.
Lemma ele_num x y : ele x y -> is_num x /\ is_num y.
Proof. destruct x as [|[]|x], y as [|[]|y]; cbn; tauto. Qed.

Lemma below_ele x y r : ele x y -> below y r -> below x r.
Proof. destruct x as [|[]|x], y as [|[]|y]; cbn; try tauto; try discriminate; lra. Qed.
Lemma above_ele x y r : ele x y -> above x r -> above y r.
Proof. destruct x as [|[]|x], y as [|[]|y]; cbn; try tauto; try discriminate; lra. Qed.

Lemma lo_pair x y r : ele x y -> lo_ok (x, y) r <-> below x r.
Proof.
  intros H. destruct (ele_num _ _ H). unfold lo_ok. cbn [fst snd]. assert (K := below_ele x y r H).
  destruct x, y; cbn [is_num] in *; try contradiction; intuition discriminate.
Qed.
Lemma hi_pair x y r : ele x y -> hi_ok (x, y) r <-> above y r.
Proof.
  intros H. destruct (ele_num _ _ H). unfold hi_ok. cbn [fst snd]. assert (K := above_ele x y r H).
  destruct x, y; cbn [is_num] in *; try contradiction; intuition discriminate.
Qed.
Lemma lo_swap x y r : lo_ok (x, y) r <-> lo_ok (y, x) r.
Proof. unfold lo_ok. cbn. tauto. Qed.
Lemma hi_swap x y r : hi_ok (x, y) r <-> hi_ok (y, x) r.
Proof. unfold hi_ok. cbn. tauto. Qed.

Lemma ovf_le a b : a <= b -> ele (ovf a) (ovf b).
Proof.
  intros H. assert (K := rnd_le a b H). unfold ovf. assert (M : 0 < maxf) by apply bpow_gt_0.
  destruct (Rlt_bool_spec (Rabs (rnd a)) maxf) as [A|A], (Rlt_bool_spec (Rabs (rnd b)) maxf) as [B|B]; cbn [ele].
  - exact K.
  - destruct (Rlt_bool_spec b 0) as [B'|B']; [|exact Logic.I]. exfalso. assert (K' := rnd_le b 0 ltac:(lra)). rewrite rnd_0 in K'.
    rewrite Rabs_left1 in B by exact K'. apply Rabs_lt_inv in A. lra.
  - destruct (Rlt_bool_spec a 0) as [A'|A']; [exact Logic.I|]. exfalso. assert (K' := rnd_le 0 a ltac:(lra)). rewrite rnd_0 in K'.
    rewrite Rabs_pos_eq in A by exact K'. apply Rabs_lt_inv in B. lra.
  - destruct (Rlt_bool_spec a 0) as [A'|A'], (Rlt_bool_spec b 0) as [B'|B']; try exact Logic.I. exfalso. lra.
Qed.
Lemma ovf_num a : is_num (ovf a).
Proof. unfold ovf. destruct (Rlt_bool _ _); exact Logic.I. Qed.

Lemma times_pos b x y : 0 < b -> ele x y -> ele (e_times x (EFin b)) (e_times y (EFin b)).
Proof.
  intros Hb. assert (E : Rcompare b 0 = Gt) by (now apply Rcompare_Gt).
  destruct x as [|[]|x], y as [|[]|y]; cbn [e_times]; unfold e_scale; rewrite ?E; try tauto; try (intros []; fail).
  - assert (K := ovf_num (y * b)). destruct (ovf (y * b)); [destruct K|exact (fun _ => Logic.I)..].
  - assert (K := ovf_num (x * b)). destruct (ovf (x * b)) as [|[]|]; [destruct K|exact (fun _ => Logic.I)..].
  - intros H. apply ovf_le. cbn in H. nra.
Qed.
Lemma times_neg b x y : b < 0 -> ele x y -> ele (e_times y (EFin b)) (e_times x (EFin b)).
Proof.
  intros Hb. assert (E : Rcompare b 0 = Lt) by (now apply Rcompare_Lt).
  destruct x as [|[]|x], y as [|[]|y]; cbn [e_times]; unfold e_scale; rewrite ?E; cbn [negb]; try tauto; try (intros []; fail).
  - assert (K := ovf_num (y * b)). destruct (ovf (y * b)) as [|[]|]; [destruct K|exact (fun _ => Logic.I)..].
  - assert (K := ovf_num (x * b)). destruct (ovf (x * b)) as [|[]|]; [destruct K|exact (fun _ => Logic.I)..].
  - intros H. apply ovf_le. cbn in H. nra.
Qed.

(** One dimension: the pair of parameters for the offsets [x <= y] and the inverse direction [i]. *)
Lemma Forall_and_iff {A} (P Q : A -> Prop) l : Forall (fun x => P x /\ Q x) l <-> Forall P l /\ Forall Q l.
Proof. rewrite !Forall_forall. firstorder. Qed.
Definition pair_of (x y i : ext) : ext * ext := (e_times x i, e_times y i).

Lemma pair_inf s x y r r' : ele x y -> lo_ok (pair_of x y (EInf s)) r /\ hi_ok (pair_of x y (EInf s)) r' <-> ele x (EFin 0) /\ ele (EFin 0) y.
Proof.
  intros H. unfold pair_of, lo_ok, hi_ok. cbn [fst snd].
  destruct x as [|[]|x], y as [|[]|y]; cbn in H; try contradiction; cbn [e_times ele]; unfold e_scale;
    try (destruct (Rcompare_spec x 0)); try (destruct (Rcompare_spec y 0)); destruct s; cbn [below above negb xorb];
    intuition (try discriminate; try congruence; try lra).
Qed.
(** A wider box allows more. *)
Lemma pair_wider i x y x' y' r r' : ele x y -> ele x' x -> ele y y' ->
  lo_ok (pair_of x y i) r /\ hi_ok (pair_of x y i) r' -> lo_ok (pair_of x' y' i) r /\ hi_ok (pair_of x' y' i) r'.
Proof.
  intros Hxy Hx Hy. assert (Hxy' : ele x' y') by (eapply ele_trans; [|exact Hy]; eapply ele_trans; eassumption).
  destruct i as [|s|b].
  - intros _. unfold pair_of. assert (E : forall z, e_times z ENaN = ENaN) by (intros [|[]|]; reflexivity). rewrite !E. split; now left.
  - rewrite !pair_inf by assumption. intros [H1 H2]. split; [exact (ele_trans _ _ _ Hx H1)|exact (ele_trans _ _ _ H2 Hy)].
  - unfold pair_of. destruct (Rtotal_order b 0) as [Hb|[->|Hb]].
    + intros [H1 H2]. apply lo_swap in H1. apply hi_swap in H2. rewrite lo_swap, hi_swap.
      rewrite lo_pair in * by (now apply times_neg). rewrite hi_pair in * by (now apply times_neg).
      split; [eapply below_ele; [|exact H1]|eapply above_ele; [|exact H2]]; now apply times_neg.
    + assert (E : forall s, e_scale 0 s = ENaN) by (intros s; unfold e_scale; now rewrite Rcompare_Eq).
      destruct x' as [|s|x']; [destruct x as [|[]|]; contradiction|intros _; cbn [e_times]; rewrite E; split; now left|].
      destruct y' as [|s|y']; [destruct y as [|[]|]; contradiction|intros _; cbn [e_times]; rewrite E; split; right; now left|].
      destruct x as [|[]|x]; try contradiction; destruct y as [|[]|y]; try contradiction; cbn [e_times]; rewrite !Rmult_0_r; auto.
    + rewrite !lo_pair, !hi_pair by (now apply times_pos).
      intros [H1 H2]. split; [eapply below_ele; [|exact H1]|eapply above_ele; [|exact H2]]; now apply times_pos.
Qed.
(** The first dimension of a ray must be a proper interval. *)
Lemma pair_wider_num i x y x' y' r r' : ele x y -> ele x' x -> ele y y' -> r < r' ->
  lo_ok (pair_of x y i) r /\ hi_ok (pair_of x y i) r' -> is_num (fst (pair_of x y i)) -> is_num (snd (pair_of x y i)) ->
  is_num (fst (pair_of x' y' i)) /\ is_num (snd (pair_of x' y' i)).
Proof.
  intros Hxy Hx Hy Hr H N1 N2. assert (Hxy' : ele x' y') by (eapply ele_trans; [|exact Hy]; eapply ele_trans; eassumption).
  unfold pair_of in *. cbn [fst snd] in *.
  destruct i as [|s|b].
  - destruct x as [|[]|]; destruct N1.
  - apply (pair_inf s x y r r' Hxy) in H as [H1 H2].
    assert (K : forall z, is_num (e_times z (EInf s)) -> ele z (EFin 0) -> forall z', ele z' z -> is_num (e_times z' (EInf s))).
    { intros z. destruct z as [|[]|z]; cbn [e_times ele]; try tauto; unfold e_scale.
      - intros _ _ [|[]|z']; cbn [ele]; try tauto.
      - destruct (Rcompare_spec z 0); try (intros []; fail); [|intros; lra]. intros _ _ [|[]|z']; cbn [ele e_times is_num]; try tauto.
        intros Hz. unfold e_scale. rewrite Rcompare_Lt by lra. exact Logic.I. }
    assert (K' : forall z, is_num (e_times z (EInf s)) -> ele (EFin 0) z -> forall z', ele z z' -> is_num (e_times z' (EInf s))).
    { intros z. destruct z as [|[]|z]; cbn [e_times ele]; try tauto; unfold e_scale.
      - intros _ _ [|[]|z']; cbn [ele]; try tauto.
      - destruct (Rcompare_spec z 0); try (intros []; fail); [intros; lra|]. intros _ _ [|[]|z']; cbn [ele e_times is_num]; try tauto.
        intros Hz. unfold e_scale. rewrite Rcompare_Gt by lra. exact Logic.I. }
    split; [exact (K x N1 H1 x' Hx)|exact (K' y N2 H2 y' Hy)].
  - destruct (Req_dec b 0) as [->|Hb].
    + exfalso. assert (E : forall s, e_scale 0 s = ENaN) by (intros s; unfold e_scale; now rewrite Rcompare_Eq).
      destruct x as [|s|x]; [destruct N1|cbn [e_times] in N1; rewrite E in N1; destruct N1|].
      destruct y as [|s|y]; [destruct N2|cbn [e_times] in N2; rewrite E in N2; destruct N2|].
      cbn [e_times] in H. rewrite !Rmult_0_r, ovf_0 in H. unfold lo_ok, hi_ok in H. cbn in H. destruct H as [[H|[H|[H|H]]] [G|[G|[G|G]]]]; try discriminate; lra.
    + assert (K : forall z, is_num z -> is_num (e_times z (EFin b))).
      { intros [|s|z]; cbn [e_times]; [tauto| |intros _; apply ovf_num]. intros _. unfold e_scale. destruct (Rcompare_spec b 0); try exact Logic.I. contradiction. }
      destruct (ele_num _ _ Hxy'). auto.
Qed.

(** *** All dimensions *)
Definition efold (l : list (ext * ext)) (s : ext * ext) : ext * ext := fold_left (fun s t => slab_step rops s t) l s.

Lemma fold_spec l : forall s, is_num (fst s) -> is_num (snd s) ->
  is_num (fst (efold l s)) /\ is_num (snd (efold l s)) /\
  (forall r, below (fst (efold l s)) r <-> below (fst s) r /\ Forall (fun t => lo_ok t r) l) /\
  (forall r, above (snd (efold l s)) r <-> above (snd s) r /\ Forall (fun t => hi_ok t r) l).
Proof.
  induction l as [|t l IH]; intros s H1 H2; cbn [efold fold_left].
  - split; [exact H1|]. split; [exact H2|]. split; intros r; (split; [intros H; split; [exact H|constructor]|tauto]).
  - destruct (step_num rnd s t H1 H2) as [H3 H4]. destruct (IH _ H3 H4) as (H5 & H6 & H7 & H8). unfold efold in *.
    split; [exact H5|]. split; [exact H6|]. split; intros r; rewrite Forall_cons_iff.
    + rewrite H7, step_below by exact H1. tauto.
    + rewrite H8, step_above by exact H2. tauto.
Qed.

Lemma unit_fold l : e_le (fst (efold l (EFin 0, EFin 1))) (snd (efold l (EFin 0, EFin 1))) = true <->
  exists r, 0 <= r <= 1 /\ Forall (fun t => lo_ok t r /\ hi_ok t r) l.
Proof.
  destruct (fold_spec l (EFin 0, EFin 1) Logic.I Logic.I) as (H1 & H2 & H3 & H4).
  destruct (efold l (EFin 0, EFin 1)) as [tmin tmax]. cbn [fst snd below above] in *.
  assert (Hall : forall r, Forall (fun t => lo_ok t r /\ hi_ok t r) l <-> Forall (fun t => lo_ok t r) l /\ Forall (fun t => hi_ok t r) l) by (intros r; apply Forall_and_iff).
  split.
  - intros Hle. destruct tmin as [|s|a]; [destruct H1| |].
    + exfalso. destruct s; [|destruct tmax as [|[]|]; cbn in *; discriminate || (specialize (H4 2); cbn in H4; destruct H4 as [H4 _]; specialize (H4 eq_refl); lra)].
      specialize (H3 (-1)). cbn in H3. destruct H3 as [H3 _]. specialize (H3 eq_refl). lra.
    + destruct tmax as [|s'|c]; [destruct H2| |].
      * destruct s'; [discriminate Hle|]. exfalso. specialize (H4 2). cbn in H4. destruct H4 as [H4 _]. specialize (H4 eq_refl). lra.
      * cbn in Hle. destruct (Rle_bool_spec a c) as [Hac|]; [|discriminate]. exists a. rewrite Hall.
        destruct (proj1 (H3 a) (Rle_refl a)) as [G1 G2]. destruct (proj1 (H4 a) Hac) as [G3 G4]. tauto.
  - intros (r & Hr & G). apply Hall in G as [G1 G2]. assert (K1 := proj2 (H3 r) (conj (proj1 Hr) G1)). assert (K2 := proj2 (H4 r) (conj (proj2 Hr) G2)).
    destruct tmin as [|[]|a], tmax as [|[]|c]; cbn in *; try tauto; try discriminate; try reflexivity.
    destruct (Rle_bool_spec a c); [reflexivity|lra].
Qed.

Lemma nan_fold l : efold l (ENaN, ENaN) = (ENaN, ENaN).
Proof.
  induction l as [|[u w] l IH]; [reflexivity|]. cbn [efold fold_left].
  assert (Es : slab_step rops (ENaN, ENaN) (u, w) = (ENaN, ENaN)).
  { unfold slab_step, f64_min, f64_max. cbn [fl_lt ext_ops]. destruct u, w; reflexivity. }
  rewrite Es. exact IH.
Qed.
(** Equal ends stay in that order. *)
Lemma same_fold l x : e_lt (fst (efold l (x, x))) (snd (efold l (x, x))) = false.
Proof.
  destruct x as [|s|a]; [rewrite nan_fold; reflexivity| |].
  - destruct (fold_spec l (EInf s, EInf s) Logic.I Logic.I) as (H1 & H2 & H3 & H4). destruct (efold l (EInf s, EInf s)) as [tmin tmax]. cbn [fst snd below above] in *.
    destruct s.
    + destruct tmax as [|[]|w]; [destruct H2|destruct tmin as [|[]|]; reflexivity| |].
      * destruct (proj1 (H4 0) eq_refl). discriminate.
      * destruct (proj1 (H4 w) (Rle_refl w)). discriminate.
    + destruct tmin as [|[]|w]; [destruct H1| |destruct tmax as [|[]|]; reflexivity|].
      * destruct (proj1 (H3 0) eq_refl). discriminate.
      * destruct (proj1 (H3 w) (Rle_refl w)). discriminate.
  - destruct (fold_spec l (EFin a, EFin a) Logic.I Logic.I) as (H1 & H2 & H3 & H4). destruct (efold l (EFin a, EFin a)) as [tmin tmax]. cbn [fst snd below above] in *.
    destruct tmin as [|[]|u]; [destruct H1| | |].
    + destruct (proj1 (H3 (a - 1)) eq_refl). lra.
    + destruct tmax as [|[]|]; reflexivity.
    + destruct tmax as [|[]|w]; [destruct H2|reflexivity| |].
      * destruct (proj1 (H4 (a + 1)) eq_refl). lra.
      * cbn. apply Rlt_bool_false. destruct (proj1 (H3 u) (Rle_refl u)), (proj1 (H4 w) (Rle_refl w)). lra.
Qed.

Lemma ray_fold t l : e_lt (fst (efold l (f64_min rops (fst t) (snd t), f64_max rops (fst t) (snd t))))
    (snd (efold l (f64_min rops (fst t) (snd t), f64_max rops (fst t) (snd t)))) = true <->
  is_num (fst t) /\ is_num (snd t) /\ exists r r', r < r' /\ Forall (fun t => lo_ok t r /\ hi_ok t r') (t :: l).
Proof.
  destruct t as [t1 t2]. cbn [fst snd].
  assert (Hall : forall r r' m, Forall (fun t => lo_ok t r /\ hi_ok t r') m <-> Forall (fun t => lo_ok t r) m /\ Forall (fun t => hi_ok t r') m) by (intros; apply Forall_and_iff).
  assert (D : (is_num t1 /\ is_num t2) \/ f64_min rops t1 t2 = f64_max rops t1 t2 /\ ~ (is_num t1 /\ is_num t2)).
  { destruct t1 as [|s|a], t2 as [|s'|b]; (left; split; exact Logic.I) || (right; split; [reflexivity|cbn; tauto]). }
  destruct D as [[N1 N2]|[E N]].
  2:{ rewrite E, same_fold. split; [discriminate|]. intros (A & B & _). tauto. }
  destruct (fold_spec l (f64_min rops t1 t2, f64_max rops t1 t2) (min_num rnd _ _ N2) (max_num rnd _ _ N2)) as (H1 & H2 & H3 & H4).
  destruct (efold l (f64_min rops t1 t2, f64_max rops t1 t2)) as [tmin tmax]. cbn [fst snd] in *.
  assert (A1 : forall r, below (f64_min rops t1 t2) r <-> lo_ok (t1, t2) r).
  { intros r. rewrite min_below by assumption. unfold lo_ok. cbn [fst snd]. destruct t1, t2; cbn in N1, N2; try tauto; intuition discriminate. }
  assert (A2 : forall r, above (f64_max rops t1 t2) r <-> hi_ok (t1, t2) r).
  { intros r. rewrite max_above by assumption. unfold hi_ok. cbn [fst snd]. destruct t1, t2; cbn in N1, N2; try tauto; intuition discriminate. }
  split.
  - intros Hlt. split; [exact N1|]. split; [exact N2|].
    cut (exists r r', r < r' /\ below tmin r /\ above tmax r').
    { intros (r & r' & Hr & B1 & B2). exists r, r'. split; [exact Hr|]. apply H3 in B1. apply H4 in B2. rewrite A1 in B1. rewrite A2 in B2.
      apply Hall. split; constructor; tauto. }
    destruct tmin as [|[]|u], tmax as [|[]|w]; cbn in *; try tauto; try discriminate.
    + exists 0, 1. repeat split; lra.
    + exists (w - 1), w. repeat split; lra.
    + exists u, (u + 1). repeat split; lra.
    + destruct (Rlt_bool_spec u w); [|discriminate]. exists u, w. repeat split; lra.
  - intros (_ & _ & r & r' & Hr & F). apply Hall in F as [F1 F2]. inversion F1; inversion F2; subst.
    assert (B1 : below tmin r) by (apply H3; rewrite A1; tauto). assert (B2 : above tmax r') by (apply H4; rewrite A2; tauto).
    destruct tmin as [|[]|u], tmax as [|[]|w]; cbn in *; try tauto; try discriminate.
    destruct (Rlt_bool_spec u w); [reflexivity|lra].
Qed.

(** *** One dimension of the code *)
Section Segs.
Context (p e : Z) (Hf : fp_format p e) (Hp : (p <= 53)%Z) (He : (e <= 1024)%Z).
Local Instance hHp : FLX.Prec_gt_0 p := fHp p e Hf.
Local Instance hHe : Prec_lt_emax p e := fHe p e Hf.
Notation fin x := (exists r, nf_value x = XReal r).
Notation rv := (rv p e).
Notation A := (nf_arith p e).
Notation into := (fun x : nf p e => sf_into_f64 (nf_raw x)).

Definition toext (a : xreal) : ext := match a with XMinus => EInf true | XReal r => EFin r | XPlus => EInf false end.
Lemma toext_le a b : x_le a b <-> ele (toext a) (toext b).
Proof. destruct a, b; cbn; tauto. Qed.
Definition b64 (x : nf p e) : bf64 := fb 53 1024 (FpSphereProof.up p e x).
Lemma b64_raw x : B2SF (b64 x) = into x.
Proof. unfold b64. now rewrite fb_raw, (up_raw p e Hf Hp He). Qed.
Lemma b64_value x : evb (b64 x) = toext (nf_value x).
Proof.
  rewrite <- (up_value p e Hf Hp He). unfold nf_value. rewrite <- (fb_raw 53 1024 (FpSphereProof.up p e x)). fold (b64 x).
  assert (Hn : B2SF (b64 x) <> S754_nan).
  { unfold b64. rewrite fb_raw. intros E. assert (H := nf_prop 53 1024 (FpSphereProof.up p e x)). rewrite E in H. discriminate. }
  destruct (b64 x) as [s|[]| |s m ex H] eqn:E; try reflexivity; [now destruct Hn|].
  rewrite (fb_value_fin 53 1024 (B754_finite s m ex H)) by reflexivity. reflexivity.
Qed.

Definition inv64 (d : nf p e) : bf64 := Bdiv mode_NE (Bone (prec := 53) (emax := 1024)) (b64 d).
Definition off (l o : nf p e) : ext := toext (nf_value (a_sub A l o)).
Definition axis_pair (l h o d : nf p e) : ext * ext := pair_of (off l o) (off h o) (evb (inv64 d)).

Lemma one_raw : B2SF (Bone (prec := 53) (emax := 1024)) = f64_of_Z 1.
Proof. vm_compute. reflexivity. Qed.

Lemma slab_pair l h o d :
  repx (fst (slab (a_sub A) into f64_fops l h o d)) (fst (axis_pair l h o d)) /\
  repx (snd (slab (a_sub A) into f64_fops l h o d)) (snd (axis_pair l h o d)).
Proof.
  unfold slab, axis_pair, pair_of. cbn [fst snd fl_mul fl_div fl_one f64_fops]. unfold off. rewrite <- !b64_value, <- !evb_mul.
  rewrite <- one_raw, <- !b64_raw, div_equiv, !mul_equiv. fold (inv64 d). split; apply repx_evb.
Qed.

Fixpoint pairs {D} : svec (nf p e) D -> svec (nf p e) D -> svec (nf p e) D -> svec (nf p e) D -> list (ext * ext) :=
  match D with
  | 0 => fun _ _ _ _ => []
  | Datatypes.S D => fun bmn bmx o d => axis_pair (fst bmn) (fst bmx) (fst o) (fst d) :: pairs (snd bmn) (snd bmx) (snd o) (snd d)
  end.

Lemma loop_pairs D (bmn bmx o d : svec (nf p e) D) : forall s t, repx (fst s) (fst t) -> repx (snd s) (snd t) ->
  repx (fst (slab_loop (a_sub A) into f64_fops bmn bmx o d s)) (fst (efold (pairs bmn bmx o d) t)) /\
  repx (snd (slab_loop (a_sub A) into f64_fops bmn bmx o d s)) (snd (efold (pairs bmn bmx o d) t)).
Proof.
  induction D as [|D IH]; intros s t H1 H2; cbn [slab_loop pairs efold fold_left]; [split; assumption|].
  destruct (slab_pair (fst bmn) (fst bmx) (fst o) (fst d)) as [K1 K2].
  destruct (slab (a_sub A) into f64_fops (fst bmn) (fst bmx) (fst o) (fst d)) as [t1 t2].
  destruct (axis_pair (fst bmn) (fst bmx) (fst o) (fst d)) as [u1 u2].
  destruct s as [s1 s2], t as [e1 e2]. cbn [fst snd] in *. apply IH; cbn [slab_step fst snd].
  - apply repx_min; apply repx_max; assumption.
  - apply repx_max; apply repx_min; assumption.
Qed.

Lemma line_test_pairs D (l : line (nf p e) D) b : nf_line_test p e l b = true <->
  exists r, 0 <= r <= 1 /\ Forall (fun t => lo_ok t r /\ hi_ok t r) (pairs (bmin b) (bmax b) (line_0 l) (line_delta (a_sub A) l)).
Proof.
  unfold nf_line_test, line_intersects_box, line_bounds_intersect. rewrite <- unit_fold.
  destruct (loop_pairs D (bmin b) (bmax b) (line_0 l) (line_delta (a_sub A) l) (fl_zero f64_fops, fl_one f64_fops) (EFin 0, EFin 1)) as [H1 H2].
  - cbn [fst repx fl_zero f64_fops]. apply (rep_of_Z 0). vm_compute. discriminate.
  - cbn [snd repx fl_one f64_fops]. apply (rep_of_Z 1). vm_compute. discriminate.
  - destruct (slab_loop (a_sub A) into f64_fops (bmin b) (bmax b) _ _ _) as [t1 t2].
    destruct (efold _ _) as [u1 u2]. cbn [fst snd] in *. cbn [fl_le f64_fops]. now rewrite (repx_le _ _ _ _ H1 H2).
Qed.

Lemma ray_test_pairs D (r : ray (nf p e) (Datatypes.S D)) (b : saabb (nf p e) (Datatypes.S D)) :
  let t := axis_pair (fst (bmin b)) (fst (bmax b)) (fst (ray_origin r)) (fst (ray_n r)) in
  nf_ray_test p e r b = true <->
  is_num (fst t) /\ is_num (snd t) /\
  exists x y, x < y /\ Forall (fun t => lo_ok t x /\ hi_ok t y) (pairs (bmin b) (bmax b) (ray_origin r) (ray_n r)).
Proof.
  cbv zeta. cbn [pairs]. rewrite <- ray_fold. unfold nf_ray_test, ray_intersects_box, ray_bounds_intersect.
  destruct (slab_pair (fst (bmin b)) (fst (bmax b)) (fst (ray_origin r)) (fst (ray_n r))) as [K1 K2].
  destruct (slab (a_sub A) into f64_fops _ _ _ _) as [s1 s2].
  destruct (axis_pair _ _ _ _) as [e1 e2]. cbn [fst snd] in *.
  destruct (loop_pairs D (snd (bmin b)) (snd (bmax b)) (snd (ray_origin r)) (snd (ray_n r)) (f64_min f64_fops s1 s2, f64_max f64_fops s1 s2)
              (f64_min rops e1 e2, f64_max rops e1 e2)) as [H1 H2].
  - now apply repx_min.
  - now apply repx_max.
  - destruct (slab_loop (a_sub A) into f64_fops _ _ _ _ _) as [t1 t2]. destruct (efold _ _) as [u1 u2]. cbn [fst snd] in *.
    cbn [fl_lt f64_fops]. now rewrite (repx_lt _ _ _ _ H1 H2).
Qed.

(** *** Differences *)
(** Rounding in the coordinate type, with overflow. *)
Definition xovf (r : R) : xreal := if Rlt_bool (Rabs (frnd p e r)) (bpow radix2 e) then XReal (frnd p e r) else if Rlt_bool r 0 then XMinus else XPlus.
Definition xsub (a : xreal) (o : R) : xreal := match a with XReal r => xovf (r - o) | a => a end.

Lemma fb_sign (x : nf p e) : fin x -> if Bsign (fb p e x) then rv x <= 0 else 0 <= rv x.
Proof.
  intros H. apply finite_value_SF in H. rewrite <- fb_fin in H. unfold FpDist.rv. rewrite <- fb_R.
  destruct (fb p e x) as [s|s| |s m ex b]; try discriminate; cbn [Bsign B2R]; [destruct s; lra|].
  destruct s; [apply F2R_le_0|apply F2R_ge_0]; cbn; lia.
Qed.

Lemma sub_any (x o : nf p e) : fin o -> nf_ok p e (SFsub p e (nf_raw x) (nf_raw o)) = true /\ nf_value (a_sub A x o) = xsub (nf_value x) (rv o).
Proof.
  intros Ho. assert (Fo := finite_value_SF _ _ o Ho).
  destruct (is_finite_SF (nf_raw x)) eqn:Fx.
  - assert (Hx : fin x) by (unfold nf_value; rewrite (fin_value _ Fx); eauto).
    split; [now apply (sub_spec p e Hf)|].
    unfold nf_value at 1. rewrite (asub_raw p e Hf) by assumption. rewrite (fin_rv p e x Hx). cbn [xsub].
    rewrite <- (fb_raw p e x), <- (fb_raw p e o), (fsub_equiv p e Hf).
    assert (H := Bminus_correct p e (fHp p e Hf) (fHe p e Hf) mode_NE (fb p e x) (fb p e o)). rewrite !fb_R, !fb_fin in H. specialize (H Fx Fo).
    cbn [round_mode] in H. change (round radix2 (SpecFloat.fexp p e) ZnearestE ?z) with (frnd p e z) in H.
    change (SF2R radix2 (nf_raw x)) with (rv x) in H. change (SF2R radix2 (nf_raw o)) with (rv o) in H. unfold xovf.
    destruct (Rlt_bool_spec (Rabs (frnd p e (rv x - rv o))) (bpow radix2 e)) as [C|C].
    + destruct H as (H1 & H2 & _). now rewrite (fb_value_fin p e), H1 by exact H2.
    + destruct H as [H Hs]. rewrite H. unfold binary_overflow. cbn [overflow_to_inf].
      assert (Sx := fb_sign x Hx). assert (So := fb_sign o Ho). rewrite Hs in *.
      assert (P := bpow_gt_0 radix2 e).
      assert (N : rv x - rv o <> 0) by (intros E; rewrite E, (frnd_0 p e), Rabs_R0 in C; lra).
      destruct (Bsign (fb p e o)); cbn [negb sf_value] in *.
      * rewrite Rlt_bool_false by lra. reflexivity.
      * rewrite Rlt_bool_true by lra. reflexivity.
  - assert (Hok := nf_prop p e x). destruct (nf_raw x) as [s|s| |s m ex] eqn:Er; try discriminate.
    assert (E : SFsub p e (S754_infinity s) (nf_raw o) = S754_infinity s) by (destruct (nf_raw o) as [s'|s'| |s' m ex]; try discriminate; reflexivity).
    rewrite E. split; [reflexivity|]. unfold nf_value. cbn [a_sub nf_arith]. rewrite Er, E, (nf_of_raw p e) by reflexivity. destruct s; reflexivity.
Qed.

Lemma xovf_le a b : a <= b -> x_le (xovf a) (xovf b).
Proof.
  intros H. assert (K := frnd_le p e Hf a b H). unfold xovf. assert (P := bpow_gt_0 radix2 e).
  assert (Neg : forall c, c <= 0 -> frnd p e c <= 0) by (intros c Hc; rewrite <- (frnd_0 p e); now apply (frnd_le p e Hf)).
  destruct (Rlt_bool_spec (Rabs (frnd p e a)) (bpow radix2 e)) as [C|C], (Rlt_bool_spec (Rabs (frnd p e b)) (bpow radix2 e)) as [C'|C']; cbn [x_le].
  - exact K.
  - destruct (Rlt_bool_spec b 0) as [B'|B']; [|exact Logic.I]. exfalso. specialize (Neg b ltac:(lra)).
    rewrite Rabs_left1 in C' by exact Neg. apply Rabs_lt_inv in C. lra.
  - destruct (Rlt_bool_spec a 0) as [A'|A']; [exact Logic.I|]. exfalso. assert (K' := frnd_nonneg p e Hf a ltac:(lra)).
    rewrite Rabs_pos_eq in C by exact K'. apply Rabs_lt_inv in C'. lra.
  - destruct (Rlt_bool_spec a 0) as [A'|A'], (Rlt_bool_spec b 0) as [B'|B']; try exact Logic.I. exfalso. lra.
Qed.
Lemma xsub_le a b o : x_le a b -> x_le (xsub a o) (xsub b o).
Proof.
  destruct a as [|a|], b as [|b|]; cbn [xsub x_le]; try tauto.
  - intros H. apply xovf_le. lra.
  - destruct (xovf (a - o)); intros; exact Logic.I.
Qed.
Lemma off_le (l l' o : nf p e) : fin o -> x_le (nf_value l) (nf_value l') -> ele (off l o) (off l' o).
Proof. intros Ho H. unfold off. apply toext_le. destruct (sub_any l o Ho) as [_ ->], (sub_any l' o Ho) as [_ ->]. now apply xsub_le. Qed.

(** *** A larger box is hit if a smaller one is *)
Lemma pairs_wider D (b k : saabb (nf p e) D) o d r r' : finite_point o -> x_incl b k -> x_valid k ->
  Forall (fun t => lo_ok t r /\ hi_ok t r') (pairs (bmin k) (bmax k) o d) ->
  Forall (fun t => lo_ok t r /\ hi_ok t r') (pairs (bmin b) (bmax b) o d).
Proof.
  destruct b as [bmn bmx], k as [kmn kmx]. unfold x_incl, x_valid, xle. cbn [bmin bmax].
  induction D as [|D IH]; intros Ho [H1 H2] H3 H; cbn [pairs] in *; [constructor|].
  inversion Ho as [|? ? O1 O2]; inversion H1 as [|? ? ? ? A1 B1]; inversion H2 as [|? ? ? ? A2 B2]; inversion H3 as [|? ? ? ? A3 B3]; inversion H as [|? ? F1 F2]; subst.
  constructor; [|eapply IH; try eassumption; now split].
  unfold axis_pair in *. eapply pair_wider; [..|exact F1]; now apply off_le.
Qed.

Lemma line_grows_x D (l : line (nf p e) D) b k : finite_point (line_0 l) -> x_incl b k -> x_valid k ->
  nf_line_test p e l k = true -> nf_line_test p e l b = true.
Proof.
  intros Ho Hi Hv. rewrite !line_test_pairs. intros (r & Hr & H). exists r. split; [exact Hr|]. now apply (pairs_wider D b k).
Qed.
Lemma ray_grows_x D (r : ray (nf p e) (Datatypes.S D)) (b k : saabb (nf p e) (Datatypes.S D)) : finite_point (ray_origin r) -> x_incl b k -> x_valid k ->
  nf_ray_test p e r k = true -> nf_ray_test p e r b = true.
Proof.
  intros Ho Hi Hv. rewrite !ray_test_pairs. intros (N1 & N2 & x & y & Hxy & H). rewrite <- and_assoc. split.
  - cbn [pairs] in H. inversion H as [|? ? F1 F2]; subst. destruct Hi as [I1 I2]. unfold xle, x_valid in *.
    inversion Ho as [|? ? O1 O2]; inversion I1 as [|? ? ? ? A1 B1]; inversion I2 as [|? ? ? ? A2 B2]; inversion Hv as [|? ? ? ? A3 B3]; subst.
    unfold axis_pair in *. eapply pair_wider_num; [..|exact F1|exact N1|exact N2]; try exact Hxy; now apply off_le.
  - exists x, y. split; [exact Hxy|]. now apply (pairs_wider _ b k).
Qed.

(** *** Accuracy *)
Notation u := (fp_u 53).
Notation uc := (fp_u p).
Notation kap := (3 * (uc + u)).

Lemma u_u53 : u = u53.
Proof. unfold fp_u, u53. now rewrite bpow_powerRZ. Qed.
Lemma u_bounds : 0 < u <= 1 / 1000 /\ u <= uc /\ 0 < uc <= 1 / 4.
Proof.
  assert (G : forall q, fp_u q = bpow radix2 (- q)) by (intros q; unfold fp_u; now rewrite bpow_powerRZ). rewrite !G.
  assert (H1 : bpow radix2 (- (53)) <= bpow radix2 (-10)) by (apply bpow_le; lia). assert (H2 : bpow radix2 (-10) = / 1024) by reflexivity.
  assert (H3 : bpow radix2 (- (53)) <= bpow radix2 (- p)) by (apply bpow_le; lia).
  assert (H4 : bpow radix2 (- p) <= bpow radix2 (-2)) by (apply bpow_le; destruct Hf; lia). assert (H5 : bpow radix2 (-2) = / 4) by reflexivity.
  assert (P := bpow_gt_0 radix2 (- (53))). assert (P' := bpow_gt_0 radix2 (- p)). repeat split; lra.
Qed.

Lemma rnd_rel' x : bpow radix2 (-1022) <= Rabs x -> exists d, Rabs d <= u /\ rnd x = x * (1 + d).
Proof.
  intros Hx. destruct (relative_error_N_FLT_ex radix2 (-1074) 53 eq_refl (fun x => negb (Z.even x)) x) as (d & He' & E); [exact Hx|].
  exists d. split; [|exact E]. apply Rle_trans with (1 := He'). apply Req_le. rewrite u_u53. unfold u53.
  change (/ 2) with (bpow radix2 (-1)). rewrite <- bpow_plus. reflexivity.
Qed.

Definition mid (k : Z) (x : R) : Prop := bpow radix2 (- k) <= Rabs x <= bpow radix2 k.
Lemma mid_mul j k x y : mid j x -> mid k y -> mid (j + k) (x * y).
Proof.
  intros [A1 A2] [B1 B2]. unfold mid. rewrite Rabs_mult. replace (- (j + k))%Z with (- j + - k)%Z by lia. rewrite !bpow_plus.
  assert (P1 := bpow_gt_0 radix2 (- j)). assert (P2 := bpow_gt_0 radix2 (- k)). split; apply Rmult_le_compat; lra || apply Rabs_pos.
Qed.
Lemma mid_inv k x : mid k x -> mid k (1 / x).
Proof.
  intros [A1 A2]. assert (P := bpow_gt_0 radix2 (- k)). unfold mid, Rdiv. rewrite Rmult_1_l, Rabs_inv. split.
  - rewrite bpow_opp. apply Rinv_le_contravar; lra.
  - rewrite <- (Z.opp_involutive k), bpow_opp. apply Rinv_le_contravar; [apply bpow_gt_0|exact A1].
Qed.
Lemma mid_near k x d : (0 <= k)%Z -> Rabs d <= 1 / 4 -> mid k x -> mid (k + 1) (x * (1 + d)).
Proof.
  intros Hk Hd H. apply mid_mul; [exact H|]. apply Rabs_le_inv in Hd. unfold mid. change (bpow radix2 (- (1))) with (/ 2). change (bpow radix2 1) with 2.
  rewrite Rabs_pos_eq by lra. lra.
Qed.
Lemma mid_le j k x : (j <= k)%Z -> mid j x -> mid k x.
Proof. intros H [A1 A2]. split; [eapply Rle_trans; [apply bpow_le|exact A1]; lia|eapply Rle_trans; [exact A2|apply bpow_le]; lia]. Qed.
Lemma mid_nz k x : mid k x -> x <> 0.
Proof. intros [A1 _] ->. rewrite Rabs_R0 in A1. assert (P := bpow_gt_0 radix2 (- k)). lra. Qed.

Lemma quo_close X d : (X = 0 \/ mid 501 X) -> mid 501 d -> exists a b, Rabs a <= u /\ Rabs b <= u /\
  Rabs (rnd (1 / d)) < maxf /\ Rabs (rnd (X * rnd (1 / d))) < maxf /\ rnd (X * rnd (1 / d)) = X / d * (1 + a) * (1 + b) /\ rnd (1 / d) = 1 / d * (1 + a).
Proof.
  intros HX Hd. destruct u_bounds as (Hu & Huc & Hc).
  assert (Hi := mid_inv _ _ Hd). destruct (rnd_rel' (1 / d)) as (a & Ha & Ea).
  { eapply Rle_trans; [apply bpow_le|exact (proj1 Hi)]. lia. }
  assert (Hr : mid 502 (rnd (1 / d))) by (rewrite Ea; apply (mid_near 501); [lia|lra|exact Hi]).
  assert (M : forall k x, (k < 1024)%Z -> mid k x -> Rabs x < maxf).
  { intros k x Hk [_ H]. eapply Rle_lt_trans; [exact H|]. apply bpow_lt. exact Hk. }
  destruct HX as [->|HX].
  - exists a, 0. rewrite Rabs_R0. rewrite Rmult_0_l, rnd_0, Rabs_R0. split; [exact Ha|]. split; [lra|]. split; [apply (M 502%Z); [lia|exact Hr]|].
    split; [apply bpow_gt_0|]. split; [unfold Rdiv; ring|exact Ea].
  - assert (Hq := mid_mul _ _ _ _ HX Hr). destruct (rnd_rel' (X * rnd (1 / d))) as (b & Hb & Eb).
    { eapply Rle_trans; [apply bpow_le|exact (proj1 Hq)]. lia. }
    exists a, b. split; [exact Ha|]. split; [exact Hb|]. split; [apply (M 502%Z); [lia|exact Hr]|].
    split; [|split; [|exact Ea]].
    + apply (M 1004%Z); [lia|]. rewrite Eb. apply (mid_near 1003); [lia|lra|exact Hq].
    + rewrite Eb, Ea. unfold Rdiv. ring.
Qed.

(** The computed inverse of the direction. *)
Lemma inv_zero d : nf_value d = XReal 0 -> exists s, evb (inv64 d) = EInf s.
Proof.
  intros H. assert (E := b64_value d). rewrite H in E. cbn [toext] in E. unfold inv64.
  destruct (b64 d) as [s|s| |s m ex Hb] eqn:Eb; try discriminate.
  { exists s. assert (O := one_raw). destruct (Bone (prec := 53) (emax := 1024)) as [s'|s'| |s' m' ex' Hb']; try discriminate O.
    injection O as -> _ _. destruct s; reflexivity. }
  exfalso. cbn [evb] in E. injection E as E. assert (K := fin_sign s m ex Hb). cbn [B2R] in K. rewrite E, Rcompare_Eq in K by reflexivity. destruct s; discriminate.
Qed.
Lemma inv_nz d r : nf_value d = XReal r -> r <> 0 -> Rabs (rnd (1 / r)) < maxf -> evb (inv64 d) = EFin (rnd (1 / r)).
Proof.
  intros H Hr Hm. assert (E := b64_value d). rewrite H in E. cbn [toext] in E. unfold inv64.
  assert (F : is_finite (b64 d) = true /\ B2R (b64 d) = r) by (destruct (b64 d); try discriminate; (split; [reflexivity|now injection E])).
  destruct F as [F1 F2]. assert (K := Bdiv_correct 53 1024 _ _ mode_NE (Bone (prec := 53) (emax := 1024)) (b64 d)). rewrite F2 in K. specialize (K Hr).
  assert (O : B2R (Bone (prec := 53) (emax := 1024)) = 1) by apply Bone_correct. rewrite O in K.
  cbn [round_mode] in K. change (round radix2 (SpecFloat.fexp 53 1024) ZnearestE ?z) with (rnd z) in K. change (bpow radix2 1024) with maxf in K.
  rewrite Rlt_bool_true in K by exact Hm. destruct K as (K1 & K2 & _). rewrite evb_fin, K1; [reflexivity|]. rewrite K2. reflexivity.
Qed.

(** A difference that does not overflow. *)
Lemma off_fin (l o : nf p e) : fin l -> fin o -> Rabs (rv l - rv o) <= bpow radix2 (e - 1) ->
  exists X a, off l o = EFin X /\ nf_value (a_sub A l o) = XReal X /\ Rabs a <= uc /\ X = (rv l - rv o) * (1 + a).
Proof.
  intros Hl Ho Hb. destruct (sub_any l o Ho) as [_ Ev]. rewrite (fin_rv p e l Hl) in Ev. cbn [xsub] in Ev. unfold xovf in Ev.
  assert (Hr : Rabs (frnd p e (rv l - rv o) - (rv l - rv o)) <= uc * Rabs (rv l - rv o)).
  { unfold Rminus at 2 3 4. apply (rnd_sum p e); [exact Hf|apply rv_format|]. apply generic_format_opp, rv_format. }
  set (x := rv l - rv o) in *. destruct u_bounds as (_ & _ & Huc).
  assert (C : Rabs (frnd p e x) < bpow radix2 e).
  { assert (Eb : bpow radix2 e = bpow radix2 (e - 1) * 2) by (change 2 with (bpow radix2 1); rewrite <- bpow_plus; f_equal; lia). rewrite Eb.
    replace (frnd p e x) with (x + (frnd p e x - x)) by ring. eapply Rle_lt_trans; [apply Rabs_triang|].
    assert (P := Rabs_pos x). assert (P' := bpow_gt_0 radix2 (e - 1)). nra. }
  rewrite Rlt_bool_true in Ev by exact C.
  exists (frnd p e x). destruct (Req_dec x 0) as [Ex|Ex].
  - exists 0. unfold off. rewrite Ev. cbn [toext]. split; [reflexivity|]. split; [reflexivity|]. rewrite Rabs_R0, Ex, (frnd_0 p e). split; [lra|ring].
  - exists ((frnd p e x - x) / x). unfold off. rewrite Ev. cbn [toext]. split; [reflexivity|]. split; [reflexivity|]. split.
    + unfold Rdiv. rewrite Rabs_mult, Rabs_inv. assert (P := Rabs_pos_lt x Ex). apply Rmult_le_reg_r with (Rabs x); [exact P|].
      rewrite Rmult_assoc, Rinv_l by lra. lra.
    + field. exact Ex.
Qed.

(** The factor by which a computed parameter is off. *)
Lemma factor a b c d : Rabs a <= uc -> Rabs b <= uc -> Rabs c <= u -> Rabs d <= u ->
  exists w, (1 + a) / (1 + b) * (1 + c) * (1 + d) = w /\ 1 - kap <= w <= 1 + kap /\ 0 < w.
Proof.
  intros Ha Hb Hc Hd. destruct u_bounds as (Hu & Huc & Hcc). apply Rabs_le_inv in Ha, Hb, Hc, Hd. eexists. split; [reflexivity|].
  set (U := u) in *. set (C := uc) in *. clearbody U C.
  assert (P : 0 < 1 + b) by lra.
  assert (N1 : (1 - C) * ((1 - U) * (1 - U)) <= (1 + a) * ((1 + c) * (1 + d))).
  { apply Rmult_le_compat; [lra|nra|lra|]. apply Rmult_le_compat; lra. }
  assert (N2 : (1 + a) * ((1 + c) * (1 + d)) <= (1 + C) * ((1 + U) * (1 + U))).
  { apply Rmult_le_compat; [lra|nra|lra|]. apply Rmult_le_compat; lra. }
  replace ((1 + a) / (1 + b) * (1 + c) * (1 + d)) with ((1 + a) * ((1 + c) * (1 + d)) / (1 + b)) by (field; lra).
  assert (N0 : 0 < (1 + a) * ((1 + c) * (1 + d))) by (apply Rmult_lt_0_compat; [lra|apply Rmult_lt_0_compat; lra]).
  split; [split|].
  - apply Rmult_le_reg_r with (1 + b); [exact P|]. unfold Rdiv. rewrite Rmult_assoc, Rinv_l, Rmult_1_r by lra.
    apply Rle_trans with ((1 - C) * ((1 - U) * (1 - U))); [|exact N1].
    destruct (Rle_lt_dec 0 (1 - 3 * (C + U))) as [G|G].
    + apply Rle_trans with ((1 - 3 * (C + U)) * (1 + C)); [apply Rmult_le_compat_l; lra|]. nra.
    + apply Rle_trans with 0; [nra|]. apply Rmult_le_pos; nra.
  - apply Rmult_le_reg_r with (1 + b); [exact P|]. unfold Rdiv. rewrite Rmult_assoc, Rinv_l, Rmult_1_r by lra.
    apply Rle_trans with ((1 + C) * ((1 + U) * (1 + U))); [exact N2|].
    apply Rle_trans with ((1 + 3 * (C + U)) * (1 - C)); [|apply Rmult_le_compat_l; lra].
    assert (0 <= (C - U) * (1 / 4 - C)) by (apply Rmult_le_pos; lra). nra.
  - unfold Rdiv. apply Rmult_lt_0_compat; [exact N0|]. now apply Rinv_0_lt_compat.
Qed.

(** One side of the box: the parameter computed for it. *)
Definition fair (x : R) : Prop := (x = 0 \/ mid 500 x) /\ Rabs x <= bpow radix2 (e - 1).
Lemma side_time (l o d : nf p e) (dd del b : R) : fin l -> fin o -> fair (rv l - rv o) ->
  nf_value d = XReal dd -> dd = del * (1 + b) -> Rabs b <= uc -> mid 500 del ->
  exists w, e_times (off l o) (evb (inv64 d)) = EFin ((rv l - rv o) / del * w) /\ 1 - kap <= w <= 1 + kap /\ 0 < w.
Proof.
  intros Hl Ho [Hx Hm] Hd Ed Hb Hdel. destruct u_bounds as (Hu & Huc & Hcc).
  destruct (off_fin l o Hl Ho Hm) as (X & a & EX & _ & Ha & EX'). set (x := rv l - rv o) in *.
  assert (HX : X = 0 \/ mid 501 X).
  { destruct Hx as [Hx|Hx]; [left; rewrite EX', Hx; ring|right]. rewrite EX'. apply (mid_near 500); [lia|lra|exact Hx]. }
  assert (Hdd : mid 501 dd) by (rewrite Ed; apply (mid_near 500); [lia|lra|exact Hdel]).
  destruct (quo_close X dd HX Hdd) as (c & c' & Hc & Hc' & M1 & M2 & EQ & _).
  destruct (factor a b c c' Ha Hb Hc Hc') as (w & Ew & Hw & Pw). exists w. split; [|split; assumption].
  rewrite EX, (inv_nz d dd Hd (mid_nz _ _ Hdd) M1). cbn [e_times]. unfold ovf. rewrite Rlt_bool_true by exact M2. f_equal.
  rewrite EQ, EX', Ed, <- Ew. apply mid_nz in Hdel. apply Rabs_le_inv in Hb. field. lra.
Qed.

(** Scaling a number by a factor close to one. *)
Lemma scaled x w : 1 - kap <= w <= 1 + kap -> x - kap * Rabs x <= x * w <= x + kap * Rabs x.
Proof. intros H. unfold Rabs. destruct (Rcase_abs x); nra. Qed.
Lemma over_pos x d t : 0 < d -> x / d <= t <-> x <= t * d.
Proof. intros H. assert (E : x / d * d = x) by (field; lra). split; intros G; [nra|]. apply Rnot_lt_le. intros G'. nra. Qed.
Lemma over_neg x d t : d < 0 -> x / d <= t <-> t * d <= x.
Proof. intros H. assert (E : x / d * d = x) by (field; lra). split; intros G; [nra|]. apply Rnot_lt_le. intros G'. nra. Qed.
Lemma under_pos x d t : 0 < d -> t <= x / d <-> t * d <= x.
Proof. intros H. assert (E : x / d * d = x) by (field; lra). split; intros G; [nra|]. apply Rnot_lt_le. intros G'. nra. Qed.
Lemma under_neg x d t : d < 0 -> t <= x / d <-> x <= t * d.
Proof. intros H. assert (E : x / d * d = x) by (field; lra). split; intros G; [nra|]. apply Rnot_lt_le. intros G'. nra. Qed.

(** One dimension: what the computed parameters allow, in terms of two factors close to one. *)
Lemma axis_factors (l h o d : nf p e) (dd del b : R) : fin l -> fin h -> fin o -> fair (rv l - rv o) -> fair (rv h - rv o) -> rv l <= rv h ->
  nf_value d = XReal dd -> dd = del * (1 + b) -> Rabs b <= uc -> (del = 0 \/ mid 500 del) ->
  exists w w', (1 - kap <= w <= 1 + kap) /\ (1 - kap <= w' <= 1 + kap) /\ 0 < w /\ 0 < w' /\
  forall r r', r <= r' -> lo_ok (axis_pair l h o d) r /\ hi_ok (axis_pair l h o d) r' <->
    ((0 <= del -> (rv l - rv o) * w <= r * del /\ r' * del <= (rv h - rv o) * w') /\
     (del <= 0 -> (rv l - rv o) * w <= r' * del /\ r * del <= (rv h - rv o) * w')).
Proof.
  intros Hl Hh Ho Fl Fh Hlh Hd Ed Hb Hdel. destruct u_bounds as (Hu & Huc & Hcc).
  assert (Hle : x_le (nf_value l) (nf_value h)) by (rewrite (fin_rv p e l Hl), (fin_rv p e h Hh); exact Hlh).
  assert (Ho' := off_le l h o Ho Hle).
  destruct Hdel as [Hz|Hdel].
  - assert (Hd0 : nf_value d = XReal 0) by (rewrite Hd, Ed, Hz; f_equal; ring). destruct (inv_zero d Hd0) as (s & Es).
    destruct (off_fin l o Hl Ho (proj2 Fl)) as (X & a & EX & _ & Ha & EX'). destruct (off_fin h o Hh Ho (proj2 Fh)) as (Y & a' & EY & _ & Ha' & EY').
    apply Rabs_le_inv in Ha, Ha'. exists 1, 1. assert (0 < kap) by lra. split; [lra|]. split; [lra|]. split; [lra|]. split; [lra|].
    intros r r' Hr. unfold axis_pair. rewrite Es, (pair_inf s _ _ r r' Ho'), EX, EY. cbn [ele]. rewrite Hz, !Rmult_0_r, !Rmult_1_r, EX', EY'. split.
    + intros [H1 H2]. assert (rv l - rv o <= 0) by (apply Rnot_lt_le; intros G; nra). assert (0 <= rv h - rv o) by (apply Rnot_lt_le; intros G; nra). repeat split; lra.
    + intros [H1 H2]. specialize (H1 ltac:(lra)). split; nra.
  - destruct (side_time l o d dd del b Hl Ho Fl Hd Ed Hb Hdel) as (w & Ew & Hw & Pw).
    destruct (side_time h o d dd del b Hh Ho Fh Hd Ed Hb Hdel) as (w' & Ew' & Hw' & Pw').
    exists w, w'. split; [exact Hw|]. split; [exact Hw'|]. split; [exact Pw|]. split; [exact Pw'|]. intros r r' Hr.
    assert (Hnz := mid_nz _ _ Hdel).
    assert (Inv : exists i, evb (inv64 d) = EFin i /\ (0 < del -> 0 < i) /\ (del < 0 -> i < 0)).
    { assert (Hdd : mid 501 dd) by (rewrite Ed; apply (mid_near 500); [lia|lra|exact Hdel]).
      destruct (quo_close 0 dd (or_introl eq_refl) Hdd) as (c & c' & Hc & Hc' & M1 & M2 & _ & EI).
      exists (rnd (1 / dd)). split; [apply (inv_nz d dd Hd (mid_nz _ _ Hdd) M1)|]. rewrite EI. apply Rabs_le_inv in Hc, Hb.
      assert (Pc : 0 < 1 + c) by lra. unfold Rdiv. rewrite Rmult_1_l. split; intros G.
      - apply Rmult_lt_0_compat; [|exact Pc]. apply Rinv_0_lt_compat. rewrite Ed. apply Rmult_lt_0_compat; lra.
      - assert (/ dd < 0) by (apply Rinv_lt_0_compat; rewrite Ed; nra). nra. }
    destruct Inv as (i & Ei & Ip & In_).
    assert (E1 : forall x v, x / del * v = (x * v) / del) by (intros; unfold Rdiv; ring).
    unfold axis_pair, pair_of. rewrite Ew, Ew', !E1. rewrite Ei in Ew, Ew'. destruct (Rtotal_order del 0) as [G|[G|G]]; [|contradiction|].
    + assert (K := times_neg i _ _ (In_ G) Ho'). rewrite Ew, Ew', !E1 in K.
      rewrite lo_swap, hi_swap, lo_pair, hi_pair by exact K. cbn [below above]. rewrite over_neg, under_neg by exact G. split.
      * intros [H1 H2]. split; [intros; lra|]. intros _. split; assumption.
      * intros [_ H2]. specialize (H2 ltac:(lra)). tauto.
    + assert (K := times_pos i _ _ (Ip G) Ho'). rewrite Ew, Ew', !E1 in K.
      rewrite lo_pair, hi_pair by exact K. cbn [below above]. rewrite over_pos, under_pos by exact G. split.
      * intros [H1 H2]. split; [|intros; lra]. intros _. split; assumption.
      * intros [H1 _]. specialize (H1 ltac:(lra)). tauto.
Qed.

(** All dimensions. *)
Definition dir_ok (d : nf p e) (del : R) : Prop :=
  exists b, nf_value d = XReal (del * (1 + b)) /\ Rabs b <= uc /\ (del = 0 \/ mid 500 del).
Fixpoint dirs_ok {D} : svec (nf p e) D -> svec R D -> Prop :=
  match D with
  | 0 => fun _ _ => True
  | Datatypes.S D => fun d del => dir_ok (fst d) (fst del) /\ dirs_ok (snd d) (snd del)
  end.

Lemma moderate_fair x : moderate e x <-> (x = 0 \/ mid 500 x /\ Rabs x <= bpow radix2 (e - 1)).
Proof. unfold moderate, mid. rewrite !bpow_powerRZ. reflexivity. Qed.
Lemma moderate_fair' x : moderate e x -> fair x.
Proof.
  intros H. apply moderate_fair in H. unfold fair. destruct H as [->|H]; [|tauto]. split; [now left|]. rewrite Rabs_R0. apply bpow_ge_0.
Qed.

Lemma pairs_sound D (b : saabb (nf p e) D) o d del r : finite_box b -> x_valid b -> finite_point o ->
  moderate_diffs (bmin b) o -> moderate_diffs (bmax b) o -> dirs_ok d del ->
  Forall (fun t => lo_ok t r /\ hi_ok t r) (pairs (bmin b) (bmax b) o d) ->
  in_moved_box kap (vmap coord (bmin b)) (vmap coord (bmax b)) (vmap coord o) (along (vmap coord o) del r).
Proof.
  destruct b as [bmn bmx]. unfold finite_box, x_valid, xle, moderate_diffs, along. cbn [bmin bmax].
  induction D as [|D IH]; intros [H1 H2] H3 H4 H5 H6 H7 H; cbn [in_moved_box pairs vmap vmap2 fst snd dirs_ok] in *; [exact Logic.I|].
  inversion H1 as [|? ? A1 B1]; inversion H2 as [|? ? A2 B2]; inversion H3 as [|? ? ? ? A3 B3]; inversion H4 as [|? ? A4 B4];
    inversion H5 as [|? ? ? ? A5 B5]; inversion H6 as [|? ? ? ? A6 B6]; inversion H as [|? ? F1 F2]; subst.
  destruct H7 as [(bb & A7 & A8 & A9) B7].
  split; [|apply IH with (d := snd d); try assumption; now split].
  rewrite !(coord_rv p e) in * by assumption. rewrite (fin_rv p e _ A1), (fin_rv p e _ A2) in A3. cbn [x_le] in A3.
  destruct (axis_factors (fst bmn) (fst bmx) (fst o) (fst d) _ (fst del) bb A1 A2 A4 (moderate_fair' _ A5) (moderate_fair' _ A6) A3 A7 eq_refl A8 A9)
    as (w & w' & W1 & W2 & W3 & W4 & G).
  apply (G r r (Rle_refl r)) in F1. assert (S1 := scaled (rv (fst bmn) - rv (fst o)) w W1). assert (S2 := scaled (rv (fst bmx) - rv (fst o)) w' W2).
  destruct F1 as [G1 G2]. destruct (Rle_lt_dec 0 (fst del)) as [C|C]; [specialize (G1 C)|specialize (G2 ltac:(lra))]; lra.
Qed.

Lemma pairs_complete D (b : saabb (nf p e) D) o d del r r' : finite_box b -> x_valid b -> finite_point o ->
  moderate_diffs (bmin b) o -> moderate_diffs (bmax b) o -> dirs_ok d del -> r <= r' ->
  in_moved_box (- kap) (vmap coord (bmin b)) (vmap coord (bmax b)) (vmap coord o) (along (vmap coord o) del r) ->
  in_moved_box (- kap) (vmap coord (bmin b)) (vmap coord (bmax b)) (vmap coord o) (along (vmap coord o) del r') ->
  Forall (fun t => lo_ok t r /\ hi_ok t r') (pairs (bmin b) (bmax b) o d).
Proof.
  destruct b as [bmn bmx]. unfold finite_box, x_valid, xle, moderate_diffs, along. cbn [bmin bmax].
  induction D as [|D IH]; intros [H1 H2] H3 H4 H5 H6 H7 Hr H H'; cbn [in_moved_box pairs vmap vmap2 fst snd dirs_ok] in *; [constructor|].
  inversion H1 as [|? ? A1 B1]; inversion H2 as [|? ? A2 B2]; inversion H3 as [|? ? ? ? A3 B3]; inversion H4 as [|? ? A4 B4];
    inversion H5 as [|? ? ? ? A5 B5]; inversion H6 as [|? ? ? ? A6 B6]; subst.
  destruct H as [F1 F2], H' as [F1' F2']. destruct H7 as [(bb & A7 & A8 & A9) B7].
  constructor; [|apply IH with (del := snd del); try assumption; now split].
  rewrite !(coord_rv p e) in * by assumption. rewrite (fin_rv p e _ A1), (fin_rv p e _ A2) in A3. cbn [x_le] in A3.
  destruct (axis_factors (fst bmn) (fst bmx) (fst o) (fst d) _ (fst del) bb A1 A2 A4 (moderate_fair' _ A5) (moderate_fair' _ A6) A3 A7 eq_refl A8 A9)
    as (w & w' & W1 & W2 & W3 & W4 & G).
  apply (G r r' Hr). assert (S1 := scaled (rv (fst bmn) - rv (fst o)) w W1). assert (S2 := scaled (rv (fst bmx) - rv (fst o)) w' W2).
  split; intros C; lra.
Qed.

Lemma line_dirs D (l : line (nf p e) D) : finite_point (line_0 l) -> finite_point (line_1 l) -> moderate_diffs (line_1 l) (line_0 l) ->
  dirs_ok (line_delta (a_sub A) l) (vmap2 Rminus (vmap coord (line_1 l)) (vmap coord (line_0 l))).
Proof.
  destruct l as [o q]. unfold line_delta, moderate_diffs. cbn [line_0 line_1]. induction D as [|D IH]; intros H1 H2 H3; cbn [dirs_ok vmap vmap2 fst snd]; [exact Logic.I|].
  inversion H1 as [|? ? A1 B1]; inversion H2 as [|? ? A2 B2]; inversion H3 as [|? ? ? ? A3 B3]; subst. split; [|now apply IH].
  destruct (moderate_fair' _ A3) as [Hm Hx]. rewrite !(coord_rv p e) in * by assumption.
  destruct (off_fin (fst q) (fst o) A2 A1 Hx) as (X & a & _ & E1 & Ha & E2). exists a. rewrite E1, E2. auto.
Qed.
Lemma ray_dirs D (d : svec (nf p e) D) : finite_point d -> moderate_point d -> dirs_ok d (vmap coord d).
Proof.
  unfold moderate_point. destruct u_bounds as (_ & _ & Hcc). induction D as [|D IH]; intros H1 H2; cbn [dirs_ok vmap fst snd]; [exact Logic.I|].
  inversion H1 as [|? ? A1 B1]; inversion H2 as [|? ? A2 B2]; subst. split; [|now apply IH].
  exists 0. rewrite Rabs_R0, Rplus_0_r, Rmult_1_r, (coord_rv p e _ A1) in *. split; [now apply (fin_rv p e)|]. split; [lra|]. apply (moderate_fair' _ A2).
Qed.

Lemma line_accuracy D (l : line (nf p e) D) b : finite_point (line_0 l) -> finite_point (line_1 l) -> finite_box b -> x_valid b ->
  moderate_diffs (line_1 l) (line_0 l) -> moderate_diffs (bmin b) (line_0 l) -> moderate_diffs (bmax b) (line_0 l) ->
  (nf_line_test p e l b = true -> exists t, 0 <= t <= 1 /\ segment_near kap l b t) /\
  ((exists t, 0 <= t <= 1 /\ segment_near (- kap) l b t) -> nf_line_test p e l b = true).
Proof.
  intros H0 H1 Hb Hv M1 M2 M3. rewrite line_test_pairs. assert (Hd := line_dirs D l H0 H1 M1). unfold segment_near.
  split; intros (t & Ht & H); exists t; (split; [exact Ht|]).
  - rewrite between_along. eapply pairs_sound; eassumption.
  - rewrite between_along in H. eapply pairs_complete; try eassumption. lra.
Qed.

Lemma ray_accuracy D (r : ray (nf p e) (Datatypes.S D)) (b : saabb (nf p e) (Datatypes.S D)) :
  finite_point (ray_origin r) -> finite_point (ray_n r) -> finite_box b -> x_valid b ->
  moderate_point (ray_n r) -> moderate_diffs (bmin b) (ray_origin r) -> moderate_diffs (bmax b) (ray_origin r) ->
  (nf_ray_test p e r b = true -> exists t, ray_near kap r b t) /\
  ((coord (fst (ray_n r)) = 0 -> coord (fst (bmin b)) < coord (fst (ray_origin r)) < coord (fst (bmax b))) ->
   (exists t t', t < t' /\ ray_near (- kap) r b t /\ ray_near (- kap) r b t') -> nf_ray_test p e r b = true).
Proof.
  intros H0 H1 Hb Hv M1 M2 M3. rewrite ray_test_pairs. assert (Hd := ray_dirs _ _ H1 M1). unfold ray_near. split.
  - intros (_ & _ & t & t' & Ht & H). exists t. eapply pairs_sound; try eassumption.
    eapply Forall_impl; [|exact H]. intros x [G1 G2]. split; [exact G1|]. eapply (hi_down rnd); [|exact G2]. lra.
  - intros Hfirst (t & t' & Ht & G & G'). rewrite <- and_assoc. split.
    + inversion H0 as [|? ? A0 _]; inversion H1 as [|? ? A1 _]; destruct Hb as [Hb1 Hb2]; inversion Hb1 as [|? ? A2 _]; inversion Hb2 as [|? ? A3 _];
        inversion M1 as [|? ? F1 _]; inversion M2 as [|? ? ? ? F2 _]; inversion M3 as [|? ? ? ? F3 _]; subst.
      rewrite !(coord_rv p e) in * by assumption. cbn [dirs_ok vmap fst snd] in Hd. destruct Hd as [(bb & D1 & D2 & D3) _]. rewrite (coord_rv p e) in * by assumption.
      unfold axis_pair, pair_of. cbn [fst snd]. destruct (moderate_fair' _ F2) as [_ F2'], (moderate_fair' _ F3) as [_ F3'].
      destruct (off_fin _ _ A2 A0 F2') as (X & a & EX & _ & Ha & EX'), (off_fin _ _ A3 A0 F3') as (Y & a' & EY & _ & Ha' & EY').
      destruct u_bounds as (_ & _ & Huc). apply Rabs_le_inv in Ha, Ha'.
      match goal with |- is_num (e_times ?x ?z) /\ is_num (e_times ?y _) => replace x with (EFin X) by (symmetry; exact EX); replace y with (EFin Y) by (symmetry; exact EY); set (zz := z) end.
      destruct (Req_dec (rv (fst (ray_n r))) 0) as [Hz|Hz].
      * destruct (Hfirst Hz) as [N1 N2]. rewrite Hz, Rmult_0_l in D1. destruct (inv_zero _ D1) as (s & Es). replace zz with (EInf s) by (symmetry; exact Es). cbn [e_times]. unfold e_scale.
        
        assert (Neg : forall l o a X, X = (l - o) * (1 + a) -> l < o -> - (1 / 4) <= a -> X < 0)
          by (intros l o a1 X1 -> ? ?; assert (0 < (o - l) * (1 + a1)) by (apply Rmult_lt_0_compat; lra); lra).
        assert (Pos : forall l o a X, X = (l - o) * (1 + a) -> o < l -> - (1 / 4) <= a -> 0 < X)
          by (intros l o a1 X1 -> ? ?; apply Rmult_lt_0_compat; lra).
        assert (P1 : X < 0) by (apply (Neg _ _ _ _ EX'); [exact N1|lra]).
        assert (P2 : 0 < Y) by (apply (Pos _ _ _ _ EY'); [exact N2|lra]).
        rewrite (Rcompare_Lt X) by exact P1. rewrite (Rcompare_Gt Y) by exact P2. split; exact Logic.I.
      * destruct D3 as [D3|D3]; [contradiction|]. assert (Hmid : mid 501 (rv (fst (ray_n r)) * (1 + bb))) by (apply (mid_near 500); [lia|lra|exact D3]).
        destruct (quo_close 0 _ (or_introl eq_refl) Hmid) as (c & c' & _ & _ & M & _). assert (Es := inv_nz _ _ D1 (mid_nz _ _ Hmid) M).
        match type of Es with _ = ?x => replace zz with x by (symmetry; exact Es) end. cbn [e_times]. split; apply ovf_num.
    + exists t, t'. split; [exact Ht|]. eapply pairs_complete; try eassumption. lra.
Qed.
End Segs.
