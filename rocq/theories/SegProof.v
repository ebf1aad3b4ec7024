(** Segments and rays against boxes: the slab algorithm on numbers with infinities and NaN, for any rounding (C37, C38). *)
From Coq Require Import Reals Lra.
From Flocq Require Import Core.
From Verif Require Export SegSpec.
Local Open Scope R_scope.

Definition is_num (x : ext) : Prop := match x with ENaN => False | _ => True end.

Section Rounding.
Variable (rho : R -> R).
Notation ext_ops := (ext_ops rho).
Notation e_div := (e_div rho).
Notation e_mul := (e_mul rho).

Notation emin := (f64_min ext_ops).
Notation emax := (f64_max ext_ops).

(** [x <= r] and [r <= x] for a real number [r]. *)
Definition below (x : ext) (r : R) : Prop := match x with ENaN => False | EInf s => s = true | EFin a => a <= r end.
Definition above (x : ext) (r : R) : Prop := match x with ENaN => False | EInf s => s = false | EFin a => r <= a end.

Ltac cases :=
  repeat match goal with
  | |- context [Rlt_bool ?a ?b] => destruct (Rlt_bool_spec a b)
  | |- context [Rle_bool ?a ?b] => destruct (Rle_bool_spec a b)
  | x : bool |- _ => destruct x
  end; cbn in *; try lra; try tauto; try congruence.

Lemma max_num t x : is_num x -> is_num (emax t x).
Proof. destruct t as [|[]|a], x as [|[]|b]; cbn; try tauto; unfold f64_max; cbn; cases. Qed.
Lemma min_num t x : is_num x -> is_num (emin t x).
Proof. destruct t as [|[]|a], x as [|[]|b]; cbn; try tauto; unfold f64_min; cbn; cases. Qed.

Lemma max_below t x r : is_num x -> below (emax t x) r <-> below x r /\ (t = ENaN \/ below t r).
Proof.
  destruct t as [|s|a], x as [|s'|b]; intros Hx; try (destruct Hx; fail); unfold f64_max; cbn;
    try (destruct s); try (destruct s'); cbn; try (intuition congruence).
  destruct (Rlt_bool_spec b a); cbn; intuition (try congruence; lra).
Qed.
Lemma min_above t x r : is_num x -> above (emin t x) r <-> above x r /\ (t = ENaN \/ above t r).
Proof.
  destruct t as [|s|a], x as [|s'|b]; intros Hx; try (destruct Hx; fail); unfold f64_min; cbn;
    try (destruct s); try (destruct s'); cbn; try (intuition congruence).
  destruct (Rlt_bool_spec a b); cbn; intuition (try congruence; lra).
Qed.
Lemma min_below x y r : is_num x -> is_num y -> below (emin x y) r <-> below x r \/ below y r.
Proof.
  destruct x as [|s|a], y as [|s'|b]; intros Hx Hy; try (destruct Hx; fail); try (destruct Hy; fail); unfold f64_min; cbn;
    try (destruct s); try (destruct s'); cbn; try (intuition congruence).
  destruct (Rlt_bool_spec a b); cbn; intuition (try congruence; lra).
Qed.
Lemma max_above x y r : is_num x -> is_num y -> above (emax x y) r <-> above x r \/ above y r.
Proof.
  destruct x as [|s|a], y as [|s'|b]; intros Hx Hy; try (destruct Hx; fail); try (destruct Hy; fail); unfold f64_max; cbn;
    try (destruct s); try (destruct s'); cbn; try (intuition congruence).
  destruct (Rlt_bool_spec b a); cbn; intuition (try congruence; lra).
Qed.

(** One dimension restricts the parameters as follows. *)
Definition lo_ok (t : ext * ext) (r : R) : Prop := fst t = ENaN \/ snd t = ENaN \/ below (fst t) r \/ below (snd t) r.
Definition hi_ok (t : ext * ext) (r : R) : Prop := fst t = ENaN \/ snd t = ENaN \/ above (fst t) r \/ above (snd t) r.

Lemma step_num s t : is_num (fst s) -> is_num (snd s) -> is_num (fst (slab_step ext_ops s t)) /\ is_num (snd (slab_step ext_ops s t)).
Proof.
  destruct s as [tmin tmax], t as [t1 t2]. cbn. intros H1 H2. split.
  - apply min_num, max_num, H1.
  - apply max_num, min_num, H2.
Qed.
Lemma step_below s t r : is_num (fst s) -> below (fst (slab_step ext_ops s t)) r <-> below (fst s) r /\ lo_ok t r.
Proof.
  destruct s as [tmin tmax], t as [t1 t2]. cbn. intros H. rewrite min_below by (now apply max_num). rewrite !max_below by exact H.
  unfold lo_ok. cbn. tauto.
Qed.
Lemma step_above s t r : is_num (snd s) -> above (snd (slab_step ext_ops s t)) r <-> above (snd s) r /\ hi_ok t r.
Proof.
  destruct s as [tmin tmax], t as [t1 t2]. cbn. intros H. rewrite max_above by (now apply min_num). rewrite !min_above by exact H.
  unfold hi_ok. cbn. tauto.
Qed.

(** All dimensions; [sub] and [into] as in the code. *)
Section Loop.
Context {N : Type} (sub : N -> N -> N) (into : N -> ext).
Notation slab := (slab sub into ext_ops).
Notation loop := (slab_loop sub into ext_ops).

Fixpoint all_slabs (P : ext * ext -> Prop) {D} : svec N D -> svec N D -> svec N D -> svec N D -> Prop :=
  match D with
  | 0 => fun _ _ _ _ => True
  | Datatypes.S D => fun bmn bmx o d => P (slab (fst bmn) (fst bmx) (fst o) (fst d)) /\ all_slabs P (snd bmn) (snd bmx) (snd o) (snd d)
  end.

Lemma loop_spec D (bmn bmx o d : svec N D) s : is_num (fst s) -> is_num (snd s) ->
  is_num (fst (loop bmn bmx o d s)) /\ is_num (snd (loop bmn bmx o d s)) /\
  (forall r, below (fst (loop bmn bmx o d s)) r <-> below (fst s) r /\ all_slabs (fun t => lo_ok t r) bmn bmx o d) /\
  (forall r, above (snd (loop bmn bmx o d s)) r <-> above (snd s) r /\ all_slabs (fun t => hi_ok t r) bmn bmx o d).
Proof.
  revert s; induction D as [|D IH]; intros s H1 H2; cbn [slab_loop all_slabs]; [tauto|].
  destruct (step_num s (slab (fst bmn) (fst bmx) (fst o) (fst d)) H1 H2) as [H3 H4].
  destruct (IH (snd bmn) (snd bmx) (snd o) (snd d) _ H3 H4) as (H5 & H6 & H7 & H8).
  split; [exact H5|]. split; [exact H6|]. split; intros r.
  - rewrite H7, step_below by exact H1. tauto.
  - rewrite H8, step_above by exact H2. tauto.
Qed.

(** The segment test: some parameter between 0 and 1 passes in every dimension. *)
Lemma line_test_iff D (b : saabb N D) o d : line_bounds_intersect sub into ext_ops b o d = true <->
  exists r, 0 <= r <= 1 /\ all_slabs (fun t => lo_ok t r) (bmin b) (bmax b) o d /\ all_slabs (fun t => hi_ok t r) (bmin b) (bmax b) o d.
Proof.
  unfold line_bounds_intersect. cbn [fl_zero fl_one fl_le ext_ops].
  destruct (loop_spec D (bmin b) (bmax b) o d (EFin 0, EFin 1) I I) as (H1 & H2 & H3 & H4).
  destruct (loop (bmin b) (bmax b) o d (EFin 0, EFin 1)) as [tmin tmax]. cbn [fst snd below above] in *. split.
  - intros Hle. destruct tmin as [|s|a]; [destruct H1| |].
    + exfalso. destruct s; [|destruct tmax as [|[]|]; cbn in *; discriminate || (specialize (H4 2); cbn in H4; destruct H4 as [H4 _]; specialize (H4 eq_refl); lra)].
      specialize (H3 (-1)). cbn in H3. destruct H3 as [H3 _]. specialize (H3 eq_refl). lra.
    + destruct tmax as [|s'|c]; [destruct H2| |].
      * destruct s'; [discriminate Hle|]. exfalso. specialize (H4 2). cbn in H4. destruct H4 as [H4 _]. specialize (H4 eq_refl). lra.
      * cbn in Hle. destruct (Rle_bool_spec a c) as [Hac|]; [|discriminate]. exists a.
        destruct (proj1 (H3 a) (Rle_refl a)) as [G1 G2]. destruct (proj1 (H4 a) Hac) as [G3 G4]. tauto.
  - intros (r & Hr & G1 & G2). assert (K1 := proj2 (H3 r) (conj (proj1 Hr) G1)). assert (K2 := proj2 (H4 r) (conj (proj2 Hr) G2)).
    destruct tmin as [|[]|a], tmax as [|[]|c]; cbn in *; try tauto; try discriminate; try reflexivity.
    destruct (Rle_bool_spec a c); [reflexivity|lra].
Qed.
End Loop.

(** One dimension over the real numbers [l <= h]: what the two sides allow. *)
Section OneSlab.
Hypothesis (rho_mono : forall a b, a <= b -> rho a <= rho b).
Hypothesis (rho_0 : rho 0 = 0).

(** [t1] and [t2] for the offsets [x = l - o] and [y = h - o]. *)
Definition slab_of (x y d : R) : ext * ext := (e_mul (EFin x) (e_div (EFin 1) (EFin d)), e_mul (EFin y) (e_div (EFin 1) (EFin d))).

Lemma slab_zero x y : slab_of x y 0 = (e_scale x false, e_scale y false).
Proof.
  assert (H : e_div (EFin 1) (EFin 0) = EInf false).
  { unfold e_div. rewrite Req_bool_true by reflexivity. unfold e_scale. rewrite Rcompare_Gt by lra. reflexivity. }
  unfold slab_of. rewrite H. reflexivity.
Qed.
Lemma slab_nonzero x y d : d <> 0 -> slab_of x y d = (EFin (rho (x * rho (1 / d))), EFin (rho (y * rho (1 / d)))).
Proof. intros H. unfold slab_of, e_div. rewrite Req_bool_false by exact H. reflexivity. Qed.

Lemma scale_cases x : (x < 0 /\ e_scale x false = EInf true) \/ (x = 0 /\ e_scale x false = ENaN) \/ (0 < x /\ e_scale x false = EInf false).
Proof. unfold e_scale. destruct (Rcompare_spec x 0); cbn; auto 6. Qed.

Lemma lo_zero x y r : x <= y -> lo_ok (slab_of x y 0) r <-> x <= 0.
Proof.
  intros Hxy. rewrite slab_zero. unfold lo_ok. cbn [fst snd].
  destruct (scale_cases x) as [[Hx ->]|[[Hx ->]|[Hx ->]]], (scale_cases y) as [[Hy ->]|[[Hy ->]|[Hy ->]]]; cbn; intuition (try congruence; try lra).
Qed.
Lemma hi_zero x y r : x <= y -> hi_ok (slab_of x y 0) r <-> 0 <= y.
Proof.
  intros Hxy. rewrite slab_zero. unfold hi_ok. cbn [fst snd].
  destruct (scale_cases x) as [[Hx ->]|[[Hx ->]|[Hx ->]]], (scale_cases y) as [[Hy ->]|[[Hy ->]|[Hy ->]]]; cbn; intuition (try congruence; try lra).
Qed.

(** The rounded parameter at which the coordinate [x] away is reached. *)
Definition quo (x d : R) : R := rho (x * rho (1 / d)).

Lemma inv_pos d : 0 < d -> 0 <= rho (1 / d).
Proof. intros H. rewrite <- rho_0. apply rho_mono. unfold Rdiv. rewrite Rmult_1_l. left. now apply Rinv_0_lt_compat. Qed.
Lemma inv_neg d : d < 0 -> rho (1 / d) <= 0.
Proof. intros H. rewrite <- rho_0. apply rho_mono. unfold Rdiv. rewrite Rmult_1_l. left. now apply Rinv_lt_0_compat. Qed.

Lemma quo_mono_pos x y d : 0 < d -> x <= y -> quo x d <= quo y d.
Proof. intros Hd H. unfold quo. apply rho_mono. apply Rmult_le_compat_r; [now apply inv_pos|exact H]. Qed.
Lemma quo_mono_neg x y d : d < 0 -> x <= y -> quo y d <= quo x d.
Proof. intros Hd H. unfold quo. apply rho_mono. assert (K := inv_neg d Hd). apply Rmult_le_compat_neg_l with (r := rho (1 / d)) in H; [|exact K]. lra. Qed.

Lemma lo_pos x y d r : 0 < d -> x <= y -> lo_ok (slab_of x y d) r <-> quo x d <= r.
Proof.
  intros Hd H. rewrite slab_nonzero by lra. unfold lo_ok. cbn. fold (quo x d) (quo y d). assert (K := quo_mono_pos x y d Hd H).
  intuition (try congruence; try lra).
Qed.
Lemma hi_pos x y d r : 0 < d -> x <= y -> hi_ok (slab_of x y d) r <-> r <= quo y d.
Proof.
  intros Hd H. rewrite slab_nonzero by lra. unfold hi_ok. cbn. fold (quo x d) (quo y d). assert (K := quo_mono_pos x y d Hd H).
  intuition (try congruence; try lra).
Qed.
Lemma lo_neg x y d r : d < 0 -> x <= y -> lo_ok (slab_of x y d) r <-> quo y d <= r.
Proof.
  intros Hd H. rewrite slab_nonzero by lra. unfold lo_ok. cbn. fold (quo x d) (quo y d). assert (K := quo_mono_neg x y d Hd H).
  intuition (try congruence; try lra).
Qed.
Lemma hi_neg x y d r : d < 0 -> x <= y -> hi_ok (slab_of x y d) r <-> r <= quo x d.
Proof.
  intros Hd H. rewrite slab_nonzero by lra. unfold hi_ok. cbn. fold (quo x d) (quo y d). assert (K := quo_mono_neg x y d Hd H).
  intuition (try congruence; try lra).
Qed.

(** A wider slab allows more. *)
Lemma lo_wider x y x' y' d r : x <= y -> x' <= x -> y <= y' -> lo_ok (slab_of x y d) r -> lo_ok (slab_of x' y' d) r.
Proof.
  intros H1 H2 H3 H. destruct (Rtotal_order d 0) as [Hd|[->|Hd]].
  - rewrite lo_neg in * by lra. assert (K := quo_mono_neg y y' d Hd H3). lra.
  - rewrite lo_zero in * by lra. lra.
  - rewrite lo_pos in * by lra. assert (K := quo_mono_pos x' x d Hd H2). lra.
Qed.
Lemma hi_wider x y x' y' d r : x <= y -> x' <= x -> y <= y' -> hi_ok (slab_of x y d) r -> hi_ok (slab_of x' y' d) r.
Proof.
  intros H1 H2 H3 H. destruct (Rtotal_order d 0) as [Hd|[->|Hd]].
  - rewrite hi_neg in * by lra. assert (K := quo_mono_neg x' x d Hd H2). lra.
  - rewrite hi_zero in * by lra. lra.
  - rewrite hi_pos in * by lra. assert (K := quo_mono_pos y y' d Hd H3). lra.
Qed.
End OneSlab.

Lemma lo_up t r r' : r <= r' -> lo_ok t r -> lo_ok t r'.
Proof.
  intros Hr. unfold lo_ok. destruct t as [x y]. cbn.
  assert (H : forall e, below e r -> below e r') by (intros [|[]|a]; cbn; auto; lra). intuition.
Qed.
Lemma hi_down t r r' : r <= r' -> hi_ok t r' -> hi_ok t r.
Proof.
  intros Hr. unfold hi_ok. destruct t as [x y]. cbn.
  assert (H : forall e, above e r' -> above e r) by (intros [|[]|a]; cbn; auto; lra). intuition.
Qed.

(** ** The dimensions as a list of (lower offset, upper offset, direction) *)
Definition axis : Type := R * R * R.
Definition slab_at (a : axis) : ext * ext := slab_of (fst (fst a)) (snd (fst a)) (snd a).

Section Axes.
Context {N : Type} (val : N -> R) (sub : N -> N -> N) (into : N -> ext).

Fixpoint axes {D} : svec N D -> svec N D -> svec N D -> svec N D -> list axis :=
  match D with
  | 0 => fun _ _ _ _ => []
  | Datatypes.S D => fun bmn bmx o d =>
      (val (fst bmn) - val (fst o), val (fst bmx) - val (fst o), val (fst d)) :: axes (snd bmn) (snd bmx) (snd o) (snd d)
  end.

(** The subtractions and conversions are exact. *)
Fixpoint exact_at {D} : svec N D -> svec N D -> svec N D -> svec N D -> Prop :=
  match D with
  | 0 => fun _ _ _ _ => True
  | Datatypes.S D => fun bmn bmx o d =>
      (into (sub (fst bmn) (fst o)) = EFin (val (fst bmn) - val (fst o)) /\
       into (sub (fst bmx) (fst o)) = EFin (val (fst bmx) - val (fst o)) /\ into (fst d) = EFin (val (fst d))) /\
      exact_at (snd bmn) (snd bmx) (snd o) (snd d)
  end.

Lemma slab_axis l h o d : into (sub l o) = EFin (val l - val o) -> into (sub h o) = EFin (val h - val o) -> into d = EFin (val d) ->
  slab sub into ext_ops l h o d = slab_at (val l - val o, val h - val o, val d).
Proof. intros H1 H2 H3. unfold slab. rewrite H1, H2, H3. reflexivity. Qed.

Lemma all_slabs_axes P D (bmn bmx o d : svec N D) : exact_at bmn bmx o d ->
  all_slabs sub into P bmn bmx o d <-> Forall (fun a => P (slab_at a)) (axes bmn bmx o d).
Proof.
  induction D as [|D IH]; cbn [exact_at all_slabs axes]; [intros _; split; auto|]. intros [(H1 & H2 & H3) H].
  rewrite (slab_axis _ _ _ _ H1 H2 H3), Forall_cons_iff, IH by exact H. tauto.
Qed.

Lemma line_test_axes D (b : saabb N D) o d : exact_at (bmin b) (bmax b) o d ->
  line_bounds_intersect sub into ext_ops b o d = true <->
  exists r, 0 <= r <= 1 /\ Forall (fun a => lo_ok (slab_at a) r /\ hi_ok (slab_at a) r) (axes (bmin b) (bmax b) o d).
Proof.
  intros H. rewrite line_test_iff. split; intros (r & Hr & G).
  - exists r. split; [exact Hr|]. destruct G as [G1 G2]. apply all_slabs_axes in G1, G2; try exact H.
    rewrite Forall_forall in *. auto.
  - exists r. split; [exact Hr|]. rewrite !all_slabs_axes by exact H. rewrite !Forall_forall in *. split; intros a Ha; now apply G.
Qed.

(** The ray test. *)
Lemma ray_test_axes D (b : saabb N (Datatypes.S D)) o d : exact_at (bmin b) (bmax b) o d ->
  val (fst (bmin b)) <= val (fst (bmax b)) ->
  ray_bounds_intersect sub into ext_ops b o d = true <->
  (val (fst d) = 0 -> val (fst (bmin b)) < val (fst o) < val (fst (bmax b))) /\
  exists r r', r < r' /\ Forall (fun a => lo_ok (slab_at a) r /\ hi_ok (slab_at a) r') (axes (bmin b) (bmax b) o d).
Proof.
  intros [(H1 & H2 & H3) H] Hv. unfold ray_bounds_intersect. rewrite (slab_axis _ _ _ _ H1 H2 H3). cbn [axes].
  set (a := (val (fst (bmin b)) - val (fst o), val (fst (bmax b)) - val (fst o), val (fst d))).
  set (x := val (fst (bmin b)) - val (fst o)) in *. set (y := val (fst (bmax b)) - val (fst o)) in *. set (dd := val (fst d)) in *.
  assert (Hxy : x <= y) by (unfold x, y; lra).
  assert (Hs : val (fst (bmin b)) < val (fst o) < val (fst (bmax b)) <-> x < 0 < y) by (unfold x, y; lra). rewrite Hs. clear Hs.
  assert (K : (dd = 0 -> x < 0 < y) ->
    is_num (fst (slab_at a)) /\ is_num (snd (slab_at a))).
  { intros Hd. unfold slab_at, a. cbn [fst snd]. destruct (Req_dec dd 0) as [Hz|Hz].
    - specialize (Hd Hz). rewrite Hz, slab_zero. cbn [fst snd].
      destruct (scale_cases x) as [[? ->]|[[? ->]|[? ->]]]; try lra; destruct (scale_cases y) as [[? ->]|[[? ->]|[? ->]]]; try lra. split; exact I.
    - rewrite slab_nonzero by exact Hz. split; exact I. }
  assert (J : ~ (dd = 0 -> x < 0 < y) -> dd = 0 /\ ~ x < 0 < y).
  { intros Hn. destruct (Req_dec dd 0) as [Hz|Hz]; [|exfalso; apply Hn; lra]. split; [exact Hz|tauto]. }
  destruct (slab_at a) as [t1 t2] eqn:Ea.
  assert (Hdec : (dd = 0 -> x < 0 < y) \/ ~ (dd = 0 -> x < 0 < y)).
  { destruct (Req_dec dd 0) as [Hz|Hz]; [|left; lra]. destruct (Rlt_dec x 0), (Rlt_dec 0 y); [left; lra|right; lra..]. }
  destruct Hdec as [Hd|Hd].
  - specialize (K Hd). cbn [fst snd] in K. destruct K as [K1 K2].
    destruct (loop_spec sub into D (snd (bmin b)) (snd (bmax b)) (snd o) (snd d) (emin t1 t2, emax t1 t2)) as (G1 & G2 & G3 & G4);
      [now apply min_num|now apply max_num|].
    destruct (slab_loop sub into ext_ops (snd (bmin b)) (snd (bmax b)) (snd o) (snd d) (emin t1 t2, emax t1 t2)) as [tmin tmax].
    cbn [fst snd] in *.
    assert (A1 : forall r, below (emin t1 t2) r <-> lo_ok (slab_at a) r).
    { intros r. rewrite Ea, min_below by assumption. unfold lo_ok. cbn [fst snd]. destruct t1, t2; cbn in K1, K2; try tauto; intuition discriminate. }
    assert (A2 : forall r, above (emax t1 t2) r <-> hi_ok (slab_at a) r).
    { intros r. rewrite Ea, max_above by assumption. unfold hi_ok. cbn [fst snd]. destruct t1, t2; cbn in K1, K2; try tauto; intuition discriminate. }
    transitivity (exists r r', r < r' /\ below tmin r /\ above tmax r').
    + cbn [fl_lt SegSpec.ext_ops]. split.
      * intros Hlt. destruct tmin as [|[]|u], tmax as [|[]|w]; cbn in *; try tauto; try discriminate.
        -- exists 0, 1. repeat split; lra.
        -- exists (w - 1), w. repeat split; lra.
        -- exists u, (u + 1). repeat split; lra.
        -- destruct (Rlt_bool_spec u w); [|discriminate]. exists u, w. repeat split; lra.
      * intros (r & r' & Hr & B1 & B2). destruct tmin as [|[]|u], tmax as [|[]|w]; cbn in *; try tauto; try discriminate.
        destruct (Rlt_bool_spec u w); [reflexivity|lra].
    + split.
      * intros (r & r' & Hr & B1 & B2). split; [exact Hd|]. exists r, r'. split; [exact Hr|].
        apply G3 in B1. apply G4 in B2. rewrite A1 in B1. rewrite A2 in B2. destruct B1 as [B1 C1], B2 as [B2 C2].
        apply all_slabs_axes in C1, C2; try exact H. constructor; [now rewrite Ea in *|]. rewrite Forall_forall in *. auto.
      * intros (_ & r & r' & Hr & F). inversion F as [|? ? F1 F2]; subst. exists r, r'. split; [exact Hr|]. rewrite G3, G4, A1, A2.
        rewrite !all_slabs_axes by exact H. destruct F1. rewrite !Forall_forall in *. repeat split; try assumption; intros c Hc; now apply F2.
  - split; [|intros [Hd' _]; tauto]. intros Hlt. exfalso. apply J in Hd. destruct Hd as [Hz Hd]. clear J K.
    unfold slab_at, a in Ea. cbn [fst snd] in Ea. rewrite Hz, slab_zero in Ea. injection Ea as <- <-.
    (* either the origin is outside, or on a side of the box: both ends are the same infinity, or NaN *)
    assert (Hcase : (exists s, fl_lt ext_ops (fst (slab_loop sub into ext_ops (snd (bmin b)) (snd (bmax b)) (snd o) (snd d) (EInf s, EInf s)))
         (snd (slab_loop sub into ext_ops (snd (bmin b)) (snd (bmax b)) (snd o) (snd d) (EInf s, EInf s))) = true) \/
      fl_lt ext_ops (fst (slab_loop sub into ext_ops (snd (bmin b)) (snd (bmax b)) (snd o) (snd d) (ENaN, ENaN)))
         (snd (slab_loop sub into ext_ops (snd (bmin b)) (snd (bmax b)) (snd o) (snd d) (ENaN, ENaN))) = true).
    { destruct (scale_cases x) as [[Hx Ex]|[[Hx Ex]|[Hx Ex]]]; destruct (scale_cases y) as [[Hy Ey]|[[Hy Ey]|[Hy Ey]]]; rewrite Ex, Ey in Hlt; try lra; try (exfalso; apply Hd; split; assumption);
        unfold f64_min, f64_max in Hlt; cbn [fl_lt SegSpec.ext_ops e_lt andb negb] in Hlt;
        match type of Hlt with context [slab_loop ?s ?i ?O ?a1 ?a2 ?a3 ?a4 (?p, _)] =>
          destruct (slab_loop s i O a1 a2 a3 a4 (p, p)) as [tmin tmax] eqn:El end.
      - left. exists true. rewrite El. exact Hlt.
      - right. exact Hlt.
      - right. exact Hlt.
      - left. exists false. rewrite El. exact Hlt.
      - left. exists false. rewrite El. exact Hlt. }
    clear Hlt. destruct Hcase as [(s & Hlt)|Hlt].
    + destruct (loop_spec sub into D (snd (bmin b)) (snd (bmax b)) (snd o) (snd d) (EInf s, EInf s) I I) as (G1 & G2 & G3 & G4).
      destruct (slab_loop sub into ext_ops (snd (bmin b)) (snd (bmax b)) (snd o) (snd d) (EInf s, EInf s)) as [tmin tmax].
      cbn [fst snd fl_lt SegSpec.ext_ops below above] in *. destruct s.
      * destruct tmax as [|[]|w]; [destruct tmin as [|[]|]; discriminate|destruct tmin as [|[]|]; discriminate| |].
        -- destruct (proj1 (G4 0) eq_refl). discriminate.
        -- destruct (proj1 (G4 w) (Rle_refl w)). discriminate.
      * destruct tmin as [|[]|u]; [discriminate| | |].
        -- destruct (proj1 (G3 0) eq_refl). discriminate.
        -- destruct tmax as [|[]|]; discriminate.
        -- destruct (proj1 (G3 u) (Rle_refl u)). discriminate.
    + assert (E : forall D (bmn bmx o d : svec N D), slab_loop sub into ext_ops bmn bmx o d (ENaN, ENaN) = (ENaN, ENaN)).
      { clear. induction D as [|D IH]; intros bmn bmx o d; [reflexivity|]. cbn [slab_loop].
        destruct (slab sub into ext_ops (fst bmn) (fst bmx) (fst o) (fst d)) as [u w].
        assert (Es : slab_step ext_ops (ENaN, ENaN) (u, w) = (ENaN, ENaN)).
        { unfold slab_step, f64_min, f64_max. cbn [fl_lt SegSpec.ext_ops]. destruct u, w; reflexivity. }
        rewrite Es. apply IH. }
      rewrite E in Hlt. discriminate.
Qed.

(** The point with parameter [t] lies in the box when it does so in every dimension. *)
Definition axis_in (t : R) (a : axis) : Prop := fst (fst a) <= t * snd a <= snd (fst a).

Lemma in_box_axes D (b : saabb N D) o d t : real_in_box val b (along (vmap val o) (vmap val d) t) <->
  Forall (axis_in t) (axes (bmin b) (bmax b) o d).
Proof.
  unfold real_in_box. destruct b as [bmn bmx]. cbn [bmin bmax]. induction D as [|D IH].
  - cbn. split; [constructor|]. intros _. split; constructor.
  - cbn [axes]. rewrite Forall_cons_iff, <- IH. cbn [along vmap vmap2 vlist fst snd]. unfold axis_in. cbn [fst snd]. split.
    + intros [H1 H2]. inversion H1; inversion H2; subst. repeat split; try assumption; lra.
    + intros [[H1 H2] [H3 H4]]. split; apply Forall2_cons; try assumption; lra.
Qed.

(** The box is not inverted. *)
Lemma axes_valid D (b : saabb N D) o d : Forall2 (fun l h => val l <= val h) (vlist (bmin b)) (vlist (bmax b)) ->
  Forall (fun a => fst (fst a) <= snd (fst a)) (axes (bmin b) (bmax b) o d).
Proof.
  destruct b as [bmn bmx]. cbn [bmin bmax]. induction D as [|D IH]; intros H; cbn [axes]; [constructor|].
  cbn [vlist] in H. inversion H; subst. constructor; [cbn; lra|auto].
Qed.
End Axes.
End Rounding.

(** ** Exact arithmetic *)
Lemma exact_axis (a : axis) r : fst (fst a) <= snd (fst a) ->
  lo_ok (slab_at (fun r => r) a) r /\ hi_ok (slab_at (fun r => r) a) r <-> axis_in r a.
Proof.
  destruct a as [[x y] d]. unfold slab_at, axis_in. cbn [fst snd]. intros Hxy.
  assert (M : forall a b : R, a <= b -> a <= b) by auto.
  destruct (Rtotal_order d 0) as [Hd|[->|Hd]].
  - rewrite lo_neg, hi_neg by auto. unfold quo.
    assert (E1 : x * (1 / d) * d = x) by (field; lra). assert (E2 : y * (1 / d) * d = y) by (field; lra). split; intros [H1 H2]; split.
    + rewrite <- E1. nra.
    + rewrite <- E2. nra.
    + apply Rnot_lt_le. intros H. nra.
    + apply Rnot_lt_le. intros H. nra.
  - rewrite lo_zero, hi_zero by auto. lra.
  - rewrite lo_pos, hi_pos by auto. unfold quo.
    assert (E1 : x * (1 / d) * d = x) by (field; lra). assert (E2 : y * (1 / d) * d = y) by (field; lra). split; intros [H1 H2]; split.
    + rewrite <- E1. nra.
    + rewrite <- E2. nra.
    + apply Rnot_lt_le. intros H. nra.
    + apply Rnot_lt_le. intros H. nra.
Qed.
