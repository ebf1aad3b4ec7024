(** Property C82: debug builds with floating-point coordinates.  Vocabulary: FpCheckSpec.v. *)
From Coq Require Import Reals Lra Floats.SpecFloat.
From Verif Require Import Witness FpCheckProof PropCore PropFp.

Lemma check_run_spec {A} (r : res A) : match res_map (fun _ => tt) r with Panic => true | _ => false end = true -> r = Panic.
Proof. destruct r; cbn; try discriminate. reflexivity. Qed.

Lemma vzip_diag {A} D (a : svec A D) q : In q (vzip a a) -> In (fst q) (vlist a) /\ snd q = fst q.
Proof. unfold vzip. induction (vlist a) as [|x l IH]; cbn; [tauto|]. intros [<-|H]; [auto|]. destruct (IH H). auto. Qed.

(** ** C82 a debug build with [N32] or [N64] coordinates gives the results of a release build: no assertion of the float type fails *)

(** Coordinates of at most [2 ^ k] in absolute value, [k + 1] below the exponent limit (so [k <= 126] for [N32], [k <= 1022] for
    [N64]) and [(k + 1) * D <= 1023]; no removals, or [min_children] at least 1. *)
Theorem C82_points_in_window_partial :
  forall (p e : Z) (k D : nat) (V : Type) (cfg : config) (os : list (op (svec (nf p e) D) V)),
  fp_format p e -> (p <= 53)%Z -> (e <= 1024)%Z -> (Z.of_nat k + 1 < e)%Z -> 1 <= D -> (k + 1) * D <= 1023 ->
  Forall (ok_op (small_point k)) os -> 1 <= min_children cfg \/ (forall a, ~ In (ORemove a) os) ->
  snd (k_run (nf_point_params p e D) (nf_checks p e D) cfg (rtree_new (nf_point_params p e D)) os)
    = run (nf_point_params p e D) cfg (rtree_new (nf_point_params p e D)) os.
Proof.
  intros p e k D V cfg os Hf Hp He Hk HD HkD Hok Hrm.
  apply (small_runs p e Hf Hp He k Hk D (nf_point_params p e D) eq_refl (nf_checks p e D) cfg (small_point k)); auto; try lia.
  intros a Ha. apply small_box_set. split; exact Ha.
Qed.
Print Assumptions C82_points_in_window_partial.

Theorem C82_boxes_in_window_partial :
  forall (p e : Z) (k D : nat) (V : Type) (cfg : config) (os : list (op (saabb (nf p e) D) V)),
  fp_format p e -> (p <= 53)%Z -> (e <= 1024)%Z -> (Z.of_nat k + 1 < e)%Z -> 1 <= D -> (k + 1) * D <= 1023 ->
  Forall (ok_op (small_box k)) os -> 1 <= min_children cfg \/ (forall b, ~ In (ORemove b) os) ->
  snd (k_run (nf_box_params p e D) (nf_checks p e D) cfg (rtree_new (nf_box_params p e D)) os)
    = run (nf_box_params p e D) cfg (rtree_new (nf_box_params p e D)) os.
Proof.
  intros p e k D V cfg os Hf Hp He Hk HD HkD Hok Hrm.
  apply (small_runs p e Hf Hp He k Hk D (nf_box_params p e D) eq_refl (nf_checks p e D) cfg (small_box k)); auto; try lia.
  intros b Hb. now apply small_box_set.
Qed.
Print Assumptions C82_boxes_in_window_partial.

(** No panic therefore, where the release build does not panic (C23). *)
Theorem C82_no_panic_in_window_partial :
  forall (p e : Z) (k D : nat) (V : Type) (cfg : config) (os : list (op (svec (nf p e) D) V)),
  fp_format p e -> (p <= 53)%Z -> (e <= 1024)%Z -> (Z.of_nat k + 1 < e)%Z -> 1 <= D -> (k + 1) * D <= 1023 ->
  Forall (ok_op (small_point k)) os -> 2 <= max_children cfg -> 2 <= min_children cfg ->
  exists xs t, snd (k_run (nf_point_params p e D) (nf_checks p e D) cfg (rtree_new (nf_point_params p e D)) os) = Ok (xs, t).
Proof.
  intros p e k D V cfg os Hf Hp He Hk HD HkD Hok Hc Hm.
  rewrite (C82_points_in_window_partial p e k D V cfg os Hf Hp He Hk HD HkD Hok); [|left; lia].
  destruct (run_no_panic (nf_point_params p e D) cfg os) as [[xs t] E]; [split; lia|]. eauto.
Qed.
Print Assumptions C82_no_panic_in_window_partial.

(** Without any condition: a debug build panics or gives the results of a release build. *)
Theorem C82_agrees_or_panics_partial :
  forall (p e : Z) (D : nat) (V : Type) (cfg : config) (os : list (op (svec (nf p e) D) V)),
  snd (k_run (nf_point_params p e D) (nf_checks p e D) cfg (rtree_new (nf_point_params p e D)) os)
    = run (nf_point_params p e D) cfg (rtree_new (nf_point_params p e D)) os \/
  snd (k_run (nf_point_params p e D) (nf_checks p e D) cfg (rtree_new (nf_point_params p e D)) os) = Panic.
Proof. intros. apply krun_agrees_or_panics. Qed.
Print Assumptions C82_agrees_or_panics_partial.

(** *** False without the window: five insertions of points with finite coordinates, two of them the extreme ones ... *)
Definition fwide : list n64 :=
  [s_min_value (nf_ops 53 1024); fz 0; fz 1; fz 2; s_max_value (nf_ops 53 1024)].
Definition C82_wide_ops : list (op (svec n64 2) nat) := map (fun x => OInsert (fp x (fz 0)) 0) fwide.
(** ... or at infinity. *)
Definition C82_inf_ops : list (op (svec n64 1) nat) := map (fun v => OInsert ((finf false, tt) : svec n64 1) v) (seq 0 5).

Definition fp_check_run {D V} cfg (os : list (op (svec n64 D) V)) :=
  res_map (fun _ => tt) (snd (k_run (nf_point_params 53 1024 D) (nf_checks 53 1024 D) cfg (rtree_new (nf_point_params 53 1024 D)) os)).

Theorem C82_refuted :
  exists (cfg : config) (os : list (op (svec n64 2) nat)),
  supported cfg /\ 1 <= min_children cfg /\ Forall (ok_op finite_point) os /\
  (exists xs t, run (nf_point_params 53 1024 2) cfg (rtree_new (nf_point_params 53 1024 2)) os = Ok (xs, t)) /\
  snd (k_run (nf_point_params 53 1024 2) (nf_checks 53 1024 2) cfg (rtree_new (nf_point_params 53 1024 2)) os) = Panic.
Proof.
  exists (cfg_of 4 2), C82_wide_ops. split; [exact supported42|]. split; [cbn; lia|]. split.
  { unfold C82_wide_ops, fwide. repeat constructor; eexists; reflexivity. }
  split; [destruct (run_no_panic (nf_point_params 53 1024 2) (cfg_of 4 2) C82_wide_ops supported42) as [[xs t] E]; eauto|].
  apply check_run_spec. change (match fp_check_run (cfg_of 4 2) C82_wide_ops with Panic => true | _ => false end = true). vm_compute. reflexivity.
Qed.
Print Assumptions C82_refuted.

Theorem C82_infinite_refuted :
  exists (cfg : config) (os : list (op (svec n64 1) nat)),
  supported cfg /\ 1 <= min_children cfg /\
  (exists xs t, run (nf_point_params 53 1024 1) cfg (rtree_new (nf_point_params 53 1024 1)) os = Ok (xs, t)) /\
  snd (k_run (nf_point_params 53 1024 1) (nf_checks 53 1024 1) cfg (rtree_new (nf_point_params 53 1024 1)) os) = Panic.
Proof.
  exists (cfg_of 4 2), C82_inf_ops. split; [exact supported42|]. split; [cbn; lia|].
  split; [destruct (run_no_panic (nf_point_params 53 1024 1) (cfg_of 4 2) C82_inf_ops supported42) as [[xs t] E]; eauto|].
  apply check_run_spec. change (match fp_check_run (cfg_of 4 2) C82_inf_ops with Panic => true | _ => false end = true). vm_compute. reflexivity.
Qed.
Print Assumptions C82_infinite_refuted.

(** *** The hypotheses are met: points of the plane with coordinates between 0 and 16, some of them removed again. *)
Lemma fz16 : nf_value (fz 16) = XReal 16 /\ nf_value (fz (-16)) = XReal (-16).
Proof.
  assert (E1 : nf_raw (fz 16) = S754_finite false 4503599627370496 (-48)) by (vm_compute; reflexivity).
  assert (E2 : nf_raw (fz (-16)) = S754_finite true 4503599627370496 (-48)) by (vm_compute; reflexivity).
  unfold nf_value. rewrite E1, E2. cbn [sf_value].
  assert (H : (IZR (Z.pos 4503599627370496) * powerRZ 2 (-48) = 16)%R).
  { replace (Z.pos 4503599627370496) with (16 * 2 ^ 48)%Z by reflexivity. rewrite mult_IZR. change 48%Z with (Z.of_nat 48). rewrite <- pow_IZR.
    change (powerRZ 2 (-48)) with (/ 2 ^ 48)%R. field. }
  split; apply (f_equal XReal); rewrite Rmult_assoc, H; lra.
Qed.
Definition small16b {V D} (o : op (svec n64 D) V) : bool :=
  match op_key o with Some a => forallb (fun x => s_le (nf_ops 53 1024) x (fz 16) && s_le (nf_ops 53 1024) (fz (-16)) x) (vlist a) | None => true end.
Lemma small16b_ok {V D} (os : list (op (svec n64 D) V)) : forallb small16b os = true -> Forall (ok_op (small_point 4)) os.
Proof.
  intros H. apply Forall_forall. intros o Hin. rewrite forallb_forall in H. specialize (H o Hin). unfold small16b, ok_op, n64 in *.
  destruct (op_key o) as [a|]; [|exact I]. apply Forall_forall. intros x Hx. apply (proj1 (forallb_forall _ _)) with (x := x) in H; [|exact Hx].
  apply andb_prop in H as [H1 H2]. apply (nf_le 53 1024) in H1, H2. destruct fz16 as [E1 E2]. rewrite E1 in H1. rewrite E2 in H2.
  unfold small_coord. destruct (nf_value x) as [|r|]; cbn in H1, H2; try contradiction. exists r. split; [reflexivity|lra].
Qed.

Definition C82_history : list (op (svec n64 2) nat) :=
  map (fun i => OInsert (fp (fz (Z.of_nat ((i * 7) mod 17))) (fz (- Z.of_nat ((i * 5) mod 16)))) i) (seq 0 20) ++
  map (fun i => ORemove (fp (fz (Z.of_nat ((i * 7) mod 17))) (fz (- Z.of_nat ((i * 5) mod 16))))) (seq 0 8).
Definition C82_outcome (r : C (list (out nat) * rtree (saabb n64 2) (svec n64 2) nat) (saabb n64 2) f64) : nat * nat * nat :=
  match snd r with Ok (xs, t) => (length xs, length (contents t), cost (fst r)) | _ => (0, 0, 0) end.
Example C82_example :
  fp_format 53 1024 /\ fp_format 24 128 /\ Forall (ok_op (small_point 4)) C82_history /\
  C82_outcome (k_run (nf_point_params 53 1024 2) (nf_checks 53 1024 2) (cfg_of 4 2) (rtree_new (nf_point_params 53 1024 2)) C82_history) = (28, 12, 1028).
Proof. split; [split; reflexivity|]. split; [split; reflexivity|]. split; [apply small16b_ok|]; vm_compute; reflexivity. Qed.
