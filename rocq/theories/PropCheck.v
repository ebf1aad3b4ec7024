(** C55 builds with overflow checks and debug assertions; C56 the number of geometric operations. *)
From Verif Require Export CheckRun Witness.

(** ** C55 a build with checks behaves like one without *)

(** *** For every bounds type and whatever its checks: same outcome, or a panic. *)
Theorem C55_same_or_panic_partial :
  forall (B K V : Type) (P : Params B K) (CK : Checks (vops P)) (cfg : config) (os : list (op K V)),
  snd (k_run P CK cfg (rtree_new P : rtree B K V) os) = run P cfg (rtree_new P) os
  \/ snd (k_run P CK cfg (rtree_new P : rtree B K V) os) = Panic.
Proof. intros *. apply krun_agrees_or_panics. Qed.
Print Assumptions C55_same_or_panic_partial.

(** The coordinates of a key. *)
Definition point_in_window (lo hi : Z) {D} (p : svec i32 D) : Prop := Forall (fun x => (lo <= i32_val x <= hi)%Z) (vlist p).
Definition corners_in_window (lo hi : Z) {D} (b : saabb i32 D) : Prop := point_in_window lo hi (bmin b) /\ point_in_window lo hi (bmax b).

Lemma corners_box lo hi D (b : saabb i32 D) : corners_in_window lo hi b -> box_in_window lo hi b.
Proof.
  intros [H1 H2]. unfold box_in_window, vzip, point_in_window in *. apply Forall_forall. intros [x y] Hin.
  rewrite Forall_forall in H1, H2. split; [eapply H1, in_combine_l, Hin|eapply H2, in_combine_r, Hin].
Qed.

Lemma window_run {K V} D (P : Params (saabb i32 D) K) (CK : Checks (vops P)) cfg (lo hi k : Z) (ok : K -> Prop) (os : list (op K V)) :
  bops P = box_bounds_ops i32_ops ->
  (forall b, box_in_window lo hi b -> vol_fits CK b = true) ->
  (forall a b, box_in_window lo hi a -> box_in_window lo hi b -> sub_fits CK (volume (vops P) a) (volume (vops P) b) = true) ->
  (forall k, ok k -> box_in_window lo hi (key_bounds P k)) ->
  Forall (ok_op ok) os -> 1 <= min_children cfg \/ (forall k, ~ In (ORemove k) os) ->
  snd (k_run P CK cfg (rtree_new P : rtree (saabb i32 D) K V) os) = run P cfg (rtree_new P) os.
Proof.
  intros HB Hv Hs Hk Hok Hrm.
  assert (Gu : forall a b, box_in_window lo hi a -> box_in_window lo hi b -> box_in_window lo hi (b_union (bops P) a b)) by (rewrite HB; apply window_union).
  assert (L : rel_laws P ok (rel_win P (box_in_window lo hi))).
  { apply win_laws; auto; rewrite HB; [apply window_empty_l|apply window_empty_r|apply empty_union|reflexivity]. }
  destruct (ag_krun P CK cfg True (box_in_window lo hi) ltac:(auto) ltac:(auto) Gu ok _ L 1 True ltac:(lia) Hk
    (win_child P ok (box_in_window lo hi) cfg) os) with (t := rtree_new P : rtree (saabb i32 D) K V) as [H|[_ H]]; auto.
  - destruct Hrm as [Hrm|Hrm]; [right; intros _; exact Hrm|left; exact Hrm].
  - apply (grown_wf P cfg ok _ L 1 True False); try tauto; try lia. apply g_new.
  - now elim H.
Qed.

(** Coordinates of all keys between [lo] and [hi], [hi - lo] an [i32] and at most [2 ^ k] with [k * D <= 1023] (for
    coordinates that span nearly the whole of [i32], [k = 31] and [D <= 33]); no removals, or [min_children] at least 1. *)
Theorem C55_points_in_window_partial :
  forall (V : Type) (D : nat) (cfg : config) (lo hi k : Z) (os : list (op (svec i32 D) V)),
  1 <= D -> (0 <= k)%Z -> (hi - lo <= 2147483647)%Z -> (hi - lo <= 2 ^ k)%Z -> (k * Z.of_nat D <= 1023)%Z ->
  Forall (ok_op (point_in_window lo hi)) os -> 1 <= min_children cfg \/ (forall p, ~ In (ORemove p) os) ->
  snd (k_run (i32_point_params D) (i32_checks D) cfg (rtree_new (i32_point_params D)) os)
    = run (i32_point_params D) cfg (rtree_new (i32_point_params D)) os.
Proof.
  intros V D cfg lo hi k os HD Hk H1 H2 H3 Hok Hrm.
  assert (Hb : forall b : saabb i32 D, box_in_window lo hi b -> i32_vol_fits b = true /\ exists r, rep (volume (i32_volume_ops D) b) r) by (intros; now apply (window_vol lo hi k)).
  apply (window_run D (i32_point_params D) (i32_checks D) cfg lo hi k (point_in_window lo hi)); auto.
  - intros b H. exact (proj1 (Hb b H)).
  - intros a b Ha Hb'. destruct (proj2 (Hb a Ha)) as [ra Hra], (proj2 (Hb b Hb')) as [rb Hrb]. change (negb (f64_is_nan (f64_sub (volume (i32_volume_ops D) a) (volume (i32_volume_ops D) b))) = true).
    now rewrite (sub_not_nan _ _ _ _ Hra Hrb).
  - intros p Hp. apply corners_box. split; exact Hp.
Qed.
Print Assumptions C55_points_in_window_partial.

Theorem C55_boxes_in_window_partial :
  forall (V : Type) (D : nat) (cfg : config) (lo hi k : Z) (os : list (op (saabb i32 D) V)),
  1 <= D -> (0 <= k)%Z -> (hi - lo <= 2147483647)%Z -> (hi - lo <= 2 ^ k)%Z -> (k * Z.of_nat D <= 1023)%Z ->
  Forall (ok_op (corners_in_window lo hi)) os -> 1 <= min_children cfg \/ (forall b, ~ In (ORemove b) os) ->
  snd (k_run (i32_box_params D) (i32_checks D) cfg (rtree_new (i32_box_params D)) os)
    = run (i32_box_params D) cfg (rtree_new (i32_box_params D)) os.
Proof.
  intros V D cfg lo hi k os HD Hk H1 H2 H3 Hok Hrm.
  assert (Hb : forall b : saabb i32 D, box_in_window lo hi b -> i32_vol_fits b = true /\ exists r, rep (volume (i32_volume_ops D) b) r) by (intros; now apply (window_vol lo hi k)).
  apply (window_run D (i32_box_params D) (i32_checks D) cfg lo hi k (corners_in_window lo hi)); auto.
  - intros b H. exact (proj1 (Hb b H)).
  - intros a b Ha Hb'. destruct (proj2 (Hb a Ha)) as [ra Hra], (proj2 (Hb b Hb')) as [rb Hrb]. change (negb (f64_is_nan (f64_sub (volume (i32_volume_ops D) a) (volume (i32_volume_ops D) b))) = true).
    now rewrite (sub_not_nan _ _ _ _ Hra Hrb).
  - intros b Hb'. now apply corners_box.
Qed.
Print Assumptions C55_boxes_in_window_partial.

(** No panic therefore, where the unchecked build does not panic (C23). *)
Theorem C55_no_panic_in_window_partial :
  forall (V : Type) (D : nat) (cfg : config) (lo hi k : Z) (os : list (op (svec i32 D) V)),
  1 <= D -> (0 <= k)%Z -> (hi - lo <= 2147483647)%Z -> (hi - lo <= 2 ^ k)%Z -> (k * Z.of_nat D <= 1023)%Z ->
  Forall (ok_op (point_in_window lo hi)) os -> 2 <= max_children cfg -> 2 <= min_children cfg ->
  exists xs t, snd (k_run (i32_point_params D) (i32_checks D) cfg (rtree_new (i32_point_params D)) os) = Ok (xs, t).
Proof.
  intros V D cfg lo hi k os HD Hk H1 H2 H3 Hok Hc Hm.
  rewrite (C55_points_in_window_partial V D cfg lo hi k os HD Hk H1 H2 H3 Hok); [|left; lia].
  destruct (run_no_panic (i32_point_params D) cfg os) as [[xs t] E]; [split; lia|]. eauto.
Qed.
Print Assumptions C55_no_panic_in_window_partial.

(** Deciding whether a history stays in a window. *)
Definition in_windowb (lo hi : Z) {V D} (o : op (svec i32 D) V) : bool :=
  match op_key o with Some p => forallb (fun x => ((lo <=? i32_val x) && (i32_val x <=? hi))%Z) (vlist p) | None => true end.
Lemma in_windowb_ok lo hi {V D} (os : list (op (svec i32 D) V)) : forallb (in_windowb lo hi) os = true -> Forall (ok_op (point_in_window lo hi)) os.
Proof.
  intros H. apply Forall_forall. intros o Hin. rewrite forallb_forall in H. specialize (H o Hin). unfold in_windowb, ok_op in *.
  destruct (op_key o) as [p|]; [|exact I]. apply Forall_forall. intros x Hx. rewrite forallb_forall in H. specialize (H x Hx).
  apply andb_prop in H as [H1 H2]. split; now apply Z.leb_le.
Qed.

Definition check_run {V D} cfg (os : list (op (svec i32 D) V)) : res unit :=
  res_map (fun _ => tt) (snd (k_run (i32_point_params D) (i32_checks D) cfg (rtree_new (i32_point_params D)) os)).

(** *** False without the window: two coordinates at least 2^31 apart. *)
Definition C55_wide_ops : list (op (svec i32 1) nat) :=
  map (fun x => OInsert (p1 x) 0) [-2147483648; 0; 1; 2; 2147483647]%Z.
Theorem C55_wide_refuted :
  exists (cfg : config) (os : list (op (svec i32 1) nat)),
  supported cfg /\ (exists xs t, run (i32_point_params 1) cfg (rtree_new (i32_point_params 1)) os = Ok (xs, t)) /\
  snd (k_run (i32_point_params 1) (i32_checks 1) cfg (rtree_new (i32_point_params 1)) os) = Panic.
Proof.
  exists (cfg_of 4 2), C55_wide_ops. split; [exact supported42|]. split; [destruct (run_no_panic (i32_point_params 1) (cfg_of 4 2) C55_wide_ops supported42) as [[xs t] E]; eauto|].
  assert (H : match check_run (cfg_of 4 2) C55_wide_ops with Panic => true | _ => false end = true) by (vm_compute; reflexivity).
  unfold check_run, res_map in H. destruct (snd (k_run _ _ _ _ C55_wide_ops)); cbn in H; try discriminate. reflexivity.
Qed.
Print Assumptions C55_wide_refuted.

(** *** False in the smallest window for [min_children = 0]: an emptied leaf has bounds (MAX, MIN), whose extent overflows. *)
Definition C55_min0_ops : list (op (svec i32 1) nat) :=
  map (fun x => OInsert (p1 x) 0) [0; 1; 2]%Z ++ map (fun x => ORemove (p1 x)) [0; 1; 2]%Z ++ [OInsert (p1 1) 0].
Theorem C55_min0_refuted :
  exists (cfg : config) (os : list (op (svec i32 1) nat)),
  supported cfg /\ Forall (ok_op (point_in_window 0 2)) os /\
  (exists xs t, run (i32_point_params 1) cfg (rtree_new (i32_point_params 1)) os = Ok (xs, t)) /\
  snd (k_run (i32_point_params 1) (i32_checks 1) cfg (rtree_new (i32_point_params 1)) os) = Panic.
Proof.
  assert (Hsup : supported (cfg_of 2 0)) by (split; cbn; lia).
  exists (cfg_of 2 0), C55_min0_ops. split; [exact Hsup|]. split.
  { apply in_windowb_ok. vm_compute. reflexivity. }
  split; [destruct (run_no_panic (i32_point_params 1) (cfg_of 2 0) C55_min0_ops Hsup) as [[xs t] E]; eauto|].
  assert (H : match check_run (cfg_of 2 0) C55_min0_ops with Panic => true | _ => false end = true) by (vm_compute; reflexivity).
  unfold check_run, res_map in H. destruct (snd (k_run _ _ _ _ C55_min0_ops)); cbn in H; try discriminate. reflexivity.
Qed.
Print Assumptions C55_min0_refuted.

(** *** Points without coordinates: the first split panics (in every build: this check is in the code). *)
Definition C55_dim0_ops : list (op (svec i32 0) nat) := map (fun v => OInsert tt v) (seq 0 5).
Theorem C55_dim0_refuted :
  exists (cfg : config) (os : list (op (svec i32 0) nat)),
  supported cfg /\ snd (k_run (i32_point_params 0) (i32_checks 0) cfg (rtree_new (i32_point_params 0)) os) = Panic.
Proof.
  exists (cfg_of 4 2), C55_dim0_ops. split; [exact supported42|].
  assert (H : match check_run (cfg_of 4 2) C55_dim0_ops with Panic => true | _ => false end = true) by (vm_compute; reflexivity).
  unfold check_run, res_map in H. destruct (snd (k_run _ _ _ _ C55_dim0_ops)); cbn in H; try discriminate. reflexivity.
Qed.
Print Assumptions C55_dim0_refuted.

(** A history in a window that splits, removes and re-inserts: how it ends, and how many checked or counted operations it performs. *)
Definition C55_history : list (op (svec i32 2) nat) :=
  sample_ops ++ map ORemove (firstn 12 (flat_map (fun o => match o with OInsert k _ => [k] | _ => [] end) sample_ops)).
Definition C55_outcome (r : C (list (out nat) * rtree (saabb i32 2) (svec i32 2) nat) (saabb i32 2) f64) : nat * nat * nat :=
  match snd r with Ok (xs, t) => (length xs, length (contents t), cost (fst r)) | _ => (0, 0, 0) end.
Example C55_example :
  Forall (ok_op (point_in_window 0 33)) C55_history /\ C55_outcome (k_run (i32_point_params 2) (i32_checks 2) (cfg_of 4 2) (rtree_new (i32_point_params 2)) C55_history) = (40, 11, 1481).
Proof. split; [apply in_windowb_ok|]; vm_compute; reflexivity. Qed.

(** ** C56 how many geometric operations a call performs *)

(** A build in which no check fails. *)
Definition no_checks {B} (VO : VolumeOps B) : Checks VO := Build_Checks B VO (fun _ => true) (fun _ _ => true).
(** The cost of one level: what splitting a full node, choosing among its children and recomputing its bounds may take. *)
Definition per_level (cfg : config) : nat := 5 * max_children cfg * max_children cfg + 11 * max_children cfg + 2.

Lemma entry_per_level cfg h : entry_cost cfg h <= (h + 1) * per_level cfg.
Proof.
  unfold entry_cost, per_level, level_cost, split_cost. generalize (max_children cfg). intros c. rewrite Nat.mul_add_distr_r.
  assert (h * (5 * c * c + 1 + 11 * c) <= h * (5 * c * c + 11 * c + 2)) by (apply Nat.mul_le_mono_l; lia). lia.
Qed.

(** The counting model computes what Model.v computes. *)
Theorem C56_counts_the_model :
  forall (B K V : Type) (P : Params B K) (cfg : config) (os : list (op K V)),
  snd (k_run P (no_checks (vops P)) cfg (rtree_new P : rtree B K V) os) = run P cfg (rtree_new P) os.
Proof.
  intros B K V P cfg os.
  destruct (ag_krun P (no_checks (vops P)) cfg True (fun _ => True) ltac:(reflexivity) ltac:(reflexivity) ltac:(tauto) any_key rel_any (any_laws P _) 0 False ltac:(tauto)
    (fun _ _ => I) (fun _ _ _ => I) os ltac:(right; tauto) (rtree_new P : rtree B K V)) as [H|[_ H]]; [| |exact H|elim H; exact I].
  - apply (inv_any P cfg any_key), r_new.
  - apply Forall_forall. intros o _. unfold ok_op, any_key. now destruct (op_key o).
Qed.
Print Assumptions C56_counts_the_model.

(** [insert] and [insert_unique] on any reachable tree, whatever the outcome: proportional to the height. *)
Theorem C56_insert :
  forall (B K V : Type) (P : Params B K) (CK : Checks (vops P)) (cfg : config) (t : rtree B K V) (k : K) (v : V),
  reachable P cfg any_key t ->
  cost (fst (k_insert P CK cfg t k v)) <= (fst t + 1) * per_level cfg
  /\ cost (fst (k_insert_unique P CK cfg t k v)) <= (fst t + 1) * per_level cfg.
Proof.
  intros * Hr. apply inv_any in Hr. destruct Hr as [Hw _].
  assert (H1 := cost_insert_entry P CK cfg any_key t (ELeaf (k, v)) Hw).
  assert (H2 := cost_insert_unique P CK cfg any_key t k v Hw).
  assert (H3 := entry_per_level cfg (fst t)). unfold entry_cost in H3. split; (eapply Nat.le_trans; [|exact H3]); [exact H1|exact H2].
Qed.
Print Assumptions C56_insert.

(** [remove]: nothing if there is no such key; else a path, and the re-insertion of what was in underfull nodes. *)
Theorem C56_remove :
  forall (B K V Q : Type) (P : Params B K) (CK : Checks (vops P)) (cfg : config) (BR : Borrowed B K Q) (t : rtree B K V) (q : Q) o t',
  reachable P cfg any_key t -> snd (k_remove P CK cfg BR t q) = Ok (o, t') ->
  match o with
  | None => cost (fst (k_remove P CK cfg BR t q)) = 0
  | Some _ => cost (fst (k_remove P CK cfg BR t q))
      <= (fst t + 1) * max_children cfg + fst t * (min_children cfg - 1) * ((fst t' + 1) * per_level cfg)
  end.
Proof.
  intros * Hr E. apply inv_any in Hr. assert (H := cost_remove P CK cfg any_key BR t q o t' Hr E). fold (k_remove P CK cfg BR t q) in H.
  assert (H2 := entry_per_level cfg (fst t')).
  destruct o; [|apply Nat.le_0_r, H]. eapply Nat.le_trans; [exact H|]. apply Nat.add_le_mono_l, Nat.mul_le_mono_l, H2.
Qed.
Print Assumptions C56_remove.

(** Logarithmic in the number of entries, for the configurations of C22. *)
Theorem C56_insert_log :
  forall (B K V : Type) (P : Params B K) (CK : Checks (vops P)) (cfg : config) (t : rtree B K V) (k : K) (v : V),
  2 <= min_children cfg -> min_children cfg + 2 <= max_children cfg -> reachable P cfg any_key t ->
  cost (fst (k_insert P CK cfg t k v)) <= (Nat.log2 (length (contents t)) + 1) * per_level cfg
  /\ cost (fst (k_insert_unique P CK cfg t k v)) <= (Nat.log2 (length (contents t)) + 1) * per_level cfg.
Proof.
  intros * H1 H2 Hr. destruct (C56_insert B K V P CK cfg t k v Hr) as [Ha Hb].
  assert (Hh : fst t <= Nat.log2 (length (contents t))).
  { destruct (Nat.eq_dec (fst t) 0) as [->|Hn]; [lia|]. assert (H := height_log P cfg any_key t H1 H2 Hr Hn).
    apply Nat.log2_le_mono in H. rewrite Nat.log2_pow2 in H by lia. lia. }
  split; eapply Nat.le_trans; try eassumption; apply Nat.mul_le_mono_r; lia.
Qed.
Print Assumptions C56_insert_log.

Theorem C56_remove_log :
  forall (B K V Q : Type) (P : Params B K) (CK : Checks (vops P)) (cfg : config) (BR : Borrowed B K Q) (t : rtree B K V) (q : Q) o t',
  2 <= min_children cfg -> min_children cfg + 2 <= max_children cfg -> reachable P cfg any_key t ->
  snd (k_remove P CK cfg BR t q) = Ok (o, t') ->
  let h := Nat.log2 (length (contents t)) + 1 in
  cost (fst (k_remove P CK cfg BR t q)) <= h * max_children cfg + h * h * (min_children cfg - 1) * per_level cfg.
Proof.
  intros B K V Q P CK cfg BR t q o t' H1 H2 Hr E h. assert (H := C56_remove B K V Q P CK cfg BR t q o t' Hr E).
  assert (Hlog : forall u : rtree B K V, reachable P cfg any_key u -> fst u <= Nat.log2 (length (contents u))).
  { intros u Hu. destruct (Nat.eq_dec (fst u) 0) as [->|Hn]; [lia|]. assert (Hx := height_log P cfg any_key u H1 H2 Hu Hn).
    apply Nat.log2_le_mono in Hx. rewrite Nat.log2_pow2 in Hx by lia. lia. }
  assert (Hh := Hlog t Hr). destruct o as [v|]; [|rewrite H; apply Nat.le_0_l].
  assert (Hm : rtree_remove P cfg BR t q = Ok (Some v, t')).
  { destruct (ag_remove P CK cfg False (fun _ => True) ltac:(tauto) ltac:(tauto) ltac:(tauto) any_key rel_any (any_laws P _) 0 False ltac:(tauto)
      (fun _ _ => I) (fun _ _ _ => I) ltac:(tauto) BR t q (inv_any P cfg any_key t Hr)) as [Ha|[Ha _]]; [exact (eq_trans (eq_sym Ha) E)|discriminate (eq_trans (eq_sym Ha) E)]. }
  assert (Hr' : reachable P cfg any_key t') by (eapply r_remove; eassumption).
  assert (Hh' := Hlog t' Hr').
  assert (Hp := container_remove_spec P cfg any_key rel_any (any_laws P _) 0 False BR False ltac:(tauto) ltac:(tauto) ltac:(tauto) ltac:(tauto) ltac:(tauto) False (False_rect _) t q (inv_any P cfg any_key t Hr)).
  unfold rtree_remove in Hm. rewrite Hm in Hp. cbn [post] in Hp. destruct Hp as (_ & k & _ & Hp). apply Permutation_length in Hp. cbn [length] in Hp.
  assert (Hll : Nat.log2 (length (contents t')) <= Nat.log2 (length (contents t))) by (apply Nat.log2_le_mono; lia).
  unfold h. set (l := Nat.log2 (length (contents t))) in *. set (p := per_level cfg) in *. set (m := min_children cfg - 1) in *.
  eapply Nat.le_trans; [exact H|]. apply Nat.add_le_mono; [apply Nat.mul_le_mono_r; lia|].
  replace ((l + 1) * (l + 1) * m * p) with ((l + 1) * m * ((l + 1) * p)) by ring.
  apply Nat.mul_le_mono; [apply Nat.mul_le_mono_r; lia|]. apply Nat.mul_le_mono_r. lia.
Qed.
Print Assumptions C56_remove_log.

Example C56_example :
  reachable PP (cfg_of 4 2) any_key sample /\ fst sample = 2 /\ length (contents sample) = 22 /\ (fst sample + 1) * per_level (cfg_of 4 2) = 378
  /\ map (fun p => cost (fst (k_insert PP (no_checks _) (cfg_of 4 2) sample p 0))) [pt 4 4; pt 21 21] = [37; 99]
  /\ map (fun p => cost (fst (k_remove PP (no_checks _) (cfg_of 4 2) (self_borrow PP) sample p))) [pt 4 4; pt 21 20; pt 77 77] = [35; 8; 0]
  /\ match snd (k_remove PP (no_checks _) (cfg_of 4 2) (self_borrow PP) sample (pt 4 4)) with Ok (Some v, _) => v | _ => 0 end = 11.
Proof. split; [exact sample_reachable|]. repeat split; vm_compute; reflexivity. Qed.
