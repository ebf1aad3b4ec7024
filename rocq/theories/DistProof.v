(** Distances: proofs. *)
From Verif Require Export DistSpec GeomProof IterSpec.
Local Open Scope Z_scope.

Section Int.
Context {N : Type} (S : ScalarOps N) (A : ArithOps N) (val : N -> Z) (lo hi : Z) (L : int_laws S A val lo hi).

Lemma int_scalar_laws : scalar_laws S.
Proof.
  constructor; [constructor| |]; intros *; rewrite ?(int_le _ _ _ _ _ L), ?(int_eqb _ _ _ _ _ L), ?Z.leb_le, ?Z.eqb_eq, ?(int_min _ _ _ _ _ L), ?(int_max _ _ _ _ _ L); try lia.
  - apply (int_range _ _ _ _ _ L).
  - apply (int_range _ _ _ _ _ L).
Qed.

Definition cong (x y : Z) : Prop := exists n, x = y + n * (hi - lo + 1).

Lemma cong_eq x y : cong x y -> lo <= x <= hi -> lo <= y <= hi -> x = y.
Proof. intros [n ->] H1 H2. assert (n = 0) by nia. lia. Qed.

Lemma zdist2_cons D (a p : svec N (Datatypes.S D)) :
  zdist2 val a p = (val (fst a) - val (fst p)) * (val (fst a) - val (fst p)) + zdist2 val (snd a) (snd p).
Proof. reflexivity. Qed.

Lemma zdist2_nonneg D (a p : svec N D) : 0 <= zdist2 val a p.
Proof. induction D as [|D IH]; [cbn; lia|]. rewrite zdist2_cons. specialize (IH (snd a) (snd p)).
  assert (H := Z.square_nonneg (val (fst a) - val (fst p))). lia. Qed.

Lemma fold_add_cong l x y s : cong (val x) y -> (Forall2 (fun a b => cong (val a) b) l s) ->
  cong (val (fold_left (a_add A) l x)) (y + fold_right Z.add 0 s).
Proof.
  intros H Hs; revert x y H; induction Hs as [|a b l s Hab Hs IH]; intros x y H; cbn.
  - now rewrite Z.add_0_r.
  - rewrite Z.add_assoc. apply IH. destruct (int_add _ _ _ _ _ L x a) as [n ->]. destruct H as [n1 ->], Hab as [n2 ->].
    exists (n + n1 + n2). ring.
Qed.

Lemma sq_cong x y : cong (val (a_mul A (a_sub A x y) (a_sub A x y))) ((val x - val y) * (val x - val y)).
Proof.
  destruct (int_mul _ _ _ _ _ L (a_sub A x y) (a_sub A x y)) as [n ->]. destruct (int_sub _ _ _ _ _ L x y) as [m ->].
  exists (n + 2 * m * (val x - val y) + m * m * (hi - lo + 1)). ring.
Qed.

Lemma squares_cong D (a p : svec N D) :
  Forall2 (fun a b => cong (val a) b) (map (fun x => a_mul A x x) (vlist (vmap2 (a_sub A) a p)))
    (map (fun xy => (val (fst xy) - val (snd xy)) * (val (fst xy) - val (snd xy))) (vzip a p)).
Proof. induction D as [|D IH]; cbn; constructor; [apply sq_cong|apply IH]. Qed.

Lemma point_dist_cong D (a p : svec N (Datatypes.S D)) : cong (val (point_dist_sq A a p)) (zdist2 val a p).
Proof. rewrite zdist2_cons. apply fold_add_cong; [apply sq_cong|apply squares_cong]. Qed.

Lemma point_dist_exact D (a p : svec N (Datatypes.S D)) : zdist2 val a p <= hi -> val (point_dist_sq A a p) = zdist2 val a p.
Proof.
  intros H. apply cong_eq; [apply point_dist_cong|apply (int_range _ _ _ _ _ L)|].
  assert (H0 := zdist2_nonneg _ a p). assert (H1 := int_zero _ _ _ _ _ L). lia.
Qed.

Definition clamp {D} (b : saabb N D) (p : svec N D) : svec N D := cw_min S (cw_max S p (bmin b)) (bmax b).

Lemma clamp_val l h x : val l <= val h -> val (s_min S (s_max S x l) h) = Z.min (Z.max (val x) (val l)) (val h).
Proof.
  intros H. unfold s_min, s_max. rewrite !(int_le _ _ _ _ _ L).
  destruct (Z.leb_spec (val x) (val l)); [destruct (Z.leb_spec (val l) (val h))|destruct (Z.leb_spec (val x) (val h))]; lia.
Qed.

Lemma in_box_cons D (b : saabb N (Datatypes.S D)) q : in_box S b q <->
  (val (fst (bmin b)) <= val (fst q) <= val (fst (bmax b))) /\ in_box S {| bmin := snd (bmin b); bmax := snd (bmax b) |} (snd q).
Proof.
  unfold in_box. cbn [bmin bmax]. rewrite !vec_le_cons, !(int_le _ _ _ _ _ L), !Z.leb_le. tauto.
Qed.

Lemma clamp_in D (b : saabb N D) p q : in_box S b q -> in_box S b (clamp b p).
Proof.
  induction D as [|D IH].
  - intros _. split; apply vec_le_nil.
  - rewrite !in_box_cons. intros [H1 H2]. split; [|exact (IH {| bmin := snd (bmin b); bmax := snd (bmax b) |} (snd p) (snd q) H2)].
    unfold clamp, cw_min, cw_max. cbn [vmap2 fst]. rewrite clamp_val; lia.
Qed.

Lemma clamp_square l h q p : l <= q <= h ->
  (Z.min (Z.max p l) h - p) * (Z.min (Z.max p l) h - p) <= (q - p) * (q - p).
Proof.
  intros H. assert (Hc : 0 <= Z.min (Z.max p l) h - p <= q - p \/ q - p <= Z.min (Z.max p l) h - p <= 0) by lia.
  generalize dependent (Z.min (Z.max p l) h - p). intros c Hc. nia.
Qed.

Lemma clamp_nearest D (b : saabb N D) p q : in_box S b q -> zdist2 val (clamp b p) p <= zdist2 val q p.
Proof.
  induction D as [|D IH]; [intros _; cbn; lia|].
  rewrite in_box_cons, !zdist2_cons. intros [H1 H2].
  specialize (IH {| bmin := snd (bmin b); bmax := snd (bmax b) |} (snd p) (snd q) H2).
  assert (E : val (fst (clamp b p)) = Z.min (Z.max (val (fst p)) (val (fst (bmin b)))) (val (fst (bmax b)))).
  { unfold clamp, cw_min, cw_max. cbn [vmap2 fst]. apply clamp_val. lia. }
  rewrite E. change (snd (clamp b p)) with (clamp {| bmin := snd (bmin b); bmax := snd (bmax b) |} (snd p)).
  assert (Hs := clamp_square _ _ _ (val (fst p)) H1). lia.
Qed.

Lemma box_dist_least D (b : saabb N (Datatypes.S D)) p q : in_box S b q -> zdist2 val q p <= hi ->
  least_dist2 S val b p (val (box_dist_sq S A b p)).
Proof.
  intros Hq Hhi. assert (Hc := clamp_nearest _ b p q Hq). unfold box_dist_sq. fold (clamp b p).
  rewrite point_dist_exact by lia. split; [eexists; split; [eapply clamp_in; exact Hq|reflexivity]|].
  intros q' Hq'. now apply clamp_nearest.
Qed.

Lemma least_unique D (b : saabb N D) p m m' : least_dist2 S val b p m -> least_dist2 S val b p m' -> m = m'.
Proof. intros [(q & Hq & <-) H] [(q' & Hq' & <-) H']. specialize (H _ Hq'). specialize (H' _ Hq). lia. Qed.

Lemma least_exists D (b : saabb N D) p : valid_box S b -> exists m, least_dist2 S val b p m.
Proof.
  intros Hv. assert (Hq : in_box S b (bmin b)) by (split; [apply (vec_le_refl S int_scalar_laws)|exact Hv]).
  exists (zdist2 val (clamp b p) p). split; [eexists; split; [eapply clamp_in; exact Hq|reflexivity]|].
  intros q' Hq'. now apply clamp_nearest.
Qed.

(** *** Overflow checks *)
Context (C : CheckedOps N) (CL : checked_laws C val lo hi) (Hsym : lo <= - hi).

Lemma abs_square d : Z.abs d <= d * d.
Proof. destruct (Z.abs_spec d) as [[? ->]|[? ->]]; nia. Qed.

Lemma checked_sub_ok D (a p : svec N D) M : zdist2 val a p <= M -> M <= hi -> exists l, checked_sub C a p = Ok l /\
  map val l = map (fun xy => val (fst xy) - val (snd xy)) (vzip a p).
Proof.
  revert M; induction D as [|D IH]; intros M HM Hhi; cbn [checked_sub].
  - exists []. split; reflexivity.
  - rewrite zdist2_cons in HM. assert (H0 := zdist2_nonneg _ (snd a) (snd p)).
    assert (Hs := abs_square (val (fst a) - val (fst p))).
    destruct (chk_sub _ _ _ _ CL (fst a) (fst p)) as (c & -> & Ec); [lia|].
    destruct (IH (snd a) (snd p) (zdist2 val (snd a) (snd p)) ltac:(lia) ltac:(lia)) as (l & -> & El).
    exists (c :: l). split; [reflexivity|]. cbn. now rewrite Ec, El.
Qed.

Lemma checked_sum_ok l acc : 0 <= val acc -> val acc + fold_right Z.add 0 (map (fun x => val x * val x) l) <= hi ->
  exists r, checked_sum C acc l = Ok r /\ val r = val acc + fold_right Z.add 0 (map (fun x => val x * val x) l).
Proof.
  assert (Hz := int_zero _ _ _ _ _ L).
  revert acc; induction l as [|x l IH]; intros acc H0 H; cbn in *; [exists acc; split; [reflexivity|lia]|].
  assert (Hn : 0 <= fold_right Z.add 0 (map (fun x => val x * val x) l)) by (clear; induction l; cbn; nia).
  assert (Hx := Z.square_nonneg (val x)).
  destruct (chk_mul _ _ _ _ CL x x) as (c & -> & Ec); [lia|]. cbn [bind].
  destruct (chk_add _ _ _ _ CL acc c) as (d & -> & Ed); [lia|]. cbn [bind].
  destruct (IH d) as (r & Er & Hr); [lia|lia|]. exists r. split; [exact Er|]. lia.
Qed.

Lemma point_dist_checked D (a p : svec N (Datatypes.S D)) : zdist2 val a p <= hi ->
  exists r, point_dist_sq_checked C a p = Ok r /\ val r = zdist2 val a p.
Proof.
  intros H. unfold point_dist_sq_checked. destruct (checked_sub_ok _ a p _ H ltac:(lia)) as (l & -> & El). cbn [bind].
  assert (Hz := int_zero _ _ _ _ _ L).
  assert (Es : zdist2 val a p = fold_right Z.add 0 (map (fun x => val x * val x) l)).
  { unfold zdist2. rewrite <- (map_map (fun xy => val (fst xy) - val (snd xy)) (fun z => z * z)), <- El, map_map. reflexivity. }
  rewrite Es in *. destruct l as [|x l]; [discriminate|]. cbn in H |- *.
  assert (Hn : 0 <= fold_right Z.add 0 (map (fun x => val x * val x) l)) by (clear; induction l; cbn; nia).
  assert (Hx := Z.square_nonneg (val x)).
  destruct (chk_mul _ _ _ _ CL x x) as (c & -> & Ec); [lia|]. cbn [bind].
  destruct (checked_sum_ok l c) as (r & Er & Hr); [lia|lia|]. exists r. split; [exact Er|]. rewrite Hr, Ec. reflexivity.
Qed.

Lemma box_dist_checked D (b : saabb N (Datatypes.S D)) p q : in_box S b q -> zdist2 val q p <= hi ->
  exists r, box_dist_sq_checked S C b p = Ok r /\ least_dist2 S val b p (val r).
Proof.
  intros Hq H. assert (Hc := clamp_nearest _ b p q Hq). unfold box_dist_sq_checked. fold (clamp b p).
  destruct (point_dist_checked _ (clamp b p) p) as (r & E & Hr); [lia|]. exists r. split; [exact E|]. rewrite Hr.
  split; [eexists; split; [eapply clamp_in; exact Hq|reflexivity]|]. intros q' Hq'. now apply clamp_nearest.
Qed.

(** *** Rankings *)
Lemma int_cmp_laws : cmp_laws (int_cmp val).
Proof.
  constructor; unfold int_cmp.
  - intros a b. apply Z.compare_antisym.
  - intros a b c. rewrite !Z.compare_gt_iff. lia.
Qed.
End Int.
