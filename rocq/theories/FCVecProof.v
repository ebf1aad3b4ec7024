(** The raw-memory vector refines a list of at most [cap] elements. *)
From Verif Require Export FCVecSpec.

Section Rep.
Context {T : Type} (cap : nat).

(** [v] holds exactly the list [l]: the block is live, has [cap] cells, and the first [len] are [l]. *)
Definition rep (v : vec T) (l : list T) : Prop :=
  exists rest, buf v = Live (map Some l ++ rest) /\ length l + length rest = cap /\ len v = length l.

Lemma set_nth_app1 : forall {A} i (x : A) l r, i < length l -> set_nth i x (l ++ r) = set_nth i x l ++ r.
Proof. induction i; destruct l; cbn; intros; try lia; f_equal; auto with arith. Qed.
Lemma set_nth_app2 : forall {A} (x : A) l r, set_nth (length l) x (l ++ r) = l ++ set_nth 0 x r.
Proof. induction l; intros; [reflexivity|]. cbn [length app set_nth]. rewrite IHl. reflexivity. Qed.
Lemma set_nth_map : forall {A C} (f : A -> C) i x l, set_nth i (f x) (map f l) = map f (set_nth i x l).
Proof. induction i; destruct l; cbn; f_equal; auto. Qed.
Lemma set_nth_length : forall {A} i (x : A) l, length (set_nth i x l) = length l.
Proof. induction i; destruct l; cbn; auto. Qed.
Lemma set_nth_split : forall {A} i (x : A) l, i < length l -> set_nth i x l = firstn i l ++ x :: skipn (S i) l.
Proof. induction i; destruct l; cbn; intros; try lia; auto; f_equal; apply IHi; lia. Qed.

Lemma read_rep : forall (l : list T) rest i x,
  nth_error l i = Some x -> ptr_read (Live (map Some l ++ rest)) i = Ok x.
Proof.
  intros. cbn.
  assert (i < length l) by (apply nth_error_Some; congruence).
  rewrite nth_error_app1 by (rewrite map_length; auto).
  rewrite (map_nth_error Some _ _ H). reflexivity.
Qed.

Lemma slice_rep : forall (l pre : list T) rest,
  slice_from (Live (map Some (pre ++ l) ++ rest)) (length pre) (length l) = Ok l.
Proof.
  induction l; intros; [reflexivity|].
  cbn [length slice_from].
  rewrite (read_rep _ _ _ a) by (rewrite nth_error_app2, Nat.sub_diag by lia; reflexivity).
  cbn [bind]. specialize (IHl (pre ++ [a]) rest).
  rewrite <- app_assoc, app_length in IHl. cbn in IHl. rewrite Nat.add_1_r in IHl.
  cbn. rewrite IHl. reflexivity.
Qed.

Lemma vec_slice_rep : forall v l, rep v l -> vec_slice v = Ok l.
Proof.
  intros v l (rest & Hb & _ & Hl). unfold vec_slice. rewrite Hb, Hl. apply (slice_rep l [] rest).
Qed.

Lemma push_write : forall (l rest : list (option T)) x, 0 < length rest ->
  ptr_write (Live (l ++ rest)) (length l) x = Ok (Live (l ++ Some x :: tl rest)).
Proof.
  intros. unfold ptr_write. rewrite app_length.
  replace (length l <? length l + length rest) with true by (symmetry; apply Nat.ltb_lt; lia).
  rewrite set_nth_app2. destruct rest; cbn in *; [lia|reflexivity].
Qed.

Lemma rep_push : forall v l x, rep v l -> length l <> cap ->
  exists b, ptr_write (buf v) (len v) x = Ok b /\ rep {| buf := b; len := len v + 1 |} (l ++ [x]).
Proof.
  intros v l x (rest & Hb & Hc & Hl) Hn. rewrite Hb, Hl.
  pose proof (push_write (map Some l) rest x ltac:(lia)) as E. rewrite map_length in E. rewrite E.
  eexists; split; [reflexivity|]. exists (tl rest). cbn.
  rewrite map_app, <- app_assoc, app_length. cbn. split; [reflexivity|].
  destruct rest; cbn in *; lia.
Qed.

Lemma firstn_map_app : forall (l : list T) rest i, i <= length l ->
  firstn i (map Some l ++ rest) = map Some (firstn i l).
Proof.
  intros. rewrite firstn_app, map_length. replace (i - length l) with 0 by lia.
  rewrite firstn_O, app_nil_r, firstn_map. reflexivity.
Qed.
Lemma skipn_map_app : forall (l : list T) rest i, i <= length l ->
  skipn i (map Some l ++ rest) = map Some (skipn i l) ++ rest.
Proof.
  intros. rewrite skipn_app, map_length. replace (i - length l) with 0 by lia.
  rewrite skipn_O, skipn_map. reflexivity.
Qed.

Lemma skipn_one : forall {A} i (l : list A) x, nth_error l i = Some x -> skipn i l = x :: skipn (S i) l.
Proof. induction i; destruct l; cbn; intros; try discriminate; [congruence|apply IHi; auto]. Qed.
Lemma skipn_last : forall {A} (l : list A) d, l <> [] -> skipn (length l - 1) l = [last l d].
Proof.
  induction l; intros; [congruence|]. destruct l; [reflexivity|].
  cbn [length]. replace (S (S (length l)) - 1) with (S (length (a0 :: l) - 1)) by (cbn; lia).
  change (skipn (S (length (a0 :: l) - 1)) (a :: a0 :: l)) with (skipn (length (a0 :: l) - 1) (a0 :: l)).
  rewrite (IHl d) by congruence. reflexivity.
Qed.

(** One call: the same elements handed out, the new content as specified, a panic exactly when specified. *)
Lemma step_rep : forall v l o, rep v l ->
  match list_step cap l o with
  | Ok (out, l') => exists v', vec_step cap v o = Ok (out, v') /\ rep v' l'
  | Panic => vec_step cap v o = Panic
  | _ => False
  end.
Proof.
  intros v l o R. pose proof R as (rest & Hb & Hc & Hl). destruct o; cbn [list_step vec_step].
  - (* push *) unfold vec_push. rewrite Hl.
    destruct (length l =? cap) eqn:E; [reflexivity|]. apply Nat.eqb_neq in E.
    destruct (rep_push v l x R E) as (b & Hw & R'). rewrite Hl in Hw. rewrite Hw. cbn.
    eexists; split; [reflexivity|]. rewrite <- Hl; auto.
  - (* try_push *) unfold vec_try_push. rewrite Hl.
    destruct (length l =? cap) eqn:E; [cbn; eauto|]. apply Nat.eqb_neq in E.
    destruct (rep_push v l x R E) as (b & Hw & R'). rewrite Hl in Hw. rewrite Hw. cbn.
    eexists; split; [reflexivity|]. rewrite <- Hl; auto.
  - (* insert *) unfold vec_insert. rewrite Hl.
    destruct (length l <? i) eqn:E1; cbn [orb]; [reflexivity|].
    destruct (length l =? cap) eqn:E2; [reflexivity|].
    apply Nat.ltb_ge in E1. apply Nat.eqb_neq in E2. rewrite Hb. unfold ptr_copy.
    rewrite app_length, map_length.
    replace (i + (length l - i)) with (length l) by lia.
    replace (i + 1 + (length l - i)) with (length l + 1) by lia.
    replace (length l <=? length l + length rest) with true by (symmetry; apply Nat.leb_le; lia).
    replace (length l + 1 <=? length l + length rest) with true by (symmetry; apply Nat.leb_le; lia).
    cbn [andb bind ptr_write].
    destruct rest as [|r0 rest]; [cbn in Hc; lia|].
    assert (Hf : firstn (i + 1) (map Some l ++ r0 :: rest)
      = map Some (firstn i l) ++ [hd r0 (map Some (skipn i l))]).
    { rewrite <- (firstn_skipn i l) at 1. rewrite map_app, <- app_assoc.
      rewrite firstn_app, map_length, firstn_length.
      replace (Nat.min i (length l)) with i by lia. replace (i + 1 - i) with 1 by lia.
      rewrite firstn_all2 by (rewrite map_length, firstn_length; lia). f_equal.
      destruct (skipn i l); reflexivity. }
    rewrite Hf. rewrite (skipn_map_app l) by lia.
    rewrite firstn_app, map_length, skipn_length.
    rewrite (firstn_all2 (map Some (skipn i l))) by (rewrite map_length, skipn_length; lia).
    replace (length l - i - (length l - i)) with 0 by lia. rewrite firstn_O, app_nil_r.
    rewrite skipn_app, map_length. replace (length l + 1 - length l) with 1 by lia.
    rewrite (skipn_all2 (map Some l)) by (rewrite map_length; lia). cbn [app skipn].
    rewrite <- app_assoc. cbn [app].
    rewrite app_length. cbn [length]. rewrite !app_length, !map_length, firstn_length, skipn_length.
    replace (i <? _) with true by (symmetry; apply Nat.ltb_lt; lia).
    cbn [bind]. eexists; split; [reflexivity|]. exists rest. cbn [buf len]. split; [|split].
    + f_equal. replace i with (length (map Some (firstn i l))) at 1
        by (rewrite map_length, firstn_length; lia).
      rewrite set_nth_app2. cbn. rewrite map_app, <- app_assoc. reflexivity.
    + rewrite app_length. cbn [length]. rewrite firstn_length, skipn_length. cbn in Hc. lia.
    + rewrite app_length. cbn [length]. rewrite firstn_length, skipn_length. lia.
  - (* remove *) unfold vec_remove. rewrite Hl.
    destruct (nth_error l i) eqn:E.
    + assert (Hi : i < length l) by (apply nth_error_Some; congruence).
      replace (length l <=? i) with false by (symmetry; apply Nat.leb_gt; lia).
      rewrite Hb, (read_rep _ _ _ _ E). cbn [bind]. unfold ptr_copy.
      rewrite app_length, map_length.
      replace (i + 1 + (length l - i - 1) <=? _) with true by (symmetry; apply Nat.leb_le; lia).
      replace (i + (length l - i - 1) <=? _) with true by (symmetry; apply Nat.leb_le; lia).
      cbn [andb bind]. eexists; split; [reflexivity|].
      rewrite firstn_map_app, (skipn_map_app _ _ (i + 1)), (skipn_map_app _ _ (i + (length l - i - 1))) by lia.
      rewrite firstn_app, map_length, skipn_length, (firstn_all2 (map Some (skipn (i + 1) l))) by (rewrite map_length, skipn_length; lia).
      replace (length l - i - 1 - (length l - (i + 1))) with 0 by lia. rewrite firstn_O, app_nil_r.
      exists (map Some (skipn (i + (length l - i - 1)) l) ++ rest). cbn [buf len].
      replace (i + 1) with (S i) by lia. split; [|split].
      * f_equal. rewrite map_app, <- !app_assoc. reflexivity.
      * rewrite !app_length, firstn_length, map_length, !skipn_length. lia.
      * rewrite app_length, firstn_length, skipn_length. lia.
    + apply nth_error_None in E. replace (length l <=? i) with true by (symmetry; apply Nat.leb_le; lia).
      reflexivity.
  - (* swap_remove *) unfold vec_swap_remove. rewrite Hl.
    destruct (nth_error l i) eqn:E.
    + assert (Hi : i < length l) by (apply nth_error_Some; congruence).
      replace (length l <=? i) with false by (symmetry; apply Nat.leb_gt; lia).
      rewrite Hb, (read_rep _ _ _ _ E). cbn [bind]. unfold ptr_copy.
      rewrite app_length, map_length.
      replace (length l - 1 + 1 <=? _) with true by (symmetry; apply Nat.leb_le; lia).
      replace (i + 1 <=? _) with true by (symmetry; apply Nat.leb_le; lia).
      cbn [andb bind].
      rewrite firstn_map_app, (skipn_map_app _ _ (length l - 1)), (skipn_map_app _ _ (i + 1)) by lia.
      rewrite (skipn_last l t) by (destruct l; cbn in *; [lia|congruence]). cbn [map app firstn].
      replace (i + 1) with (S i) by lia.
      destruct (i =? length l - 1) eqn:E2.
      * apply Nat.eqb_eq in E2. eexists; split; [reflexivity|].
        exists (Some (last l t) :: map Some (skipn (S i) l) ++ rest). cbn [buf len]. split; [reflexivity|].
        cbn [length]. rewrite app_length, map_length, skipn_length, firstn_length. lia.
      * apply Nat.eqb_neq in E2. eexists; split; [reflexivity|].
        exists (map Some (skipn (length l - 2 - i) (skipn (S i) l)) ++ rest). cbn [buf len]. split; [|split].
        -- f_equal. rewrite map_app. cbn [map]. rewrite <- app_assoc. cbn [app]. do 2 f_equal.
           rewrite app_assoc, <- map_app, firstn_skipn. reflexivity.
        -- rewrite !app_length. cbn [length].
           rewrite !map_length, !firstn_length, !skipn_length. lia.
        -- rewrite app_length. cbn [length]. rewrite !firstn_length, !skipn_length. lia.
    + apply nth_error_None in E. replace (length l <=? i) with true by (symmetry; apply Nat.leb_le; lia).
      reflexivity.
  - (* swap *) unfold vec_swap. rewrite Hl.
    destruct (nth_error l i) eqn:E1; [destruct (nth_error l j) eqn:E2|].
    + assert (i < length l) by (apply nth_error_Some; congruence).
      assert (j < length l) by (apply nth_error_Some; congruence).
      replace (length l <=? i) with false by (symmetry; apply Nat.leb_gt; lia).
      replace (length l <=? j) with false by (symmetry; apply Nat.leb_gt; lia).
      cbn [orb]. rewrite Hb. unfold ptr_swap.
      rewrite !nth_error_app1 by (rewrite map_length; lia).
      rewrite (map_nth_error Some _ _ E1), (map_nth_error Some _ _ E2). cbn [bind].
      eexists; split; [reflexivity|]. exists rest. cbn [buf len].
      rewrite set_nth_app1 by (rewrite map_length; lia).
      rewrite set_nth_app1 by (rewrite set_nth_length, map_length; lia).
      rewrite !set_nth_map, !set_nth_length. auto.
    + apply nth_error_None in E2. replace (length l <=? j) with true by (symmetry; apply Nat.leb_le; lia).
      rewrite orb_true_r. reflexivity.
    + apply nth_error_None in E1. replace (length l <=? i) with true by (symmetry; apply Nat.leb_le; lia).
      reflexivity.
  - (* pop *) unfold vec_pop. rewrite Hl.
    destruct (rev l) as [|x r] eqn:E.
    + apply (f_equal (@rev _)) in E. rewrite rev_involutive in E. subst l. cbn. eauto.
    + apply (f_equal (@rev _)) in E. rewrite rev_involutive in E. cbn in E. subst l.
      rewrite app_length, Nat.add_comm. cbn [length Nat.add Nat.eqb].
      change (S (length (rev r)) =? 0) with false. cbn iota.
      replace (S (length (rev r)) - 1) with (length (rev r)) by lia.
      rewrite Hb, (read_rep _ _ _ x) by (rewrite nth_error_app2, Nat.sub_diag by lia; reflexivity).
      cbn [bind]. eexists; split; [reflexivity|]. exists (Some x :: rest). cbn [buf len].
      rewrite app_length in Hc, Hl. cbn [length] in *.
      split; [|lia]. f_equal. rewrite map_app, <- app_assoc. reflexivity.
  - (* read *) rewrite (vec_slice_rep _ _ R). cbn. eauto.
Qed.

Lemma run_rep : forall os v l, rep v l ->
  match list_run cap l os with
  | Ok (outs, l') => exists v', vec_run cap v os = Ok (outs, v') /\ rep v' l'
  | Panic => vec_run cap v os = Panic
  | _ => False
  end.
Proof.
  induction os as [|o os IH]; intros v l R; cbn [list_run vec_run]; [eauto|].
  pose proof (step_rep v l o R) as S.
  destruct (list_step cap l o) as [[out l']| | |]; cbn [bind]; try easy.
  - destruct S as (v' & E & R'). rewrite E. cbn [bind]. specialize (IH _ _ R').
    destruct (list_run cap l' os) as [[outs l'']| | |]; cbn [bind]; try easy.
    + destruct IH as (v'' & E'' & R''). rewrite E''. cbn. eauto.
    + rewrite IH. reflexivity.
  - rewrite S. reflexivity.
Qed.

Lemma rep_le : forall v l, rep v l -> length l <= cap.
Proof. intros v l (rest & _ & H & _). lia. Qed.

Lemma pop_rep_some : forall v l x, rep v (l ++ [x]) ->
  exists v', vec_pop v = Ok (Some x, v') /\ rep v' l.
Proof.
  intros v l x R. pose proof (step_rep v (l ++ [x]) VPop R) as S. cbn [list_step] in S.
  rewrite rev_app_distr in S. cbn [rev app] in S. rewrite rev_involutive in S.
  destruct S as (v' & E & R'). cbn [vec_step] in E.
  destruct (vec_pop v) as [[[y|] w]| | |]; cbn in E; inversion E; subst; eauto.
Qed.

Lemma drop_loop_rep : forall n l v, length l = n -> rep v l ->
  exists v', drop_loop n v = Ok (rev l, v') /\ rep v' [].
Proof.
  induction n; intros l v Hn R.
  - destruct l; [|discriminate]. pose proof R as (rest & Hb & Hc & Hl).
    cbn [drop_loop]. unfold vec_pop. rewrite Hl. cbn. eauto.
  - destruct (rev l) as [|x r] eqn:E; apply (f_equal (@rev _)) in E; rewrite rev_involutive in E; cbn in E.
    + subst; discriminate.
    + subst l. rewrite app_length in Hn. cbn in Hn.
      destruct (pop_rep_some v (rev r) x R) as (v' & E & R').
      cbn [drop_loop]. rewrite E. cbn [bind].
      destruct (IHn (rev r) v' ltac:(lia) R') as (v'' & E2 & R''). rewrite E2. cbn [bind].
      rewrite rev_involutive. eauto.
Qed.

Lemma vec_drop_rep : forall v l, rep v l -> vec_drop v = Ok (rev l, Freed).
Proof.
  intros v l R. unfold vec_drop.
  pose proof R as (rest & _ & _ & Hl). rewrite Hl.
  destruct (drop_loop_rep _ l v eq_refl R) as (v' & E & R'). rewrite E. cbn [bind].
  destruct R' as (rest' & Hb' & _). rewrite Hb'. reflexivity.
Qed.

Lemma push_all_rep : forall l2 v l, rep v l -> length l + length l2 <= cap ->
  exists v', push_all cap v l2 = Ok v' /\ rep v' (l ++ l2).
Proof.
  induction l2 as [|x l2 IH]; intros v l R H; cbn [push_all].
  - rewrite app_nil_r. eauto.
  - cbn in H. destruct (rep_push v l x R ltac:(lia)) as (b & E & R').
    unfold vec_push. pose proof R as (_ & _ & _ & Hl). rewrite Hl in *.
    replace (length l =? cap) with false by (symmetry; apply Nat.eqb_neq; lia).
    rewrite E. cbn [bind].
    destruct (IH _ _ R') as (v' & E' & R''); [rewrite app_length; cbn; lia|].
    exists v'. split; [exact E'|]. rewrite <- app_assoc in R''. exact R''.
Qed.

(** ** IntoIter *)
Context (size : nat).
Definition irep (it : into_iter T) (l : list T) : Prop :=
  exists pre post, ibuf it = Live (map Some (pre ++ l) ++ post)
    /\ istart it = ibase it + length pre * size
    /\ iend it = ibase it + (length pre + length l) * size.

Lemma irep_init : forall base v l, rep v l -> irep (vec_into_iter size base v) l.
Proof.
  intros base v l (rest & Hb & Hc & Hl). exists [], rest. unfold vec_into_iter. cbn. rewrite Hb, Hl.
  repeat split; lia.
Qed.

Hypothesis Hsz : 0 < size.

Lemma read_at_irep : forall buf base st en (l pre : list T) post i x p,
  buf = Live (map Some (pre ++ l) ++ post) -> nth_error l i = Some x ->
  p = base + (length pre + i) * size ->
  read_at size {| ibuf := buf; ibase := base; istart := st; iend := en |} p = Ok x.
Proof.
  intros. unfold read_at. cbn [ibuf ibase]. subst.
  replace (base + (length pre + i) * size - base) with ((length pre + i) * size) by lia.
  rewrite Nat.div_mul by lia. apply read_rep.
  rewrite nth_error_app2 by lia. replace (length pre + i - length pre) with i by lia. auto.
Qed.

Lemma front_irep : forall it l, irep it l ->
  exists it', iter_next_front size it = Ok (hd_error l, it') /\ irep it' (tl l).
Proof.
  intros [bf base st en] l (pre & post & Hb & Hs & He). cbn in Hb, Hs, He.
  unfold iter_next_front. cbn [istart iend ibuf ibase]. destruct l as [|x l].
  - replace (st =? en) with true by (symmetry; apply Nat.eqb_eq; cbn in *; lia).
    eexists; split; [reflexivity|]. exists pre, post. auto.
  - replace (st =? en) with false by (symmetry; apply Nat.eqb_neq; cbn [length] in He; nia).
    rewrite (read_at_irep bf base st en (x :: l) pre post 0 x st Hb eq_refl) by lia.
    cbn [bind]. eexists; split; [reflexivity|]. exists (pre ++ [x]), post. cbn.
    rewrite <- app_assoc, app_length. cbn in *. repeat split; auto; nia.
Qed.

Lemma back_irep : forall it l, irep it l ->
  exists it', iter_next_back size it = Ok (hd_error (rev l), it') /\ irep it' (rev (tl (rev l))).
Proof.
  intros [bf base st en] l (pre & post & Hb & Hs & He). cbn in Hb, Hs, He.
  unfold iter_next_back. cbn [istart iend ibuf ibase].
  destruct (rev l) as [|x r] eqn:E; apply (f_equal (@rev _)) in E; rewrite rev_involutive in E; cbn in E; subst l.
  - replace (st =? en) with true by (symmetry; apply Nat.eqb_eq; cbn in *; lia).
    eexists; split; [reflexivity|]. exists pre, post. auto.
  - rewrite app_length in He. cbn [length] in He.
    replace (st =? en) with false by (symmetry; apply Nat.eqb_neq; nia).
    rewrite (read_at_irep bf base st (en - size) (rev r ++ [x]) pre post (length (rev r)) x (en - size) Hb)
      by (rewrite ?nth_error_app2, ?Nat.sub_diag by lia; try reflexivity; nia).
    cbn [bind]. eexists; split; [reflexivity|]. cbn [hd_error tl].
    exists pre, (Some x :: post). cbn [ibuf ibase istart iend].
    split; [|split; [auto|nia]].
    rewrite Hb. f_equal. rewrite !map_app, <- !app_assoc. reflexivity.
Qed.

Lemma size_hint_irep : forall it l, irep it l -> iter_size_hint size it = Ok (length l).
Proof.
  intros it l (pre & post & Hb & Hs & He). unfold iter_size_hint.
  replace (size =? 0) with false by (symmetry; apply Nat.eqb_neq; lia).
  replace (iend it - istart it) with (length l * size) by nia.
  rewrite Nat.div_mul by lia. reflexivity.
Qed.

Lemma exhaust_irep : forall l fuel it, length l <= fuel -> irep it l ->
  exists it', exhaust size fuel it = Ok (l, it') /\ irep it' [].
Proof.
  induction l as [|x l IH]; intros fuel it Hf R.
  - destruct (front_irep it [] R) as (it' & E & R'). cbn in E, R'.
    destruct fuel; cbn [exhaust]; rewrite E; cbn; eauto.
  - destruct (front_irep it (x :: l) R) as (it' & E & R'). cbn in E, R'.
    destruct fuel as [|fuel]; [cbn in Hf; lia|]. cbn [exhaust]. rewrite E. cbn [bind].
    destruct (IH fuel it' ltac:(cbn in Hf; lia) R') as (it'' & E2 & R''). rewrite E2. cbn. eauto.
Qed.

Lemma iter_drop_irep : forall it l, irep it l -> iter_drop size it = Ok (l, Freed).
Proof.
  intros it l R. unfold iter_drop.
  pose proof R as (pre & post & _ & Hs & He).
  destruct (exhaust_irep l (iend it - istart it) it) as (it' & E & R'); [nia|exact R|].
  rewrite E. cbn [bind]. destruct R' as (? & ? & Hb & _). rewrite Hb. reflexivity.
Qed.

Lemma iter_run_irep : forall ds it l, irep it l ->
  exists it', iter_run size it ds = Ok (fst (deque_run l ds), it') /\ irep it' (snd (deque_run l ds)).
Proof.
  induction ds as [|d ds IH]; intros it l R; cbn [iter_run deque_run]; [eauto|].
  destruct d.
  - destruct (front_irep it l R) as (it' & E & R'). rewrite E. cbn [bind].
    destruct (IH _ _ R') as (it'' & E2 & R''). rewrite E2. cbn [bind].
    destruct (deque_run (tl l) ds); cbn in *. eauto.
  - destruct (back_irep it l R) as (it' & E & R'). rewrite E. cbn [bind].
    destruct (IH _ _ R') as (it'' & E2 & R''). rewrite E2. cbn [bind].
    destruct (deque_run (rev (tl (rev l))) ds); cbn in *. eauto.
Qed.
End Rep.

Lemma new_vec_rep : forall T size cap, 0 < size * cap -> (Z.of_nat (size * cap) <= max_size)%Z ->
  exists v : vec T, new_vec size cap = Ok v /\ rep cap v [].
Proof.
  intros. unfold new_vec, alloc_array.
  replace (max_size <? Z.of_nat size * Z.of_nat cap)%Z with false
    by (symmetry; apply Z.ltb_ge; rewrite <- Nat2Z.inj_mul; auto).
  replace (size * cap =? 0) with false by (symmetry; apply Nat.eqb_neq; lia).
  cbn. eexists; split; [reflexivity|]. exists (repeat None cap). cbn. rewrite repeat_length. auto.
Qed.
