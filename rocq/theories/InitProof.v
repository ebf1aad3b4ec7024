(** Proofs for C86. *)
From Verif Require Export Util InitSpec.

Section I.
Context {L I : Type}.

Lemma assume_written (s : iter_stack L I) : assume_init (map Written s) = Ok s.
Proof. induction s as [|x s IH]; cbn; [reflexivity|]. now rewrite IH. Qed.

Lemma holds_length (s : iter_stack L I) old : length s <= length old -> length (holds s old) = length old.
Proof. intros H. unfold holds. rewrite app_length, map_length, skipn_length. lia. Qed.

Lemma holds_full (s : iter_stack L I) old : length s = length old -> holds s old = map Written s.
Proof. intros H. unfold holds. rewrite H, skipn_all. apply app_nil_r. Qed.

Lemma holds_nil (old : memory L I) : holds [] old = old.
Proof. reflexivity. Qed.

Lemma holds_push s old (x : slot L I) : length s < length old ->
  set_nth (length s) (Written x) (holds s old) = holds (s ++ [x]) old.
Proof.
  intros H. unfold holds. rewrite <- (map_length Written s) at 1.
  destruct (skipn (length s) old) as [|y r] eqn:E.
  - apply (f_equal (@length _)) in E. rewrite skipn_length in E. cbn in E. lia.
  - rewrite set_nth_middle, map_app, <- app_assoc, app_length. cbn. f_equal. f_equal.
    assert (E2 : skipn 1 (skipn (length s) old) = r) by now rewrite E.
    rewrite <- E2. clear. revert s. induction old as [|o old IH]; intros [|z s]; cbn; try reflexivity. apply IH.
Qed.

Lemma drop_loop s (old : memory L I) is : (forall i, In i is -> i < length s) -> guard_drop_loop (holds s old) is = Ok [].
Proof.
  induction is as [|i is IH]; intros H; [reflexivity|]. cbn.
  assert (E : assume_init_drop (holds s old) i = Ok []).
  { unfold assume_init_drop, holds. rewrite nth_error_app1 by (rewrite map_length; apply H; now left).
    rewrite nth_error_map. destruct (nth_error s i) eqn:En; [reflexivity|].
    apply nth_error_None in En. specialize (H i (or_introl eq_refl)). lia. }
  rewrite E. cbn. rewrite IH; [reflexivity|]. intros j Hj. apply H. now right.
Qed.

Lemma unwind_holds s (old : memory L I) : guard_unwind {| g_target := holds s old; g_i := length s |} = Ok (None, holds s old, []).
Proof.
  unfold guard_unwind, guard_drop. cbn [g_target g_i]. rewrite drop_loop; [reflexivity|].
  intros i Hi. apply in_seq in Hi. lia.
Qed.

Lemma finish_holds s (old : memory L I) : length s = length old ->
  guard_finish {| g_target := holds s old; g_i := length s |} = Ok (Some s, map Written s, []).
Proof.
  intros H. unfold guard_finish. cbn [g_target g_i]. rewrite holds_full by exact H. rewrite map_length, Nat.eqb_refl.
  rewrite assume_written. reflexivity.
Qed.

(** One turn of the loop and all that follow. *)
Lemma init_loop_spec inner n (old : memory L I) s :
  (forall i, inner i <> UB /\ inner i <> OutOfFuel) -> 1 <= length s -> length s + n = length old ->
  (exists ys, length ys = n /\ answers inner (length s) ys /\
     init_loop inner (seq (length s) n) {| g_target := holds s old; g_i := length s |}
     = Ok (Some (s ++ map SInner ys), map Written (s ++ map SInner ys), []))
  \/ (exists ys, length ys < n /\ answers inner (length s) ys /\ inner (length s + length ys) = Panic /\
     init_loop inner (seq (length s) n) {| g_target := holds s old; g_i := length s |}
     = Ok (None, holds (s ++ map SInner ys) old, [])).
Proof.
  intros Hu. revert s. induction n as [|n IH]; intros s H1 H2.
  - left. exists []. cbn. rewrite app_nil_r. rewrite finish_holds by lia. auto.
  - cbn [seq init_loop]. destruct (inner (length s)) as [y| | |] eqn:E.
    + unfold guard_push. cbn [g_i g_target]. rewrite holds_length by lia.
      destruct (Nat.ltb_spec (length s) (length old)); [|lia]. rewrite holds_push by lia.
      specialize (IH (s ++ [SInner y])). rewrite app_length in IH. cbn [length] in IH.
      rewrite Nat.add_1_r in *. specialize (IH ltac:(lia) ltac:(lia)).
      destruct IH as [(ys & K1 & K2 & K3)|(ys & K1 & K2 & K3 & K4)]; [left|right]; exists (y :: ys); cbn [length answers map].
      * split; [lia|]. split; [auto|]. rewrite K3. now rewrite <- app_assoc.
      * split; [lia|]. split; [auto|]. split; [now rewrite <- Nat.add_succ_comm|]. rewrite K4. now rewrite <- app_assoc.
    + right. exists []. cbn. rewrite app_nil_r, Nat.add_0_r. rewrite unwind_holds. repeat split; auto. lia.
    + now destruct (Hu (length s)).
    + now destruct (Hu (length s)).
Qed.

Lemma init_spec leaf inner (old : memory L I) :
  leaf <> UB /\ leaf <> OutOfFuel -> (forall i, inner i <> UB /\ inner i <> OutOfFuel) ->
  (old = [] /\ init_into old leaf inner = Ok (Some [], [], []))
  \/ (old <> [] /\ leaf = Panic /\ init_into old leaf inner = Ok (None, old, []))
  \/ (exists x ys, leaf = Ok x /\ 1 + length ys = length old /\ answers inner 1 ys /\
        init_into old leaf inner = Ok (Some (stack_new x ys), map Written (stack_new x ys), []))
  \/ (exists x ys, leaf = Ok x /\ 1 + length ys < length old /\ answers inner 1 ys /\ inner (1 + length ys) = Panic /\
        init_into old leaf inner = Ok (None, holds (stack_new x ys) old, [])).
Proof.
  intros Hl Hu. unfold init_into. destruct old as [|c old]; [left; auto|]. right.
  set (o := c :: old). assert (Ho : 0 < length o) by (cbn; lia).
  destruct (Nat.ltb_spec 0 (length o)); [|lia].
  destruct leaf as [x| | |]; [| |now destruct Hl|now destruct Hl].
  - right. unfold guard_push. cbn [g_i g_target]. destruct (Nat.ltb_spec 0 (length o)); [|lia].
    assert (Hp := holds_push [] o (SLeaf x) Ho). rewrite holds_nil in Hp. cbn [length app] in Hp. rewrite Hp. cbn [Nat.add].
    destruct (init_loop_spec inner (length o - 1) o [SLeaf x] Hu ltac:(cbn; lia) ltac:(cbn [length]; lia))
      as [(ys & K1 & K2 & K3)|(ys & K1 & K2 & K3 & K4)]; cbn [length] in *; [left|right]; exists x, ys.
    + split; [reflexivity|]. split; [lia|]. split; [exact K2|]. exact K3.
    + split; [reflexivity|]. split; [lia|]. split; [exact K2|]. split; [exact K3|]. exact K4.
  - left. split; [discriminate|]. split; [reflexivity|]. exact (unwind_holds [] o).
Qed.

Lemma stack_drop_new (x : L) (ys : list I) : stack_drop (stack_new x ys) = Ok (inl x :: map inr ys).
Proof.
  unfold stack_drop, stack_new. cbn [stack_leaf nth_error bind length]. rewrite map_length, Nat.sub_succ, Nat.sub_0_r.
  assert (H : forall ys0, (fix loop (is : list nat) : res (list (L + I)) :=
       match is with
       | [] => Ok []
       | i :: is => let* y := stack_inner (SLeaf x :: map SInner (ys0 ++ ys)) i in let* ds := loop is in Ok (inr y :: ds)
       end) (seq (S (length ys0)) (length ys)) = Ok (map inr ys)).
  { induction ys as [|y ys IH]; intros ys0; [reflexivity|]. cbn [length seq].
    assert (E : stack_inner (SLeaf x :: map SInner (ys0 ++ y :: ys)) (S (length ys0)) = Ok y).
    { unfold stack_inner. cbn [nth_error]. rewrite map_app, nth_error_app2 by now rewrite map_length.
      rewrite map_length, Nat.sub_diag. reflexivity. }
    rewrite E. cbn [bind]. specialize (IH (ys0 ++ [y])). rewrite <- app_assoc, app_length in IH. cbn [length app] in IH.
    rewrite Nat.add_1_r in IH. rewrite IH. reflexivity. }
  specialize (H []). cbn [app length] in H. rewrite H. reflexivity.
Qed.
End I.

(** *** The right-hand iterators of a left join *)
Section R.
Context {B1 K1 V1 : Type}.
Notation rws := (@rw_stack B1 K1 V1).

Lemma remainder_inner_spec (s : rws) t : remainder_inner s = Ok t ->
  exists rs xs, s = map SInner rs /\ t = map SInner xs /\ Forall2 (fun r x => rw_remainder r = Ok x) rs xs.
Proof.
  revert t. induction s as [|[x|r] s IH]; cbn; intros t E.
  - injection E as <-. exists [], []. repeat split; constructor.
  - discriminate.
  - destruct (rw_remainder r) as [x| | |] eqn:Er; try discriminate. cbn in E.
    destruct (remainder_inner s) as [t'| | |]; try discriminate. cbn in E. injection E as <-.
    destruct (IH t' eq_refl) as (rs & xs & -> & -> & H). exists (r :: rs), (x :: xs). repeat split. now constructor.
Qed.

Lemma answers_of (f : nat -> res (list (node B1 K1 V1))) i (xs : list (list (node B1 K1 V1))) :
  (forall j x, nth_error xs j = Some x -> f (i + j) = Ok x) -> answers f i xs.
Proof.
  revert i. induction xs as [|x xs IH]; intros i H; cbn; [exact Logic.I|]. split.
  - rewrite <- (Nat.add_0_r i). now apply H.
  - apply IH. intros j y Hj. rewrite Nat.add_succ_comm. now apply H.
Qed.

Lemma answers_inj {A} (f : nat -> res A) i xs ys : answers f i xs -> answers f i ys -> length xs = length ys -> xs = ys.
Proof.
  revert i ys. induction xs as [|x xs IH]; intros i [|y ys]; cbn; try discriminate; [reflexivity|].
  intros [H1 H2] [H3 H4] H. injection H as H. assert (x = y) by congruence. subst. f_equal. eauto.
Qed.

Lemma answers_nth {A} (f : nat -> res A) i xs j : answers f i xs -> j < length xs -> exists x, f (i + j) = Ok x.
Proof.
  revert i j. induction xs as [|x xs IH]; intros i j; cbn; [lia|]. intros [H1 H2] Hj. destruct j as [|j].
  - exists x. now rewrite Nat.add_0_r.
  - destruct (IH (S i) j H2 ltac:(lia)) as [y Hy]. exists y. now rewrite <- Nat.add_succ_comm.
Qed.

Lemma answers_get {A} (f : nat -> res A) i xs j y : answers f i xs -> nth_error xs j = Some y -> f (i + j) = Ok y.
Proof.
  revert i j. induction xs as [|x xs IH]; intros i [|j] HA Hj; try discriminate; cbn in *.
  - injection Hj as <-. rewrite Nat.add_0_r. apply HA.
  - rewrite <- Nat.add_succ_comm. apply IH; [apply HA|exact Hj].
Qed.

Lemma build_right_spec (right : rws) st target : remainder_stack right = Ok st -> length target = length right ->
  build_right right target = Ok (Some st, map Written st, []).
Proof.
  intros E Hlen. unfold build_right, map_into. rewrite Hlen, Nat.eqb_refl. destruct right as [|[r|r] s].
  - destruct target; [|discriminate]. injection E as <-. reflexivity.
  - cbn in E. destruct (rw_remainder r) as [x| | |] eqn:Er; try discriminate. cbn in E.
    destruct (remainder_inner s) as [t| | |] eqn:Es; try discriminate. cbn in E. injection E as <-.
    destruct (remainder_inner_spec s t Es) as (rs & xs & -> & -> & HF).
    assert (Hxs : length rs = length xs) by (clear -HF; induction HF; cbn; congruence).
    set (inner := fun i => let* x0 := stack_inner (SLeaf r :: map SInner rs) i in rw_remainder x0).
    assert (HA : answers inner 1 xs).
    { apply answers_of. intros j y Hj. unfold inner, stack_inner. cbn [Nat.add nth_error].
      rewrite nth_error_map. clear -HF Hj. revert j Hj. induction HF as [|a b l l' Hab HF IH]; intros [|j] Hj; try discriminate.
      - cbn in *. injection Hj as <-. exact Hab.
      - cbn in *. apply IH, Hj. }
    cbn [stack_leaf nth_error bind]. rewrite Er.
    cbn [length] in Hlen. rewrite map_length in Hlen.
    assert (Hu : forall i, inner i <> UB /\ inner i <> OutOfFuel \/ length xs < i \/ i = 0).
    { intros i. destruct (Nat.eq_dec i 0); [auto|]. destruct (Nat.ltb_spec (length xs) i); [auto|]. left.
      destruct (answers_nth inner 1 xs (i - 1) HA ltac:(lia)) as [y Hy]. replace (1 + (i - 1)) with i in Hy by lia. rewrite Hy. split; discriminate. }
    (* only the indices in range are asked *)
    set (inner' := fun i => if (length xs <? i) || (i =? 0) then Panic else inner i).
    assert (Hu' : forall i, inner' i <> UB /\ inner' i <> OutOfFuel).
    { intros i. unfold inner'. destruct (Nat.ltb_spec (length xs) i); [split; discriminate|]. destruct (Nat.eqb_spec i 0); [split; discriminate|].
      cbn. destruct (Hu i) as [|[|]]; [assumption|lia|lia]. }
    assert (HA' : answers inner' 1 xs).
    { apply answers_of. intros j y Hj. assert (Hj' : j < length xs) by (apply nth_error_Some; congruence).
      unfold inner'. destruct (Nat.ltb_spec (length xs) (1 + j)); [lia|]. destruct (Nat.eqb_spec (1 + j) 0); [lia|].
      cbn [orb]. exact (answers_get inner 1 xs j y HA Hj). }
    assert (Eq : init_into target (Ok x) inner = init_into target (Ok x) inner').
    { unfold init_into. destruct (0 <? length target); [|reflexivity]. destruct (guard_push _ _); try reflexivity.
      assert (Hin : forall i, In i (seq 1 (length target - 1)) -> inner i = inner' i).
      { intros i Hi. apply in_seq in Hi. unfold inner'. destruct (Nat.ltb_spec (length xs) i); [lia|]. destruct (Nat.eqb_spec i 0); [lia|]. reflexivity. }
      revert a Hin. generalize (seq 1 (length target - 1)). induction l as [|i l IH]; intros g Hin; [reflexivity|]. cbn.
      rewrite <- (Hin i) by now left. destruct (inner i); try reflexivity. destruct (guard_push _ _); try reflexivity.
      apply IH. intros; apply Hin. now right. }
    fold inner. rewrite Eq.
    destruct (init_spec (Ok x) inner' target) as [(K & _)|[(_ & K & _)|[(x' & ys & K1' & K2 & K3 & K4)|(x' & ys & _ & K2 & K3 & K4 & _)]]].
    + split; discriminate.
    + exact Hu'.
    + subst. cbn in Hlen. lia.
    + discriminate.
    + injection K1' as <-. assert (ys = xs) by (apply (answers_inj inner' 1); auto; lia). subst. exact K4.
    + destruct (answers_nth inner' 1 xs (length ys) HA' ltac:(lia)) as [y Hy]. congruence.
  - discriminate.
Qed.
End R.

(** *** The lengths of a left join's stacks *)
Lemma stack_set_inner_length {L I} (s : iter_stack L I) i x s' : stack_set_inner s i x = Ok s' -> length s' = length s.
Proof. unfold stack_set_inner. destruct (stack_inner s i); cbn [bind]; try discriminate. intros [= <-]. apply set_nth_length. Qed.
Lemma stack_set_leaf_length {L I} (s : iter_stack L I) x s' : stack_set_leaf s x = Ok s' -> length s' = length s.
Proof. unfold stack_set_leaf. destruct (stack_leaf s); cbn [bind]; try discriminate. intros E. injection E as <-. now destruct s. Qed.

Lemma inner_search_length {L I T} (take : I -> res (option T * I)) expand fuel i (s : iter_stack L I) o s' :
  inner_search take expand fuel i s = Ok (o, s') -> length s' = length s.
Proof.
  revert i s. induction fuel as [|fuel IH]; intros i s; cbn; destruct (i <? length s); try (intros [= _ <-]; reflexivity); try discriminate.
  destruct (stack_inner s i) as [it| | |]; cbn; try discriminate. destruct (take it) as [[c it']| | |]; cbn; try discriminate.
  destruct (stack_set_inner s i it') as [s1| | |] eqn:E1; cbn; try discriminate. apply stack_set_inner_length in E1.
  destruct c as [c|].
  - destruct i as [|i]; [intros [= _ <-]; exact E1|].
    destruct (expand c) as [it2| | |]; cbn; try discriminate.
    destruct (stack_set_inner s1 i it2) as [s2| | |] eqn:E2; cbn; try discriminate. apply stack_set_inner_length in E2.
    intros H. apply IH in H. congruence.
  - intros H. apply IH in H. congruence.
Qed.

Lemma on_sub_length {X A} (s : list X) level whole (g : list X -> res (A * list X)) a s' :
  (forall m x m', g m = Ok (x, m') -> length m' = length m) -> on_sub s level whole g = Ok (a, s') -> length s' = length s.
Proof.
  intros Hg. unfold on_sub. set (u := if whole then length s else level + 1).
  destruct (Nat.ltb_spec u level); cbn; [discriminate|]. destruct (Nat.ltb_spec (length s) u); cbn; [discriminate|].
  destruct (g (firstn (u - level) (skipn level s))) as [[x m]| | |] eqn:E; cbn; try discriminate. intros [= _ <-].
  apply Hg in E. rewrite !app_length, E, !firstn_length, !skipn_length. lia.
Qed.

Lemma rewind_length {L T} (s s' : iter_stack L (rewindable T)) : rewind_inner s = Ok s' -> length s' = length s.
Proof.
  revert s'. induction s as [|[x|r] s IH]; cbn; intros s'; [intros [= <-]; reflexivity|discriminate|].
  destruct s as [|y s]; [intros [= <-]; reflexivity|].
  destruct (rewind_inner (y :: s)) as [t| | |]; cbn [bind]; try discriminate. intros [= <-]. cbn [length]. f_equal. now apply IH.
Qed.

Section J.
Context {B0 B1 K0 K1 V0 V1 Q0 Q1 : Type} (f : JoinFilter B0 B1 Q0 Q1).
Notation next := (@left_join_next B0 B1 K0 K1 V0 V1 Q0 Q1 f).

Lemma left_join_loop_mem fuel level it o it' : left_join_loop f fuel level it = Ok (o, it') ->
  length (snd (A := @tree_stack B0 K0 V0) (B := @rw_stack B1 K1 V1) it') = length (snd it) /\
  match o with None => True | Some (_, st) => remainder_stack (snd it') = Ok st end.
Proof.
  revert level it. induction fuel as [|fuel IH]; intros level [left right]; [discriminate|]. cbn [left_join_loop].
  assert (Hasc : forall mh (l : @tree_stack B0 K0 V0) (r : @rw_stack B1 K1 V1),
    (if level + 1 =? mh then Ok (None, (l, r)) else
      let* (_, r) := on_sub r (level + 1) (level + 1 + 1 =? length l) (fun s => let* s := rewind_inner s in Ok (tt, s)) in
      left_join_loop f fuel (level + 1) (l, r)) = Ok (o, it') ->
    length (snd it') = length r /\ match o with None => True | Some (_, st) => remainder_stack (snd it') = Ok st end).
  { intros mh l r. destruct (level + 1 =? mh); [intros [= <- <-]; auto|].
    destruct (on_sub _ _ _ _) as [[u r']| | |] eqn:E; cbn [bind]; try discriminate. intros H.
    apply on_sub_length in E.
    - apply IH in H. cbn [snd] in H. rewrite E in H. exact H.
    - intros m x m' Hm. destruct (rewind_inner m) as [t| | |] eqn:Et; cbn in Hm; try discriminate. injection Hm as _ <-. now apply rewind_length. }
  destruct level as [|l].
  - destruct (stack_leaf left) as [es| | |]; cbn [bind]; try discriminate. destruct es as [|e rest].
    + apply Hasc.
    + destruct (stack_set_leaf left rest) as [left'| | |]; cbn [bind]; try discriminate.
      destruct (remainder_stack right) as [st| | |] eqn:E; cbn [bind]; try discriminate. intros [= <- <-]. cbn [snd]. auto.
  - destruct (on_sub left _ _ _) as [[nl left']| | |]; cbn [bind]; try discriminate. destruct nl as [nl|]; [|apply Hasc].
    destruct (on_sub right _ _ _) as [[nr right']| | |] eqn:E; cbn [bind]; try discriminate.
    apply on_sub_length in E; [|intros m x m' Hm; unfold right_search in Hm; eapply inner_search_length; exact Hm].
    destruct (iterate_left_children left' nl l) as [left2| | |]; cbn [bind]; try discriminate.
    destruct (iterate_right_children right' nr l) as [right2| | |] eqn:E2; cbn [bind]; try discriminate.
    intros H. apply IH in H. cbn [snd] in H.
    assert (E3 : length right2 = length right').
    { unfold iterate_right_children in E2. destruct l as [|l]; cbn [bind] in E2.
      - destruct (match nr with None => Ok [] | Some n => read_leaf (node_children n) end) as [es| | |]; cbn [bind] in E2; try discriminate.
        eapply stack_set_leaf_length; exact E2.
      - destruct (match nr with None => Ok [] | Some n => read_inner (node_children n) end) as [es| | |]; cbn [bind] in E2; try discriminate.
        eapply stack_set_inner_length; exact E2. }
    rewrite E3, E in H. exact H.
Qed.

Lemma left_join_next_mem it o it' : next it = Ok (o, it') ->
  length (snd it') = length (snd it) /\ match o with None => True | Some (_, st) => remainder_stack (snd it') = Ok st end.
Proof.
  unfold left_join_next. destruct (_ =? 0); [intros [= <- <-]; auto|]. apply left_join_loop_mem.
Qed.

Lemma left_join_new_length (a : rtree B0 K0 V0) (b : rtree B1 K1 V1) it : left_join_new a b = Ok it -> length (snd it) = fst b + 2.
Proof.
  unfold left_join_new. destruct (stack_set_inner (stack_new [] _) _ _) as [l| | |]; cbn [bind]; try discriminate.
  destruct (stack_set_inner (stack_new (rw_new []) _) _ _) as [r| | |] eqn:E; cbn [bind]; try discriminate. intros [= <-]. cbn [snd].
  apply stack_set_inner_length in E. rewrite E. unfold stack_new. cbn [length]. rewrite map_length, repeat_length. lia.
Qed.

Lemma advanced_length it it' : advanced next it it' -> length (snd it') = length (snd it).
Proof. induction 1 as [|s x s1 s2 H1 _ IH]; [reflexivity|]. apply left_join_next_mem in H1. destruct H1. congruence. Qed.

(** Every right-hand iterator handed out. *)
Lemma right_iterators (a : rtree B0 K0 V0) (b : rtree B1 K1 V1) it0 it e st it' mem :
  left_join_new a b = Ok it0 -> advanced next it0 it -> next it = Ok (Some (e, st), it') -> length mem = length (right_block b) ->
  build_right (snd it') mem = Ok (Some st, map Written st, []).
Proof.
  intros H1 H2 H3 H4. assert (Hl := left_join_next_mem _ _ _ H3). destruct Hl as [Hl Hr]. apply build_right_spec; [exact Hr|].
  rewrite H4. unfold right_block. rewrite repeat_length, Hl, (advanced_length _ _ H2). symmetry. now apply left_join_new_length in H1.
Qed.

Lemma remainder_shape (right : @rw_stack B1 K1 V1) st : remainder_stack right = Ok st -> right <> [] -> exists x ys, st = stack_new x ys.
Proof.
  destruct right as [|[r|r] s]; cbn; intros E H; [congruence| |discriminate].
  destruct (rw_remainder r) as [x| | |]; try discriminate. cbn in E.
  destruct (remainder_inner s) as [t| | |] eqn:Es; try discriminate. cbn in E. injection E as <-.
  destruct (remainder_inner_spec s t Es) as (rs & xs & _ & -> & _). exists x, xs. reflexivity.
Qed.
End J.
