(** Memory: the vector behind each node (C28, C43, C46). *)
From Verif Require Export FCVecProof.

Lemma skipn_skipn' : forall {T} n m (l : list T), skipn n (skipn m l) = skipn (n + m) l.
Proof.
  intros T n m. induction m; intros l; [rewrite Nat.add_0_r; reflexivity|].
  rewrite Nat.add_succ_r. destruct l; [destruct n; reflexivity|]. apply IHm.
Qed.

(** ** C28 *)

(** A vector of non-zero total size: every history of calls gives what the list gives, call by call, with a panic
    exactly where the list specification has one, and never undefined behaviour.  At its end: the vector holds the
    list; dropping it drops every element once, last first, and frees the buffer once; consuming it from both ends in
    any order hands out the elements of the list, reports how many are left, and dropping the half-consumed iterator
    drops exactly those and frees the buffer; a clone is a separate vector with the same content. *)
Theorem C28_vector_is_list :
  forall (T : Type) (size cap : nat) (os : list (vop T)),
  0 < size * cap -> (Z.of_nat (size * cap) <= 2 ^ 63 - 1)%Z ->
  exists v0, new_vec size cap = Ok v0 /\
    match list_run cap [] os with
    | Ok (outs, l) =>
      length l <= cap /\
      exists v, vec_run cap v0 os = Ok (outs, v) /\
        vec_slice v = Ok l /\ len v = length l /\
        vec_drop v = Ok (rev l, Freed) /\
        (forall base ds, exists it,
           iter_run size (vec_into_iter size base v) ds = Ok (fst (deque_run l ds), it) /\
           iter_size_hint size it = Ok (length (snd (deque_run l ds))) /\
           iter_drop size it = Ok (snd (deque_run l ds), Freed)) /\
        (exists c, vec_clone size cap l = Ok c /\ vec_slice c = Ok l /\ vec_drop c = Ok (rev l, Freed))
    | _ => vec_run cap v0 os = Panic
    end.
Proof.
  intros T size cap os H0 H1.
  destruct (new_vec_rep T size cap H0 H1) as (v0 & E0 & R0).
  exists v0. split; [exact E0|].
  pose proof (run_rep cap os v0 [] R0) as RR.
  destruct (list_run cap [] os) as [[outs l]| | |]; try easy.
  destruct RR as (v & E & R). pose proof (rep_le _ _ _ R) as Hle. split; [exact Hle|].
  assert (Hsz : 0 < size) by (destruct size; lia).
  exists v. split; [exact E|]. split; [eapply vec_slice_rep; eauto|].
  split; [destruct R as (? & _ & _ & Hl); exact Hl|].
  split; [eapply vec_drop_rep; eauto|]. split.
  - intros base ds.
    destruct (iter_run_irep size Hsz ds _ l (irep_init cap size base v l R)) as (it & E1 & R1).
    exists it. split; [exact E1|]. split; [apply size_hint_irep; auto|apply iter_drop_irep; auto].
  - destruct (push_all_rep cap l v0 [] R0) as (c & Ec & Rc); [cbn; lia|].
    exists c. unfold vec_clone.
    replace (cap <? length l) with false by (symmetry; apply Nat.ltb_ge; lia).
    rewrite E0. cbn [bind]. split; [exact Ec|]. cbn [app] in Rc.
    split; [eapply vec_slice_rep; eauto|eapply vec_drop_rep; eauto].
Qed.
Print Assumptions C28_vector_is_list.

(** The list specification itself loses and duplicates nothing: what was given is what was taken plus what is left
    ([VRead] only looks). *)
Definition given {T} (o : vop T) : list T :=
  match o with VPush x | VTryPush x | VInsert _ x => [x] | _ => [] end.
Definition looks {T} (o : vop T) : bool := match o with VRead => true | _ => false end.

Theorem C28_nothing_lost :
  forall (T : Type) (cap : nat) (os : list (vop T)) outs l,
  forallb (fun o => negb (looks o)) os = true ->
  list_run cap [] os = Ok (outs, l) ->
  Permutation (flat_map given os) (concat outs ++ l).
Proof.
  intros T cap os outs l.
  enough (G : forall os l0 outs l, forallb (fun o => negb (looks o)) os = true ->
            list_run cap l0 os = Ok (outs, l) -> Permutation (l0 ++ flat_map given os) (concat outs ++ l))
    by (intros; eapply (G os [] outs l); eauto).
  clear. induction os as [|o os IH]; intros l0 outs l Hn E; cbn [list_run] in E.
  - injection E as <- <-. cbn. rewrite app_nil_r. reflexivity.
  - cbn in Hn. apply andb_true_iff in Hn as [Ho Hn].
    destruct (list_step cap l0 o) as [[out l1]| | |] eqn:E1; cbn [bind] in E; try discriminate.
    destruct (list_run cap l1 os) as [[outs1 l2]| | |] eqn:E2; cbn [bind] in E; try discriminate.
    injection E as <- <-. specialize (IH _ _ _ Hn E2).
    cbn [concat flat_map]. rewrite <- app_assoc. rewrite <- IH. rewrite !app_assoc.
    apply Permutation_app_tail.
    assert (Sp : forall i x, nth_error l0 i = Some x -> l0 = firstn i l0 ++ x :: skipn (S i) l0).
    { intros i x Hx. rewrite <- (firstn_skipn i l0) at 1. f_equal. apply skipn_one; auto. }
    destruct o; cbn [list_step] in E1; cbn [given].
    + destruct (length l0 =? cap); inversion E1; subst. reflexivity.
    + destruct (length l0 =? cap); inversion E1; subst.
      * cbn. rewrite Permutation_app_comm. reflexivity.
      * reflexivity.
    + destruct ((length l0 <? i) || (length l0 =? cap)); inversion E1; subst. cbn.
      rewrite <- (firstn_skipn i l0) at 1. rewrite <- app_assoc. apply Permutation_app_head.
      rewrite Permutation_app_comm. reflexivity.
    + destruct (nth_error l0 i) eqn:E3; inversion E1; subst. rewrite app_nil_r.
      rewrite (Sp _ _ E3) at 1. symmetry. apply Permutation_cons_app. reflexivity.
    + destruct (nth_error l0 i) eqn:E3; [|discriminate]. rewrite app_nil_r.
      assert (i < length l0) by (apply nth_error_Some; congruence).
      destruct (i =? length l0 - 1) eqn:E4; inversion E1; subst.
      * apply Nat.eqb_eq in E4. rewrite (Sp _ _ E3) at 1. cbn [app].
        rewrite (skipn_all2 l0) by lia. symmetry. apply Permutation_cons_append.
      * apply Nat.eqb_neq in E4. rewrite (Sp _ _ E3) at 1. symmetry. apply Permutation_cons_app.
        apply Permutation_app_head.
        change (match l0 with [] => [] | _ :: l => skipn i l end) with (skipn (S i) l0).
        assert (Hs : skipn (length l0 - 2 - i) (skipn (S i) l0) = [last l0 t]).
        { rewrite <- (skipn_last l0 t) by (destruct l0; cbn in *; [lia|congruence]).
          rewrite skipn_skipn'. f_equal. lia. }
        set (m := skipn (S i) l0) in *. remember (length l0 - 2 - i) as n.
        transitivity (firstn n m ++ skipn n m);
          [rewrite Hs; apply Permutation_cons_append|rewrite firstn_skipn; reflexivity].
    + destruct (nth_error l0 i) eqn:E3; [|discriminate].
      destruct (nth_error l0 j) eqn:E4; inversion E1; subst. rewrite app_nil_r. cbn [app].
      clear - E3 E4.
      assert (G : forall l i j (a b : T), nth_error l i = Some a -> nth_error l j = Some b ->
                Permutation l (set_nth j a (set_nth i b l))).
      { induction l as [|y l IH]; intros i' j' a b H1 H2; [destruct i'; discriminate|].
        assert (Q : forall l j (a b : T), nth_error l j = Some b -> Permutation (a :: l) (b :: set_nth j a l)).
        { clear. induction l as [|z l IHl]; intros [|j'] a b H; cbn in H |- *; try discriminate.
          - inversion H; subst. constructor.
          - rewrite perm_swap. rewrite (IHl _ _ _ H). constructor. }
        assert (Idem : forall l i (x : T), nth_error l i = Some x -> set_nth i x l = l).
        { clear. induction l as [|z l IHl]; intros [|i'] x H; cbn in H |- *; try discriminate;
            [congruence|f_equal; auto]. }
        destruct i' as [|i'], j' as [|j']; cbn in H1, H2 |- *.
        - inversion H1; inversion H2; subst. reflexivity.
        - inversion H1; subst. apply Q. auto.
        - inversion H2; subst. apply Q. auto.
        - constructor. auto. }
      apply G; auto.
    + destruct (rev l0) as [|x r] eqn:E3; inversion E1; subst; rewrite ?app_nil_r; [reflexivity|].
      apply (f_equal (@rev _)) in E3. rewrite rev_involutive in E3. subst l0. cbn.
      symmetry. apply Permutation_cons_append.
    + discriminate.
Qed.
Print Assumptions C28_nothing_lost.

(** The list functions with which the tree model handles the children of a node are exactly the list operations above. *)
Theorem C28_tree_model_uses_this_list :
  forall (T : Type) (cap : nat) (l : list T),
  (forall x, list_step cap l (VPush x) = let* l' := push cap l x in Ok ([], l')) /\
  (forall x, list_step cap l (VTryPush x)
     = match try_push cap l x with inl l' => Ok ([], l') | inr y => Ok ([y], l) end) /\
  (forall i, list_step cap l (VSwapRemove i) = let* (x, l') := swap_remove i l in Ok ([x], l')) /\
  (forall i j, list_step cap l (VSwap i j) = let* l' := slice_swap i j l in Ok ([], l')).
Proof.
  intros T cap l. repeat split; intros; cbn [list_step].
  - unfold push. destruct (length l =? cap); reflexivity.
  - unfold try_push. destruct (length l =? cap); reflexivity.
  - unfold swap_remove. destruct (nth_error l i) eqn:E; [|reflexivity]. cbn [bind].
    assert (i < length l) by (apply nth_error_Some; congruence).
    rewrite set_nth_split by auto.
    destruct (i =? length l - 1) eqn:E2.
    + apply Nat.eqb_eq in E2. rewrite (skipn_all2 l) by lia.
      rewrite removelast_app by discriminate. cbn. rewrite app_nil_r. reflexivity.
    + apply Nat.eqb_neq in E2. rewrite removelast_app by discriminate.
      assert (Hs : skipn (S i) l = firstn (length l - 2 - i) (skipn (S i) l) ++ [last l t]).
      { rewrite <- (firstn_skipn (length l - 2 - i) (skipn (S i) l)) at 1. f_equal.
        rewrite skipn_skipn'. rewrite <- (skipn_last l t) by (destruct l; cbn in *; [lia|congruence]).
        f_equal. lia. }
      change (last l t :: skipn (S i) l) with ([last l t] ++ skipn (S i) l).
      rewrite Hs at 2. rewrite app_assoc, removelast_last. reflexivity.
  - unfold slice_swap. destruct (nth_error l i); [destruct (nth_error l j)|]; reflexivity.
Qed.
Print Assumptions C28_tree_model_uses_this_list.

(** A history using every call, on a vector of four 8-byte elements. *)
Definition vops : list (vop nat) :=
  [VPush 1; VPush 2; VInsert 1 3; VTryPush 4; VTryPush 5; VRead; VSwap 0 3; VRemove 1; VSwapRemove 0; VRead; VPop; VRead].
Example C28_example :
  0 < 8 * 4 /\ (Z.of_nat (8 * 4) <= 2 ^ 63 - 1)%Z /\
  list_run 4 [] vops = Ok ([[]; []; []; []; [5]; [1; 3; 2; 4]; []; [3]; [4]; [1; 2]; [2]; [1]], [1]) /\
  (let* v := new_vec 8 4 in let* (o, _) := vec_run 4 v vops in Ok o)
    = Ok [[]; []; []; []; [5]; [1; 3; 2; 4]; []; [3]; [4]; [1; 2]; [2]; [1]] /\
  list_run 1 [] [VPush 1; VPush 2] = Panic /\
  deque_run [1; 2; 3; 4; 5] [true; false; false] = ([Some 1; Some 5; Some 4], [2; 3]).
Proof. repeat split; (vm_compute; congruence) || lia. Qed.

(** ** C43 *)

(** What is claimed: consuming a vector yields all its elements, in order, whatever the element size. *)
Definition consuming_yields_all (T : Type) (size cap : nat) : Prop :=
  forall l : list T, length l <= cap ->
  forall v base, rep cap v l ->
    exists it, iter_run size (vec_into_iter size base v) (repeat true (length l)) = Ok (map Some l, it) /\
      iter_size_hint size it = Ok 0.

Lemma deque_all : forall T (l : list T), deque_run l (repeat true (length l)) = (map Some l, []).
Proof. induction l; [reflexivity|]. cbn. rewrite IHl. reflexivity. Qed.

(** It fails for zero-sized elements: the iterator's end pointer equals its start pointer. *)
Theorem C43_zero_sized_elements_refuted :
  ~ (forall (T : Type) (size cap : nat), consuming_yields_all T size cap).
Proof.
  intros H.
  destruct (H unit 0 1 [tt] (le_n 1) {| buf := Live [Some tt]; len := 1 |} 8) as (it & E & _).
  - exists []. cbn. auto.
  - cbn in E. discriminate.
Qed.
Print Assumptions C43_zero_sized_elements_refuted.

(** For zero-sized elements nothing is ever yielded, nothing is dropped, and [size_hint] divides by zero. *)
Theorem C43_zero_sized_elements_are_lost_partial :
  forall (T : Type) (cap : nat) (v : vec T) (l : list T) (base : nat),
  rep cap v l ->
  iter_next_front 0 (vec_into_iter 0 base v) = Ok (None, vec_into_iter 0 base v) /\
  iter_size_hint 0 (vec_into_iter 0 base v) = Panic /\
  iter_drop 0 (vec_into_iter 0 base v) = Ok ([], Freed).
Proof.
  intros T cap v l base (rest & Hb & _ & Hl). unfold iter_drop, iter_next_front, vec_into_iter. cbn [istart iend ibuf].
  rewrite Nat.mul_0_r, Nat.add_0_r, Nat.sub_diag, Nat.eqb_refl. cbn. unfold iter_next_front. cbn.
  rewrite Nat.eqb_refl. cbn. rewrite Hb. auto.
Qed.
Print Assumptions C43_zero_sized_elements_are_lost_partial.

Theorem C43_sized_elements_partial :
  forall (T : Type) (size cap : nat), 0 < size -> consuming_yields_all T size cap.
Proof.
  intros T size cap Hs l Hl v base R.
  destruct (iter_run_irep size Hs (repeat true (length l)) _ l (irep_init cap size base v l R)) as (it & E & R').
  rewrite deque_all in E, R'. cbn in E, R'. exists it. split; [exact E|].
  apply (size_hint_irep size Hs it [] R').
Qed.
Print Assumptions C43_sized_elements_partial.

(** ** C46 *)

(** Creating the storage of a node asks the allocator for [size * cap] bytes; zero bytes are undefined behaviour. *)
Theorem C46_new_vec_defined_refuted :
  ~ (forall (T : Type) (size cap : nat), (Z.of_nat (size * cap) <= 2 ^ 63 - 1)%Z -> @new_vec T size cap <> UB).
Proof. intros H. apply (H unit 0 4); [vm_compute; congruence|reflexivity]. Qed.
Print Assumptions C46_new_vec_defined_refuted.

Theorem C46_new_vec_defined_iff_partial :
  forall (T : Type) (size cap : nat),
  (@new_vec T size cap = UB <-> size = 0 \/ cap = 0) /\
  (@new_vec T size cap = Panic <-> (2 ^ 63 - 1 < Z.of_nat (size * cap))%Z) /\
  (0 < size * cap -> (Z.of_nat (size * cap) <= 2 ^ 63 - 1)%Z ->
     exists v : vec T, new_vec size cap = Ok v /\ vec_slice v = Ok []).
Proof.
  intros T size cap. rewrite Nat2Z.inj_mul. split; [|split].
  - unfold new_vec, alloc_array. destruct (Z.ltb_spec max_size (Z.of_nat size * Z.of_nat cap)).
    + split; [discriminate|]. intros [->| ->].
      * rewrite Z.mul_0_l in H. unfold max_size in H; lia.
      * rewrite Z.mul_0_r in H. unfold max_size in H; lia.
    + destruct (size * cap =? 0) eqn:E.
      * apply Nat.eqb_eq in E. split; [intros _; nia|reflexivity].
      * apply Nat.eqb_neq in E. cbn. split; [discriminate|intros [-> | ->]; nia].
  - unfold new_vec, alloc_array. destruct (Z.ltb_spec max_size (Z.of_nat size * Z.of_nat cap)).
    + split; auto.
    + destruct (size * cap =? 0); cbn; split; try discriminate; intros HH; apply Z.lt_nge in HH; contradiction.
  - rewrite <- Nat2Z.inj_mul. intros H0 H1. destruct (new_vec_rep T size cap H0 H1) as (v & E & R).
    exists v. split; [exact E|]. eapply vec_slice_rep; eauto.
Qed.
Print Assumptions C46_new_vec_defined_iff_partial.
