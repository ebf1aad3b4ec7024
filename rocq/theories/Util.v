(** Proof utilities: permutations, list helpers, outcomes. *)
From Verif Require Export Spec.

#[global] Arguments Nat.ltb : simpl never.
#[global] Arguments Nat.leb : simpl never.
#[global] Arguments Nat.eqb : simpl never.

(** ** Outcomes *)
(** [post m Pan Q]: [m] never is [UB] or [OutOfFuel], panics only if [Pan], and any result satisfies
    [Q]. *)
Definition post {A} (m : res A) (Pan : Prop) (Q : A -> Prop) : Prop :=
  match m with Ok a => Q a | Panic => Pan | UB => False | OutOfFuel => False end.

Lemma post_bind {A C} (m : res A) (k : A -> res C) Pan (Q : A -> Prop) (R : C -> Prop) :
  post m Pan Q -> (forall a, m = Ok a -> Q a -> post (k a) Pan R) -> post (bind m k) Pan R.
Proof. destruct m; cbn; intros H1 H2; auto. Qed.

Lemma post_bind2 {A C} (m : res A) (k : A -> res C) (Pan0 Pan : Prop) (Q : A -> Prop) (R : C -> Prop) :
  post m Pan0 Q -> (forall a, m = Ok a -> Q a -> post (k a) Pan R) -> (Pan0 -> Pan) -> post (bind m k) Pan R.
Proof. destruct m; cbn; intros H1 H2; auto. Qed.

Lemma post_mono {A} (m : res A) (Pan Pan' : Prop) (Q Q' : A -> Prop) :
  post m Pan Q -> (Pan -> Pan') -> (forall a, Q a -> Q' a) -> post m Pan' Q'.
Proof. destruct m; cbn; auto. Qed.

Lemma post_ok {A} (m : res A) Pan Q a : post m Pan Q -> m = Ok a -> Q a.
Proof. intros H ->. exact H. Qed.

Lemma post_exists {A} (m : res A) (Pan : Prop) Q : post m Pan Q -> ~ Pan -> exists a, m = Ok a /\ Q a.
Proof. destruct m; cbn; intros H HP; try contradiction. eauto. Qed.

Ltac splits := repeat match goal with |- _ /\ _ => split end.

(** ** Permutation solver *)
Lemma perm_bring_there {A} (a b r r' : list A) :
  Permutation r (a ++ r') -> Permutation (b ++ r) (a ++ b ++ r').
Proof.
  intros H. rewrite H, !app_assoc. apply Permutation_app_tail, Permutation_app_comm.
Qed.
Lemma perm_bring_here {A} (a r : list A) : Permutation (a ++ r) (a ++ r).
Proof. reflexivity. Qed.
Lemma perm_bring_last {A} (a : list A) : Permutation a (a ++ []).
Proof. now rewrite app_nil_r. Qed.
Lemma perm_cons_app {A} (x : A) l : x :: l = [x] ++ l. Proof. reflexivity. Qed.
Lemma perm_drop_nil {A} (x : A) : [x] ++ [] = [x]. Proof. reflexivity. Qed.

Lemma perm_step_lemma {A} (a l r r' : list A) :
  Permutation r (a ++ r') -> Permutation l r' -> Permutation (a ++ l) r.
Proof. intros H1 H2. rewrite H1. now apply Permutation_app_head. Qed.

Ltac perm_bring :=
  lazymatch goal with
  | |- Permutation (?a ++ ?r) (?a ++ ?e) => apply perm_bring_here
  | |- Permutation ?a (?a ++ ?e) => apply perm_bring_last
  | |- Permutation (?b ++ ?r) (?a ++ ?e) => eapply perm_bring_there; perm_bring
  end.
Ltac perm_norm :=
  repeat match goal with
  | |- context [?x :: ?l] =>
      lazymatch l with
      | [] => fail
      | _ => rewrite (perm_cons_app x l)
      end
  end;
  repeat rewrite <- !app_assoc; repeat rewrite app_nil_l; repeat rewrite app_nil_r.
Ltac perm_step :=
  lazymatch goal with
  | |- Permutation (?a ++ ?l) ?r =>
      eapply (perm_step_lemma a); [ perm_bring | ]
  | |- Permutation ?a ?a => apply Permutation_refl
  end.
Ltac perm := perm_norm; repeat perm_step; rewrite ?app_nil_r; try apply Permutation_refl.

Example perm_test {A} (x y : A) a b c :
  Permutation (a ++ x :: b ++ y :: c) (y :: (c ++ b) ++ [x] ++ a).
Proof. perm. Qed.

(** ** Lists *)
Lemma set_nth_length {T} i (x : T) l : length (set_nth i x l) = length l.
Proof. revert i; induction l as [|y l IH]; intros [|i]; cbn; auto. Qed.

Lemma nth_error_split_set {T} i (x y : T) l :
  nth_error l i = Some x ->
  exists l1 l2, l = l1 ++ x :: l2 /\ length l1 = i /\ set_nth i y l = l1 ++ y :: l2.
Proof.
  revert i; induction l as [|z l IH]; intros [|i]; cbn; try discriminate.
  - intros [= ->]. exists [], l. auto.
  - intros H. destruct (IH _ H) as (l1 & l2 & -> & Hl & ->).
    exists (z :: l1), l2. cbn. auto.
Qed.

Lemma set_nth_same {T} i (x : T) l : nth_error l i = Some x -> set_nth i x l = l.
Proof. intros H. destruct (nth_error_split_set i x x l H) as (l1 & l2 & -> & _ & ->). reflexivity. Qed.

Lemma nth_error_set_nth {T} i j (x : T) l :
  nth_error (set_nth i x l) j = if i =? j then (if j <? length l then Some x else None)
                                else nth_error l j.
Proof.
  revert i j; induction l as [|y l IH]; intros [|i] [|j]; try reflexivity.
  - cbn. now destruct (S i =? S j).
  - cbn [set_nth nth_error]. rewrite IH. reflexivity.
Qed.

Lemma set_nth_middle {T} (l1 l2 : list T) x y : set_nth (length l1) x (l1 ++ y :: l2) = l1 ++ x :: l2.
Proof. induction l1 as [|z l1 IH]; cbn; [reflexivity|]. now rewrite IH. Qed.

Lemma nth_error_middle {T} (l1 l2 : list T) x : nth_error (l1 ++ x :: l2) (length l1) = Some x.
Proof. induction l1; cbn; auto. Qed.

Lemma removelast_app1 {T} (l : list T) x : removelast (l ++ [x]) = l.
Proof. rewrite removelast_app by discriminate. apply app_nil_r. Qed.

Lemma nth_error_exists {T} i (l : list T) : i < length l -> exists x, nth_error l i = Some x.
Proof.
  intros H. destruct (nth_error l i) eqn:E; eauto.
  apply nth_error_None in E. lia.
Qed.

Lemma nth_error_lt {T} i (l : list T) x : nth_error l i = Some x -> i < length l.
Proof. intros H. apply nth_error_Some. congruence. Qed.

Lemma swap_remove_spec {T} i (l : list T) :
  i < length l ->
  exists x l', swap_remove i l = Ok (x, l') /\ nth_error l i = Some x /\ Permutation l (x :: l')
               /\ firstn i l = firstn i l'.
Proof.
  intros H. destruct (nth_error_exists i l H) as [x Hx].
  unfold swap_remove. rewrite Hx. do 2 eexists. split; [reflexivity|]. split; [reflexivity|].
  destruct (nth_error_split_set i x (last l x) l Hx) as (l1 & l2 & E & Hl & Es).
  rewrite Es. destruct l2 as [|z l2] using rev_ind.
  - rewrite removelast_app1. subst l. split; [perm|].
    rewrite <- Hl, firstn_app, Nat.sub_diag, firstn_all. cbn. now rewrite app_nil_r.
  - clear IHl2. assert (Hlast : last l x = z).
    { subst l. change (x :: l2 ++ [z]) with ((x :: l2) ++ [z]). rewrite app_assoc. apply last_last. }
    rewrite Hlast.
    replace (l1 ++ z :: l2 ++ [z]) with ((l1 ++ z :: l2) ++ [z]) by (now rewrite <- app_assoc).
    rewrite removelast_app1. subst l. split; [perm|].
    rewrite <- Hl, !firstn_app, Nat.sub_diag. reflexivity.
Qed.

Lemma swap_remove_length {T} i (l : list T) x l' : swap_remove i l = Ok (x, l') -> length l = S (length l').
Proof.
  intros H. assert (Hi : i < length l).
  { unfold swap_remove in H. destruct (nth_error l i) eqn:E; [|discriminate]. now apply nth_error_lt in E. }
  destruct (swap_remove_spec i l Hi) as (x' & l'' & E & _ & Hp & _).
  rewrite E in H; injection H as -> ->. apply Permutation_length in Hp. exact Hp.
Qed.

Lemma slice_swap_spec {T} i j (l : list T) :
  i < length l -> j < length l -> exists l', slice_swap i j l = Ok l' /\ Permutation l l' /\ length l' = length l
    /\ nth_error l' j = nth_error l i /\ (forall m, m < i -> m < j -> nth_error l' m = nth_error l m).
Proof.
  intros Hi Hj. destruct (nth_error_exists i l Hi) as [x Hx]. destruct (nth_error_exists j l Hj) as [y Hy].
  unfold slice_swap. rewrite Hx, Hy. eexists; split; [reflexivity|]. rewrite !set_nth_length.
  split; [|split; [reflexivity|split]].
  - destruct (nth_error_split_set i x y l Hx) as (l1 & l2 & E & Hl & Es). rewrite Es.
    destruct (lt_eq_lt_dec i j) as [[Hij|Hij]|Hij].
    + assert (Hz : nth_error (l1 ++ y :: l2) j = Some y).
      { rewrite <- Es, nth_error_set_nth. destruct (Nat.eqb_spec i j); [lia|]. exact Hy. }
      rewrite E in Hy.
      rewrite nth_error_app2 in Hy, Hz by lia. destruct (j - length l1) as [|d] eqn:Ed; [lia|]. cbn in Hy.
      destruct (nth_error_split_set d y x l2 Hy) as (m1 & m2 & E2 & Hm & _). subst l2.
      replace j with (length (l1 ++ y :: m1)) by (rewrite app_length; cbn; lia).
      replace (l1 ++ y :: m1 ++ y :: m2) with ((l1 ++ y :: m1) ++ y :: m2) by (now rewrite <- app_assoc).
      rewrite set_nth_middle. subst l. perm.
    + subst j. rewrite Hx in Hy. injection Hy as <-. rewrite <- Hl, set_nth_middle. now subst l.
    + rewrite E in Hy. rewrite nth_error_app1 in Hy by lia.
      destruct (nth_error_split_set j y x l1 Hy) as (m1 & m2 & E2 & Hm & _). subst l1 l.
      rewrite <- !app_assoc. cbn. rewrite <- Hm, set_nth_middle. perm.
  - rewrite nth_error_set_nth, Nat.eqb_refl, set_nth_length. destruct (Nat.ltb_spec j (length l)); [congruence|lia].
  - intros m Hm1 Hm2. rewrite !nth_error_set_nth.
    destruct (Nat.eqb_spec j m); [lia|]. destruct (Nat.eqb_spec i m); [lia|]. reflexivity.
Qed.

Lemma min_by_from_in {T} (cmp : T -> T -> comparison) l best : In (min_by_from cmp best l) (best :: l).
Proof.
  revert best; induction l as [|y l IH]; intros best; cbn; [auto|].
  destruct (IH (match cmp best y with Gt => y | _ => best end)) as [H|H].
  - destruct (cmp best y); auto.
  - auto.
Qed.

Lemma min_by_in {T} (cmp : T -> T -> comparison) l x : min_by cmp l = Some x -> In x l.
Proof. destruct l as [|y l]; cbn; [discriminate|]. intros [= <-]. apply min_by_from_in. Qed.

Lemma min_by_some {T} (cmp : T -> T -> comparison) l : l <> [] -> exists x, min_by cmp l = Some x.
Proof. destruct l; [congruence|]. cbn; eauto. Qed.

Lemma enumerate_length {T} (l : list T) : length (enumerate l) = length l.
Proof. unfold enumerate. rewrite combine_length, seq_length. apply Nat.min_id. Qed.

Lemma in_combine_seq {T} (l : list T) s i x :
  In (i, x) (combine (seq s (length l)) l) <-> s <= i /\ nth_error l (i - s) = Some x.
Proof.
  revert s; induction l as [|y l IH]; intros s; cbn.
  - split; [tauto|]. intros [_ H]. destruct (i - s); discriminate.
  - rewrite IH. split.
    + intros [[= -> ->]|[H1 H2]].
      * rewrite Nat.sub_diag. cbn. split; [lia|reflexivity].
      * split; [lia|]. replace (i - s) with (S (i - S s)) by lia. exact H2.
    + intros [H1 H2]. destruct (Nat.eq_dec i s) as [->|Hne].
      * rewrite Nat.sub_diag in H2. cbn in H2. left. congruence.
      * right. split; [lia|]. replace (i - s) with (S (i - S s)) in H2 by lia. exact H2.
Qed.

Lemma in_enumerate {T} (l : list T) i x : In (i, x) (enumerate l) <-> nth_error l i = Some x.
Proof.
  unfold enumerate. rewrite in_combine_seq, Nat.sub_0_r. split; [tauto|]. split; [lia|assumption].
Qed.

Lemma Permutation_flat_map_ {A C} (f : A -> list C) l l' :
  Permutation l l' -> Permutation (flat_map f l) (flat_map f l').
Proof. induction 1; cbn; eauto using Permutation_trans; [now apply Permutation_app_head| perm]. Qed.

Lemma find_app_ {A} (f : A -> bool) l l' :
  find f (l ++ l') = match find f l with Some x => Some x | None => find f l' end.
Proof. induction l as [|x l IH]; cbn; [reflexivity|]. now destruct (f x). Qed.

Lemma find_split {A} (f : A -> bool) l x :
  find f l = Some x -> exists l1 l2, l = l1 ++ x :: l2 /\ f x = true /\ forall y, In y l1 -> f y = false.
Proof.
  induction l as [|y l IH]; cbn; [discriminate|]. destruct (f y) eqn:E.
  - intros [= ->]. exists [], l. cbn. firstorder.
  - intros H. destruct (IH H) as (l1 & l2 & -> & Hx & Hl). exists (y :: l1), l2. split; [reflexivity|].
    split; [assumption|]. intros z [<-|Hz]; auto.
Qed.

Lemma find_split_iff {A} (f : A -> bool) l x l1 l2 :
  l = l1 ++ x :: l2 -> f x = true -> (forall y, In y l1 -> f y = false) -> find f l = Some x.
Proof.
  intros -> Hx Hl. rewrite find_app_. replace (find f l1) with (@None A).
  - cbn. now rewrite Hx.
  - symmetry. induction l1 as [|z l1 IH]; cbn; [reflexivity|].
    rewrite (Hl z (or_introl eq_refl)). apply IH. firstorder.
Qed.

Lemma find_none_iff {A} (f : A -> bool) l : find f l = None <-> forall x, In x l -> f x = false.
Proof.
  induction l as [|y l IH]; cbn; [firstorder|]. destruct (f y) eqn:E.
  - split; [discriminate|]. intros H. rewrite (H y (or_introl eq_refl)) in E. discriminate.
  - rewrite IH. split; [intros H x [<-|Hx]; auto|auto].
Qed.

Lemma position_spec {A} (f : A -> bool) l :
  match position f l with
  | Some i => exists x, nth_error l i = Some x /\ f x = true /\ find f l = Some x
  | None => find f l = None
  end.
Proof.
  induction l as [|y l IH]; cbn; [reflexivity|]. destruct (f y) eqn:E.
  - exists y. auto.
  - destruct (position f l) as [i|]; cbn; exact IH.
Qed.

Lemma Forall_set_nth {T} (R : T -> Prop) i x l : Forall R l -> R x -> Forall R (set_nth i x l).
Proof.
  intros H Hx; revert i; induction H as [|y l Hy Hl IH]; intros [|i]; cbn; auto.
Qed.

Lemma Forall_nth_error {T} (R : T -> Prop) i x l : Forall R l -> nth_error l i = Some x -> R x.
Proof. intros H E. rewrite Forall_forall in H. apply H. now apply nth_error_In in E. Qed.

Lemma Forall_perm {T} (R : T -> Prop) l l' : Permutation l l' -> Forall R l -> Forall R l'.
Proof. intros Hp H. rewrite Forall_forall in *. intros x Hx. apply H. now rewrite Hp. Qed.

Lemma nth_error_firstn_ {T} (l : list T) a i : i < a -> nth_error l i = nth_error (firstn a l) i.
Proof.
  revert a i; induction l as [|x l IH]; intros [|a] [|i] H; cbn; try lia; try reflexivity.
  apply IH. lia.
Qed.

Lemma nth_error_ext_ {T} (l l' : list T) :
  length l = length l' -> (forall i, i < length l -> nth_error l i = nth_error l' i) -> l = l'.
Proof.
  revert l'; induction l as [|x l IH]; intros [|y l'] Hl H; cbn in Hl; try discriminate; [reflexivity|].
  f_equal.
  - specialize (H 0 (Nat.lt_0_succ _)). cbn in H. congruence.
  - apply IH; [lia|]. intros i Hi. apply (H (S i)). cbn; lia.
Qed.

Lemma enumerate_nth {T} (l : list T) j :
  nth_error (enumerate l) j = option_map (fun y => (j, y)) (nth_error l j).
Proof.
  unfold enumerate. assert (G : forall s, nth_error (combine (seq s (length l)) l) j = option_map (fun y => (s + j, y)) (nth_error l j)).
  { revert j. induction l as [|a l IH]; intros [|j] s; cbn; try reflexivity.
    - now rewrite Nat.add_0_r.
    - rewrite IH. now replace (S s + j) with (s + S j) by lia. }
  apply (G 0).
Qed.
