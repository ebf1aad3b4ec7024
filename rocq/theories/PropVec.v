(** Property C83: the operators of vectors. [vlist v]: the coordinates of [v]. *)
From Verif Require Import VecModel Witness CheckI32.

Lemma vec_index_spec {N} D (v : svec N D) i : vec_index v i = match nth_error (vlist v) i with Some x => Ok x | None => Panic end.
Proof. revert i. induction D as [|D IH]; intros i; [now destruct i|]. destruct i as [|i]; [reflexivity|]. apply IH. Qed.

Lemma vec_set_spec {N} D (v : svec N D) i x :
  match vec_set v i x with
  | Ok v' => i < D /\ forall j, nth_error (vlist v') j = if j =? i then Some x else nth_error (vlist v) j
  | Panic => D <= i
  | _ => False
  end.
Proof.
  revert i. induction D as [|D IH]; intros i; [cbn; lia|]. destruct i as [|i]; cbn [vec_set].
  - split; [lia|]. intros [|j]; reflexivity.
  - specialize (IH (snd v) i). destruct (vec_set (snd v) i x) as [r| | |]; cbn [bind]; try lia. destruct IH as [H1 H2].
    split; [lia|]. intros [|j]; [reflexivity|]. apply H2.
Qed.

Lemma from_fn_spec {N} D (f : nat -> res N) :
  match from_fn D f with
  | Ok v => forall i, i < D -> exists x, nth_error (vlist v) i = Some x /\ f i = Ok x
  | Panic => exists i, i < D /\ f i = Panic /\ forall j, j < i -> exists x, f j = Ok x
  | _ => exists i, i < D /\ match f i with Ok _ => False | Panic => False | _ => True end
  end.
Proof.
  revert f. induction D as [|D IH]; intros f; cbn [from_fn]; [intros i Hi; lia|].
  destruct (f 0) as [x| | |] eqn:E; cbn [bind]; [|exists 0; split; [lia|]; split; [exact E|intros j Hj; lia]|exists 0; split; [lia|]; now rewrite E..].
  specialize (IH (fun i => f (S i))). destruct (from_fn D (fun i => f (S i))) as [r| | |]; cbn [bind].
  - intros [|i] Hi; [exists x; now split|]. apply IH. lia.
  - destruct IH as (i & Hi & Hp & Hb). exists (S i). split; [lia|]. split; [exact Hp|]. intros [|j] Hj; [eauto|]. apply Hb. lia.
  - destruct IH as (i & Hi & Hp). exists (S i). split; [lia|exact Hp].
  - destruct IH as (i & Hi & Hp). exists (S i). split; [lia|exact Hp].
Qed.

Lemma vlist_inj {N : Type} (D : nat) (a b : svec N D) : vlist a = vlist b -> a = b.
Proof.
  induction D as [|D IH]; [now destruct a, b|]. destruct a as [x a], b as [y b]. cbn [vlist fst snd]. intros [= -> H]. f_equal. now apply IH.
Qed.
Lemma nth_ext_err {T} (l l' : list T) : (forall i, nth_error l i = nth_error l' i) -> l = l'.
Proof.
  revert l'. induction l as [|x l IH]; intros [|y l'] H; [reflexivity|discriminate (H 0)|discriminate (H 0)|].
  f_equal; [specialize (H 0); now injection H|]. apply IH. intros i. exact (H (S i)).
Qed.

(** ** C83 vector operators act on each coordinate by itself *)

(** [v[i]] is coordinate [i]; it panics exactly when there is none.  [v[i] = x] changes coordinate [i] only. *)
Theorem C83_index :
  forall (N : Type) (D : nat) (v : svec N D) (i : nat) (x : N),
  length (vlist v) = D /\
  (forall y, vec_index v i = Ok y <-> nth_error (vlist v) i = Some y) /\
  (vec_index v i = Panic <-> D <= i) /\
  match vec_set v i x with
  | Ok v' => i < D /\ forall j, nth_error (vlist v') j = if j =? i then Some x else nth_error (vlist v) j
  | Panic => D <= i
  | _ => False
  end.
Proof.
  intros N D v i x. assert (Hl : length (vlist v) = D) by apply vlist_len. split; [exact Hl|]. rewrite vec_index_spec. split; [|split; [|apply vec_set_spec]].
  - intros y. destruct (nth_error (vlist v) i); split; congruence.
  - assert (H := nth_error_None (vlist v) i). rewrite Hl in H. destruct (nth_error (vlist v) i) as [y|]; [|tauto].
    split; [discriminate|]. intros Hi. apply H in Hi. discriminate.
Qed.
Print Assumptions C83_index.

Lemma vec_op_spec {N} D (f : N -> N -> res N) (Hf : forall x y, f x y = Panic \/ exists z, f x y = Ok z) (a b : svec N D) :
  match from_fn D (fun i => let* x := vec_index a i in let* y := vec_index b i in f x y) with
  | Ok c => forall i x y, nth_error (vlist a) i = Some x -> nth_error (vlist b) i = Some y -> exists z, nth_error (vlist c) i = Some z /\ f x y = Ok z
  | Panic => exists i x y, nth_error (vlist a) i = Some x /\ nth_error (vlist b) i = Some y /\ f x y = Panic
  | _ => False
  end.
Proof.
  assert (Hn : forall (v : svec N D) i, i < D -> exists x, nth_error (vlist v) i = Some x).
  { intros v i Hi. destruct (nth_error (vlist v) i) eqn:E; [eauto|]. apply nth_error_None in E. rewrite vlist_len in E. lia. }
  assert (H := from_fn_spec D (fun i => let* x := vec_index a i in let* y := vec_index b i in f x y)).
  destruct (from_fn D _) as [c| | |].
  - intros i x y Hx Hy. assert (Hi : i < D) by (assert (Hs0 := vlist_len D a); assert (Hs1 := proj1 (nth_error_Some (vlist a) i)); rewrite Hs0 in Hs1; apply Hs1; congruence).
    destruct (H i Hi) as (z & Hz & E). rewrite !vec_index_spec, Hx, Hy in E. cbn [bind] in E. eauto.
  - destruct H as (i & Hi & E & _). destruct (Hn a i Hi) as [x Hx], (Hn b i Hi) as [y Hy]. exists i, x, y. rewrite !vec_index_spec, Hx, Hy in E. auto.
  - destruct H as (i & Hi & E). destruct (Hn a i Hi) as [x Hx], (Hn b i Hi) as [y Hy]. rewrite !vec_index_spec, Hx, Hy in E. cbn [bind] in E.
    destruct (Hf x y) as [H|[z H]]; rewrite H in E; exact E.
  - destruct H as (i & Hi & E). destruct (Hn a i Hi) as [x Hx], (Hn b i Hi) as [y Hy]. rewrite !vec_index_spec, Hx, Hy in E. cbn [bind] in E.
    destruct (Hf x y) as [H|[z H]]; rewrite H in E; exact E.
Qed.

(** [a + b], [a - b], for any operator [f] of the scalars that returns or panics: the results coordinate by coordinate, or a panic
    because one of them panics. *)
Theorem C83_add_sub :
  forall (N : Type) (D : nat) (f : N -> N -> res N) (a b : svec N D),
  (forall x y, f x y = Panic \/ exists z, f x y = Ok z) ->
  (match vec_add f a b with
   | Ok c => forall i x y, nth_error (vlist a) i = Some x -> nth_error (vlist b) i = Some y -> exists z, nth_error (vlist c) i = Some z /\ f x y = Ok z
   | Panic => exists i x y, nth_error (vlist a) i = Some x /\ nth_error (vlist b) i = Some y /\ f x y = Panic
   | _ => False
   end) /\
  (match vec_sub f a b with
   | Ok c => forall i x y, nth_error (vlist a) i = Some x -> nth_error (vlist b) i = Some y -> exists z, nth_error (vlist c) i = Some z /\ f x y = Ok z
   | Panic => exists i x y, nth_error (vlist a) i = Some x /\ nth_error (vlist b) i = Some y /\ f x y = Panic
   | _ => False
   end).
Proof. intros * Hf. split; now apply vec_op_spec. Qed.
Print Assumptions C83_add_sub.

Lemma add_assign_spec {N} D (f : N -> N -> res N) (Hf : forall x y, f x y = Panic \/ exists z, f x y = Ok z) (a b : svec N D) n m :
  m + n = D ->
  let (a', ok) := add_assign_loop f (seq m n) a b in
  exists k, m <= k <= D /\ (ok = true <-> k = D) /\
  (forall i x y, nth_error (vlist a) i = Some x -> nth_error (vlist b) i = Some y ->
     nth_error (vlist a') i = Some x /\ (i < m \/ k <= i) \/ m <= i < k /\ exists z, nth_error (vlist a') i = Some z /\ f x y = Ok z) /\
  (k < D -> exists x y, nth_error (vlist a) k = Some x /\ nth_error (vlist b) k = Some y /\ f x y = Panic).
Proof.
  revert m a. induction n as [|n IH]; intros m a Hm; cbn [seq add_assign_loop].
  - exists D. split; [lia|]. split; [tauto|]. split; [|lia]. intros i x y Hx Hy. left. split; [exact Hx|].
    assert (Hi : i < D) by (assert (Hs0 := vlist_len D a); assert (Hs1 := proj1 (nth_error_Some (vlist a) i)); rewrite Hs0 in Hs1; apply Hs1; congruence). lia.
  - assert (Hn : forall (v : svec N D), exists x, nth_error (vlist v) m = Some x).
    { intros v. destruct (nth_error (vlist v) m) eqn:E; [eauto|]. apply nth_error_None in E. rewrite vlist_len in E. lia. }
    destruct (Hn a) as [x0 Hx0], (Hn b) as [y0 Hy0]. rewrite !vec_index_spec, Hx0, Hy0. cbn [bind].
    destruct (Hf x0 y0) as [E|[z E]]; rewrite E; cbn [bind].
    + exists m. split; [lia|]. split; [split; [discriminate|lia]|]. split; [|intros _; eauto].
      intros i x y Hx Hy. left. split; [exact Hx|lia].
    + assert (Hs := vec_set_spec D a m z). destruct (vec_set a m z) as [a1| | |]; try lia. destruct Hs as [_ Hs].
      specialize (IH (S m) a1 ltac:(lia)). destruct (add_assign_loop f (seq (S m) n) a1 b) as [a' ok]. destruct IH as (k & Hk & Hok & H1 & H2).
      exists k. split; [lia|]. split; [exact Hok|]. split.
      * intros i x y Hx Hy. assert (H := Hs i). destruct (Nat.eqb_spec i m) as [->|Hne].
        -- right. split; [lia|]. rewrite Hx0 in Hx. injection Hx as <-. rewrite Hy0 in Hy. injection Hy as <-.
           exists z. split; [|exact E]. destruct (H1 m z y0 H Hy0) as [[H' _]|[Hlt _]]; [exact H'|lia].
        -- rewrite Hx in H. destruct (H1 i x y H Hy) as [[H' Hor]|[Hlt H']]; [left; split; [exact H'|lia]|right; split; [lia|exact H']].
      * intros Hlt. destruct (H2 Hlt) as (x & y & Hx & Hy & Hp). exists x, y. split; [|now split].
        rewrite Hs in Hx. destruct (Nat.eqb_spec k m); [lia|exact Hx].
Qed.

(** [a += b] adds coordinate by coordinate up to the first sum that panics: that many coordinates hold the sums, the others are
    as before.  It returns if no sum panics. *)
Theorem C83_add_assign :
  forall (N : Type) (D : nat) (f : N -> N -> res N) (a b : svec N D),
  (forall x y, f x y = Panic \/ exists z, f x y = Ok z) ->
  let (a', returned) := vec_add_assign f a b in
  exists k, k <= D /\ (returned = true <-> k = D) /\
  (forall i x y, nth_error (vlist a) i = Some x -> nth_error (vlist b) i = Some y ->
     if i <? k then exists z, nth_error (vlist a') i = Some z /\ f x y = Ok z else nth_error (vlist a') i = Some x) /\
  (k < D -> exists x y, nth_error (vlist a) k = Some x /\ nth_error (vlist b) k = Some y /\ f x y = Panic).
Proof.
  intros * Hf. unfold vec_add_assign. assert (H := add_assign_spec D f Hf a b D 0 eq_refl).
  destruct (add_assign_loop f (seq 0 D) a b) as [a' ok]. destruct H as (k & Hk & Hok & H1 & H2). exists k. split; [lia|]. split; [exact Hok|]. split; [|exact H2].
  intros i x y Hx Hy. destruct (H1 i x y Hx Hy) as [[H Hor]|[Hlt H]]; destruct (Nat.ltb_spec i k); try lia; assumption.
Qed.
Print Assumptions C83_add_assign.

(** So it is [a = a + b], where that returns; where that panics, [+=] is not atomic: *)
Theorem C83_add_assign_is_add :
  forall (N : Type) (D : nat) (f : N -> N -> res N) (a b c : svec N D),
  (forall x y, f x y = Panic \/ exists z, f x y = Ok z) -> vec_add f a b = Ok c -> vec_add_assign f a b = (c, true).
Proof.
  intros N D f a b c Hf E. assert (H := C83_add_assign N D f a b Hf). assert (Ha := proj1 (C83_add_sub N D f a b Hf)). rewrite E in Ha.
  destruct (vec_add_assign f a b) as [a' ok]. destruct H as (k & Hk & Hok & H1 & H2).
  assert (k = D).
  { destruct (Nat.eq_dec k D) as [|Hne]; [assumption|]. destruct (H2 ltac:(lia)) as (x & y & Hx & Hy & Hp). destruct (Ha k x y Hx Hy) as (z & _ & Hz). congruence. }
  subst k. f_equal; [|now apply Hok]. apply (vlist_inj D). apply nth_ext_err. intros i.
  destruct (nth_error (vlist a) i) as [x|] eqn:Ex.
  - assert (Hi : i < D) by (assert (Hs0 := vlist_len D a); assert (Hs1 := proj1 (nth_error_Some (vlist a) i)); rewrite Hs0 in Hs1; apply Hs1; congruence).
    destruct (nth_error (vlist b) i) as [y|] eqn:Ey; [|apply nth_error_None in Ey; rewrite vlist_len in Ey; lia].
    specialize (H1 i x y Ex Ey). destruct (Nat.ltb_spec i D); [|lia]. destruct H1 as (z & Hz & E1), (Ha i x y Ex Ey) as (z' & Hz' & E2). congruence.
  - assert (Hi : D <= i) by (apply nth_error_None in Ex; now rewrite vlist_len in Ex).
    rewrite !(proj2 (nth_error_None _ i)) by (rewrite vlist_len; exact Hi). reflexivity.
Qed.
Print Assumptions C83_add_assign_is_add.

Theorem C83_not_atomic :
  exists a b : svec i32 2,
  map i32_val (vlist a) = [1; 2147483647]%Z /\ vec_add (c_add i32_checked_ops) a b = Panic /\
  snd (vec_add_assign (c_add i32_checked_ops) a b) = false /\
  map i32_val (vlist (fst (vec_add_assign (c_add i32_checked_ops) a b))) = [2; 2147483647]%Z.
Proof.
  exists (pt 1 2147483647), (pt 1 1). split; [vm_compute; reflexivity|]. split; [apply is_panic_spec; vm_compute; reflexivity|].
  split; vm_compute; reflexivity.
Qed.
Print Assumptions C83_not_atomic.

(** [into_map] calls the closure on each coordinate in order, until it panics. *)
Fixpoint calls {W N U} (f : W -> N -> option U * W) (l : list N) (w : W) : option (list U) * W :=
  match l with
  | [] => (Some [], w)
  | x :: r => let (u, w) := f w x in
    match u with None => (None, w) | Some u => let (us, w) := calls f r w in (option_map (cons u) us, w) end
  end.
Theorem C83_into_map :
  forall (W N U : Type) (D : nat) (f : W -> N -> option U * W) (v : svec N D) (w : W),
  (option_map vlist (fst (vec_into_map f v w)), snd (vec_into_map f v w)) = calls f (vlist v) w.
Proof.
  intros W N U D f. induction D as [|D IH]; intros v w; [reflexivity|]. cbn [vec_into_map vlist calls].
  destruct (f w (fst v)) as [[u|] w1]; [|reflexivity]. rewrite <- (IH (snd v) w1). destruct (vec_into_map f (snd v) w1) as [[r|] w2]; reflexivity.
Qed.
Print Assumptions C83_into_map.

(** Vectors compare like words of a dictionary: at the first coordinate where they differ. *)
Theorem C83_order :
  forall (N : Type) (D : nat) (cmp : N -> N -> option comparison) (a b : svec N D) (c : option comparison),
  vec_partial_cmp cmp a b = c <->
  (c = Some Eq /\ (forall i x y, nth_error (vlist a) i = Some x -> nth_error (vlist b) i = Some y -> cmp x y = Some Eq)) \/
  (c <> Some Eq /\ exists i x y, nth_error (vlist a) i = Some x /\ nth_error (vlist b) i = Some y /\ cmp x y = c /\
     forall j x' y', j < i -> nth_error (vlist a) j = Some x' -> nth_error (vlist b) j = Some y' -> cmp x' y' = Some Eq).
Proof.
  intros N D cmp. assert (Hfun : forall (a b : svec N D) c, vec_partial_cmp cmp a b = c ->
    (c = Some Eq /\ (forall i x y, nth_error (vlist a) i = Some x -> nth_error (vlist b) i = Some y -> cmp x y = Some Eq)) \/
    (c <> Some Eq /\ exists i x y, nth_error (vlist a) i = Some x /\ nth_error (vlist b) i = Some y /\ cmp x y = c /\
     forall j x' y', j < i -> nth_error (vlist a) j = Some x' -> nth_error (vlist b) j = Some y' -> cmp x' y' = Some Eq)).
  { induction D as [|D IH]; intros a b c H; cbn [vec_partial_cmp vlist] in *.
    - left. split; [now symmetry|]. intros [|i]; discriminate.
    - destruct (cmp (fst a) (fst b)) as [[| |]|] eqn:E.
      2-4: right; split; [congruence|]; exists 0, (fst a), (fst b); repeat (split; [try reflexivity; congruence|]); intros; lia.
      destruct (IH (snd a) (snd b) c H) as [[H1 H2]|[H1 (i & x & y & Hx & Hy & Hc & Hj)]].
      + left. split; [exact H1|]. intros [|i] x y; cbn; [intros [= <-] [= <-]; exact E|apply H2].
      + right. split; [exact H1|]. exists (S i), x, y. repeat (split; [assumption|]). intros [|j] x' y' Hlt; cbn; [intros [= <-] [= <-]; exact E|apply Hj; lia]. }
  intros a b c. split; [apply Hfun|]. intros [[-> H]|[Hc (i & x & y & Hx & Hy & Ec & Hj)]].
  - destruct (Hfun a b _ eq_refl) as [[H1 _]|[H1 (i & x & y & Hx & Hy & Ec & _)]]; [exact H1|]. elim H1. rewrite <- Ec. exact (H i x y Hx Hy).
  - destruct (Hfun a b _ eq_refl) as [[H1 H2]|[H1 (i' & x' & y' & Hx' & Hy' & Ec' & Hj')]].
    + elim Hc. rewrite <- Ec. exact (H2 i x y Hx Hy).
    + destruct (Nat.lt_trichotomy i i') as [Hlt|[->|Hlt]].
      * elim Hc. rewrite <- Ec. exact (Hj' i x y Hlt Hx Hy).
      * congruence.
      * elim H1. rewrite <- Ec'. exact (Hj i' x' y' Hlt Hx' Hy').
Qed.
Print Assumptions C83_order.

Definition vals {D} (r : res (svec i32 D)) : option (list Z) := match r with Ok v => Some (map i32_val (vlist v)) | _ => None end.
Example C83_example :
  option_map i32_val (match vec_index (pt 3 4) 1 with Ok x => Some x | _ => None end) = Some 4%Z /\ vec_index (pt 3 4) 2 = Panic /\
  vals (vec_add (c_add i32_checked_ops) (pt 3 4) (pt 10 20)) = Some [13; 24]%Z /\
  vec_partial_cmp (fun x y => Some (i32_val x ?= i32_val y)%Z) (pt 3 4) (pt 3 5) = Some Lt.
Proof. split; [vm_compute; reflexivity|]. split; [apply is_panic_spec; vm_compute; reflexivity|]. split; vm_compute; reflexivity. Qed.
