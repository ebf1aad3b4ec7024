(** References of one allocator never share memory. *)
From Verif Require Export RcMutSpec FCVecProof LeftJoinProof.

Lemma nth_set_nth {A} : forall i j (x : A) l,
  nth_error (set_nth i x l) j = if (i =? j) && (i <? length l) then Some x else nth_error l j.
Proof.
  induction i; destruct l; cbn; intros; destruct j; cbn; auto; rewrite ?andb_false_r; auto.
  change (S i <? S (length l)) with (i <? length l). apply IHi.
Qed.
Lemma nth_set_same {A} : forall i (x y : A) l, nth_error l i = Some y -> nth_error (set_nth i x l) i = Some x.
Proof.
  intros. rewrite nth_set_nth, Nat.eqb_refl.
  assert (i < length l) by (apply nth_error_Some; congruence).
  replace (i <? length l) with true by (symmetry; apply Nat.ltb_lt; auto). reflexivity.
Qed.
Lemma nth_set_other {A} : forall i j (x : A) l, i <> j -> nth_error (set_nth i x l) j = nth_error l j.
Proof. intros. rewrite nth_set_nth. replace (i =? j) with false by (symmetry; now apply Nat.eqb_neq). reflexivity. Qed.

Section RcInv.
Context {V : Type}.

Definition owner_is (o : option nat) (p : nat) : bool := match o with Some a => a =? p | None => false end.

(** [refs] lists, per reference, its box and its value. *)
Record rc_inv (h : rc_mem V) (owner : option nat) (refs : list (option (nat * V))) : Prop := {
  inv_inj : forall i j p v w, nth_error refs i = Some (Some (p, v)) -> nth_error refs j = Some (Some (p, w)) -> i = j;
  inv_ref : forall i p v, nth_error refs i = Some (Some (p, v)) ->
    nth_error h p = Some (RLive (owner_is owner p) (Some v));
  inv_own : forall a, owner = Some a -> exists s o, nth_error h a = Some (RLive s o) /\
    (s = true -> exists i v, nth_error refs i = Some (Some (a, v)));
  inv_live : forall p s o, nth_error h p = Some (RLive s o) ->
    owner = Some p \/ exists i v, nth_error refs i = Some (Some (p, v))
}.

Lemma rc_inv_init : rc_inv (fst (rc_alloc [])) (Some (snd (rc_alloc (V := V) []))) [].
Proof.
  constructor; cbn; intros.
  - destruct i; discriminate.
  - destruct i; discriminate.
  - injection H as <-. exists false, None. cbn. split; [reflexivity|discriminate].
  - destruct p as [|[|p]]; cbn in H; try discriminate. auto.
Qed.

Lemma read_inv : forall h owner refs i p v, rc_inv h owner refs -> nth_error refs i = Some (Some (p, v)) ->
  read_value h p = Ok v.
Proof. intros * I H. unfold read_value. rewrite (inv_ref _ _ _ I _ _ _ H). reflexivity. Qed.

Lemma write_inv : forall h owner refs i p v w, rc_inv h owner refs -> nth_error refs i = Some (Some (p, v)) ->
  exists h', write_value h p w = Ok h' /\ rc_inv h' owner (set_nth i (Some (p, w)) refs).
Proof.
  intros * I H. unfold write_value. pose proof (inv_ref _ _ _ I _ _ _ H) as Hp. rewrite Hp.
  eexists; split; [reflexivity|].
  assert (Q : forall j q u, nth_error (set_nth i (Some (p, w)) refs) j = Some (Some (q, u)) ->
            (j = i /\ q = p /\ u = w) \/ (j <> i /\ nth_error refs j = Some (Some (q, u)))).
  { intros j q u Hj. destruct (Nat.eq_dec i j) as [->|N].
    - rewrite (nth_set_same _ _ _ _ H) in Hj. injection Hj as <- <-. auto.
    - rewrite nth_set_other in Hj by auto. auto. }
  constructor.
  - intros j j' q u u' H1 H2.
    destruct (Q _ _ _ H1) as [(-> & -> & ->)|(N1 & G1)], (Q _ _ _ H2) as [(-> & E & ->)|(N2 & G2)]; auto.
    + exfalso. apply N2. eapply (inv_inj _ _ _ I); eauto.
    + exfalso. apply N1. subst. eapply (inv_inj _ _ _ I); eauto.
    + eapply (inv_inj _ _ _ I); eauto.
  - intros j q u Hj. destruct (Q _ _ _ Hj) as [(-> & -> & ->)|(N & G)].
    + erewrite nth_set_same by eauto. reflexivity.
    + rewrite nth_set_other; [eapply (inv_ref _ _ _ I); eauto|].
      intros ->. apply N. eapply (inv_inj _ _ _ I); eauto.
  - intros a Ha. destruct (inv_own _ _ _ I a Ha) as (s & o & E & R).
    assert (R' : s = true -> exists i0 v0, nth_error (set_nth i (Some (p, w)) refs) i0 = Some (Some (a, v0))).
    { intros Hs. destruct (R Hs) as (i0 & v0 & E0). destruct (Nat.eq_dec i i0) as [->|N].
      - rewrite H in E0. injection E0 as -> ->. exists i0, w. eapply nth_set_same; eauto.
      - exists i0, v0. rewrite nth_set_other; auto. }
    destruct (Nat.eq_dec p a) as [->|N].
    + rewrite Hp in E. injection E as <- <-. exists (owner_is owner a), (Some w).
      split; [eapply nth_set_same; eauto|exact R'].
    + exists s, o. rewrite nth_set_other by auto. auto.
  - intros q s o Hq. destruct (Nat.eq_dec p q) as [->|N].
    + right. exists i, w. eapply nth_set_same; eauto.
    + rewrite nth_set_other in Hq by auto. destruct (inv_live _ _ _ I _ _ _ Hq) as [|(i0 & v0 & E0)]; [auto|].
      right. exists i0, v0. rewrite nth_set_other; auto. intros ->. rewrite H in E0. congruence.
Qed.

Lemma drop_inv : forall h owner refs i p v, rc_inv h owner refs -> nth_error refs i = Some (Some (p, v)) ->
  exists h', rcmut_drop h p = Ok (if owner_is owner p then None else Some v, h') /\
    rc_inv h' owner (set_nth i None refs).
Proof.
  intros * I H. pose proof (inv_ref _ _ _ I _ _ _ H) as Hp.
  unfold rcmut_drop, replace_shared, get_shared, set_shared. rewrite Hp. cbn [bind].
  assert (Q : forall j q u, nth_error (set_nth i None refs) j = Some (Some (q, u)) ->
            j <> i /\ nth_error refs j = Some (Some (q, u))).
  { intros j q u Hj. destruct (Nat.eq_dec i j) as [->|N].
    - rewrite (nth_set_same _ _ _ _ H) in Hj. discriminate.
    - rewrite nth_set_other in Hj by auto. auto. }
  assert (Q2 : forall j q u, nth_error (set_nth i None refs) j = Some (Some (q, u)) -> q <> p).
  { intros j q u Hj ->. destruct (Q _ _ _ Hj) as (N & G). apply N. eapply (inv_inj _ _ _ I); eauto. }
  destruct (owner_is owner p) eqn:Eo.
  - eexists; split; [reflexivity|]. destruct owner as [a|]; [|discriminate]. cbn in Eo. apply Nat.eqb_eq in Eo. subst a.
    constructor.
    + intros j j' q u u' H1 H2. apply Q in H1, H2. eapply (inv_inj _ _ _ I); [apply H1|apply H2].
    + intros j q u Hj. pose proof (Q2 _ _ _ Hj) as Nq. apply Q in Hj. rewrite nth_set_other by auto.
      eapply (inv_ref _ _ _ I). apply Hj.
    + intros a Ha. injection Ha as <-. exists false, (Some v). split; [eapply nth_set_same; eauto|discriminate].
    + intros q s o Hq. destruct (Nat.eq_dec p q) as [->|N]; [auto|]. rewrite nth_set_other in Hq by auto.
      destruct (inv_live _ _ _ I _ _ _ Hq) as [|(i0 & v0 & E0)]; [auto|].
      right. exists i0, v0. rewrite nth_set_other; auto. intros ->. rewrite H in E0. congruence.
  - unfold read_value, free_box. rewrite (nth_set_same _ _ _ _ Hp). cbn [bind].
    eexists; split; [reflexivity|].
    assert (Eq : set_nth p RFreed (set_nth p (RLive false (Some v)) h) = set_nth p RFreed h).
    { clear. revert h. induction p; destruct h; cbn; f_equal; auto. }
    rewrite Eq. constructor.
    + intros j j' q u u' H1 H2. apply Q in H1, H2. eapply (inv_inj _ _ _ I); [apply H1|apply H2].
    + intros j q u Hj. pose proof (Q2 _ _ _ Hj) as Nq. apply Q in Hj. rewrite nth_set_other by auto.
      eapply (inv_ref _ _ _ I). apply Hj.
    + intros a Ha. destruct (inv_own _ _ _ I a Ha) as (s & o & E & R).
      assert (p <> a) by (intros ->; subst owner; cbn in Eo; rewrite Nat.eqb_refl in Eo; discriminate).
      exists s, o. rewrite nth_set_other by auto. split; [auto|].
      intros Hs. destruct (R Hs) as (i0 & v0 & E0). exists i0, v0. rewrite nth_set_other; auto.
      intros ->. rewrite H in E0. congruence.
    + intros q s o Hq. destruct (Nat.eq_dec p q) as [->|N].
      * erewrite nth_set_same in Hq by eauto. discriminate.
      * rewrite nth_set_other in Hq by auto.
        destruct (inv_live _ _ _ I _ _ _ Hq) as [|(i0 & v0 & E0)]; [auto|].
        right. exists i0, v0. rewrite nth_set_other; auto. intros ->. rewrite H in E0. congruence.
Qed.

Lemma alloc_drop_inv : forall h a refs, rc_inv h (Some a) refs ->
  exists h', alloc_drop h a = Ok h' /\ rc_inv h' None refs /\ length h' = length h.
Proof.
  intros * I. destruct (inv_own _ _ _ I a eq_refl) as (s & o & E & R).
  unfold alloc_drop, replace_shared, get_shared, set_shared. rewrite E. cbn [bind].
  destruct s.
  - eexists; split; [reflexivity|]. split; [|apply set_nth_length].
    destruct (R eq_refl) as (i & v & Hi). pose proof (inv_ref _ _ _ I _ _ _ Hi) as Ha. rewrite E in Ha.
    injection Ha as _ ->. constructor.
    + apply (inv_inj _ _ _ I).
    + intros j q u Hj. cbn. destruct (Nat.eq_dec a q) as [->|N].
      * assert (j = i) by (eapply (inv_inj _ _ _ I); eauto). subst j. rewrite Hi in Hj. injection Hj as <-.
        eapply nth_set_same; eauto.
      * rewrite nth_set_other by auto. rewrite (inv_ref _ _ _ I _ _ _ Hj). cbn.
        replace (a =? q) with false by (symmetry; now apply Nat.eqb_neq). reflexivity.
    + discriminate.
    + intros q s o' Hq. right. destruct (Nat.eq_dec a q) as [->|N]; [eauto|].
      rewrite nth_set_other in Hq by auto. destruct (inv_live _ _ _ I _ _ _ Hq) as [Eq|]; [congruence|auto].
  - unfold free_box. rewrite (nth_set_same _ _ _ _ E).
    eexists; split; [reflexivity|]. split; [|rewrite !set_nth_length; reflexivity].
    assert (Na : forall j q u, nth_error refs j = Some (Some (q, u)) -> a <> q).
    { intros j q u Hj ->. pose proof (inv_ref _ _ _ I _ _ _ Hj) as Hq. cbn in Hq. rewrite Nat.eqb_refl in Hq. congruence. }
    constructor.
    + apply (inv_inj _ _ _ I).
    + intros j q u Hj. pose proof (Na _ _ _ Hj). rewrite !nth_set_other by auto.
      rewrite (inv_ref _ _ _ I _ _ _ Hj). cbn.
      replace (a =? q) with false by (symmetry; now apply Nat.eqb_neq). reflexivity.
    + discriminate.
    + intros q s o' Hq. right. destruct (Nat.eq_dec a q) as [->|N].
      * erewrite nth_set_same in Hq by (eapply nth_set_same; eauto). discriminate.
      * rewrite !nth_set_other in Hq by auto. destruct (inv_live _ _ _ I _ _ _ Hq) as [Eq|]; [congruence|auto].
Qed.

(** An unshared owner: initialising its box. *)
Lemma init_inv : forall h a o refs v, rc_inv h (Some a) refs -> nth_error h a = Some (RLive false o) ->
  exists h', (let* h := set_shared h a true in write_value h a v) = Ok h' /\
    rc_inv h' (Some a) (refs ++ [Some (a, v)]).
Proof.
  intros * I E. unfold set_shared, write_value. rewrite E. cbn [bind]. rewrite (nth_set_same _ _ _ _ E).
  eexists; split; [reflexivity|].
  assert (Na : forall j q u, nth_error refs j = Some (Some (q, u)) -> a <> q).
  { intros j q u Hj ->. pose proof (inv_ref _ _ _ I _ _ _ Hj) as Hq. cbn in Hq. rewrite Nat.eqb_refl in Hq. congruence. }
  assert (Q : forall j q u, nth_error (refs ++ [Some (a, v)]) j = Some (Some (q, u)) ->
            nth_error refs j = Some (Some (q, u)) \/ (j = length refs /\ q = a /\ u = v)).
  { intros j q u Hj. destruct (Nat.lt_ge_cases j (length refs)) as [L|L].
    - rewrite nth_error_app1 in Hj by auto. auto.
    - rewrite nth_error_app2 in Hj by auto. right.
      destruct (j - length refs) as [|n] eqn:En; cbn in Hj; [injection Hj as <- <-; split; [lia|auto]|].
      destruct n; discriminate. }
  assert (Q' : forall j x, nth_error refs j = Some x -> nth_error (refs ++ [Some (a, v)]) j = Some x).
  { intros j x Hj. rewrite nth_error_app1; auto. apply nth_error_Some. congruence. }
  assert (Ql : nth_error (refs ++ [Some (a, v)]) (length refs) = Some (Some (a, v))).
  { rewrite nth_error_app2, Nat.sub_diag by lia. reflexivity. }
  constructor.
  - intros j j' q u u' H1 H2.
    destruct (Q _ _ _ H1) as [G1|(-> & -> & ->)], (Q _ _ _ H2) as [G2|(E2 & E3 & ->)]; auto.
    + eapply (inv_inj _ _ _ I); eauto.
    + subst. exfalso. eapply Na; eauto.
    + exfalso. eapply Na; eauto.
  - intros j q u Hj. destruct (Q _ _ _ Hj) as [G|(-> & -> & ->)].
    + pose proof (Na _ _ _ G). rewrite !nth_set_other by auto. eapply (inv_ref _ _ _ I); eauto.
    + cbn. rewrite Nat.eqb_refl. eapply nth_set_same. eapply nth_set_same; eauto.
  - intros a' Ha. injection Ha as <-. exists true, (Some v). split; [eapply nth_set_same; eapply nth_set_same; eauto|].
    eauto.
  - intros q s o' Hq. destruct (Nat.eq_dec a q) as [->|N]; [auto|].
    rewrite !nth_set_other in Hq by auto. destruct (inv_live _ _ _ I _ _ _ Hq) as [|(i0 & v0 & E0)]; eauto.
Qed.

Lemma make_mut_inv : forall h a refs v, rc_inv h (Some a) refs ->
  exists h' p, make_mut h a v = Ok (h', p) /\ rc_inv h' (Some p) (refs ++ [Some (p, v)]).
Proof.
  intros * I. destruct (inv_own _ _ _ I a eq_refl) as (s & o & E & R).
  unfold make_mut, get_shared at 1. rewrite E. cbn [bind]. destruct s.
  - (* a new box; the old one is left to its reference *)
    unfold rc_alloc. cbn iota beta.
    assert (La : a < length h) by (apply nth_error_Some; congruence).
    assert (I1 : rc_inv (h ++ [RLive false None]) (Some a) refs \/ True) by auto. clear I1.
    (* drop the old owner in the extended heap *)
    destruct (alloc_drop_inv h a refs I) as (h1 & E1 & I1 & L1).
    assert (E2 : alloc_drop (h ++ [RLive false None]) a = Ok (h1 ++ [RLive false None])).
    { revert E1. unfold alloc_drop, replace_shared, get_shared, set_shared.
      rewrite nth_error_app1 by auto. rewrite E. cbn [bind]. intros E1. injection E1 as <-.
      rewrite set_nth_app1 by auto. reflexivity. }
    rewrite E2. cbn [bind].
    assert (I2 : rc_inv (h1 ++ [RLive false None]) (Some (length h)) refs).
    { assert (Ge : forall p b, nth_error h1 p = Some b -> nth_error (h1 ++ [RLive false None]) p = Some b).
      { intros. rewrite nth_error_app1; auto. apply nth_error_Some. congruence. }
      constructor.
      - apply (inv_inj _ _ _ I1).
      - intros j q u Hj. pose proof (inv_ref _ _ _ I1 _ _ _ Hj) as Hq. apply Ge in Hq as Hq'. rewrite Hq'. cbn.
        replace (length h =? q) with false; [reflexivity|]. symmetry. apply Nat.eqb_neq.
        assert (q < length h1) by (apply nth_error_Some; congruence). lia.
      - intros a' Ha. injection Ha as <-. exists false, None. split; [|discriminate].
        rewrite nth_error_app2 by lia. rewrite L1, Nat.sub_diag. reflexivity.
      - intros q s o' Hq. destruct (Nat.lt_ge_cases q (length h1)) as [L|L].
        + rewrite nth_error_app1 in Hq by auto. destruct (inv_live _ _ _ I1 _ _ _ Hq) as [|]; [discriminate|auto].
        + rewrite nth_error_app2 in Hq by auto. left. f_equal.
          destruct (q - length h1) as [|[|n]] eqn:En; cbn in Hq; try discriminate. lia. }
    destruct (init_inv _ _ None refs v I2) as (h' & E3 & I3).
    { rewrite nth_error_app2 by lia. rewrite L1, Nat.sub_diag. reflexivity. }
    exists h', (length h). split; [|exact I3].
    destruct (set_shared (h1 ++ [RLive false None]) (length h) true) as [h2| | |]; cbn [bind] in E3 |- *; try discriminate.
    rewrite E3. reflexivity.
  - cbn [bind]. destruct (init_inv _ _ o refs v I E) as (h' & E3 & I3).
    exists h', a. split; [|exact I3].
    destruct (set_shared h a true) as [h2| | |]; cbn [bind] in E3 |- *; try discriminate.
    rewrite E3. reflexivity.
Qed.

(** All references and the owner gone: nothing is allocated. *)
Lemma all_freed : forall h refs, rc_inv h None refs -> (forall i, alive refs i = None) -> live_boxes h = 0.
Proof.
  intros h refs I Ha. unfold live_boxes.
  assert (G : forall b, In b h -> b = RFreed).
  { intros b Hb. apply In_nth_error in Hb as (p & Hp). destruct b; [|auto].
    destruct (inv_live _ _ _ I _ _ _ Hp) as [|(i & v & Hi)]; [discriminate|].
    specialize (Ha i). unfold alive in Ha. rewrite Hi in Ha. discriminate. }
  clear -G. induction h as [|b h IH]; [reflexivity|]. cbn. rewrite (G b) by (left; auto). apply IH.
  intros. apply G. right; auto.
Qed.

(** No more boxes than references, plus one for the owner. *)
Lemma live_bound : forall h owner refs, rc_inv h owner refs ->
  live_boxes h <= live_refs refs + match owner with Some _ => 1 | None => 0 end.
Proof.
  intros h owner refs I.
  set (ptrs := match owner with Some a => [a] | None => [] end
               ++ flat_map (fun o => match o with Some (p, _) => [p] | None => [] end) refs).
  assert (Hlen : length ptrs = live_refs refs + match owner with Some _ => 1 | None => 0 end).
  { unfold ptrs. rewrite app_length, Nat.add_comm. f_equal; [|destruct owner; reflexivity].
    unfold live_refs. clear. induction refs as [|[[p v]|] refs IH]; cbn; auto. }
  rewrite <- Hlen.
  set (idx := filter (fun p => match nth_error h p with Some (RLive _ _) => true | _ => false end) (seq 0 (length h))).
  assert (Hidx : live_boxes h = length idx).
  { unfold live_boxes, idx. clear. 
    enough (G : forall pre, length (filter (fun b : rbox V => match b with RLive _ _ => true | RFreed => false end) h)
      = length (filter (fun p => match nth_error (pre ++ h) p with Some (RLive _ _) => true | _ => false end)
                  (seq (length pre) (length h)))) by (apply (G [])).
    induction h as [|b h IH]; intros pre; [reflexivity|].
    cbn [length seq filter].
    replace (nth_error (pre ++ b :: h) (length pre)) with (Some b)
      by (rewrite nth_error_app2, Nat.sub_diag by lia; reflexivity).
    specialize (IH (pre ++ [b])). rewrite <- app_assoc, app_length in IH. cbn [app length] in IH.
    rewrite Nat.add_1_r in IH. destruct b; cbn [length]; rewrite IH; reflexivity. }
  rewrite Hidx. apply NoDup_incl_length.
  - apply NoDup_filter. apply seq_NoDup.
  - intros p Hp. apply filter_In in Hp as [_ Hp]. destruct (nth_error h p) as [[s o|]|] eqn:E; try discriminate.
    unfold ptrs. apply in_or_app. destruct (inv_live _ _ _ I _ _ _ E) as [->|(i & v & Hi)]; [left; left; reflexivity|].
    right. apply in_flat_map. exists (Some (p, v)). split; [eapply nth_error_In; eauto|left; reflexivity].
Qed.
End RcInv.

(** ** Histories *)
Lemma alive_map {X Y} (g : X -> Y) : forall l i, alive (map (option_map g) l) i = option_map g (alive l i).
Proof.
  intros. unfold alive. rewrite nth_error_map. destruct (nth_error l i) as [[x|]|]; reflexivity.
Qed.
Lemma alive_nth {X} : forall (l : list (option X)) i x, alive l i = Some x -> nth_error l i = Some (Some x).
Proof. intros * H. unfold alive in H. destruct (nth_error l i) as [[y|]|]; congruence. Qed.

Section RcRun.
Context {V : Type}.
Definition rc_ok (s : rc_state V) (t : bool * list (option V)) (refs : list (option (nat * V))) : Prop :=
  rc_inv (rc_heap s) (rc_owner s) refs /\ rc_refs s = map (option_map fst) refs /\
  t = (match rc_owner s with Some _ => true | None => false end, map (option_map snd) refs).

Lemma rc_step_ok : forall s t refs o, rc_ok s t refs ->
  exists s' refs', rc_step s o = Ok (fst (own_step t o), s') /\ rc_ok s' (snd (own_step t o)) refs'.
Proof.
  intros [h ow rs] t refs o (I & Hr & ->). cbn in I, Hr. subst rs.
  destruct o as [v|i|i v|i|]; cbn [rc_step own_step rc_owner rc_heap rc_refs fst snd].
  - destruct ow as [a|].
    + destruct (make_mut_inv h a refs v I) as (h' & p & E & I'). rewrite E. cbn [bind].
      eexists _, _. split; [reflexivity|]. split; [exact I'|]. cbn. rewrite !map_app. auto.
    + eexists _, _. split; [reflexivity|]. split; [exact I|]. auto.
  - rewrite !alive_map. destruct (alive refs i) as [[p v]|] eqn:E; cbn [option_map fst snd].
    + apply alive_nth in E. rewrite (read_inv _ _ _ _ _ _ I E). cbn [bind].
      eexists _, _. split; [reflexivity|]. split; [exact I|]. auto.
    + eexists _, _. split; [reflexivity|]. split; [exact I|]. auto.
  - rewrite !alive_map. destruct (alive refs i) as [[p w]|] eqn:E; cbn [option_map fst snd].
    + apply alive_nth in E. destruct (write_inv h ow refs i p w v I E) as (h' & E' & I'). rewrite E'. cbn [bind].
      eexists _, _. split; [reflexivity|]. split; [exact I'|]. cbn.
      split; [|f_equal; rewrite <- set_nth_map; reflexivity].
      rewrite <- set_nth_map. cbn. clear - E. revert refs E. induction i; destruct refs; cbn; intros; try discriminate.
      * injection E as ->. reflexivity.
      * f_equal. auto.
    + eexists _, _. split; [reflexivity|]. split; [exact I|]. auto.
  - rewrite !alive_map. destruct (alive refs i) as [[p w]|] eqn:E; cbn [option_map fst snd].
    + apply alive_nth in E. destruct (drop_inv h ow refs i p w I E) as (h' & E' & I'). rewrite E'. cbn [bind].
      eexists _, _. split; [reflexivity|]. split; [exact I'|]. cbn.
      split; [|f_equal]; rewrite <- set_nth_map; reflexivity.
    + eexists _, _. split; [reflexivity|]. split; [exact I|]. auto.
  - destruct ow as [a|].
    + destruct (alloc_drop_inv h a refs I) as (h' & E & I' & _). rewrite E. cbn [bind].
      eexists _, _. split; [reflexivity|]. split; [exact I'|]. auto.
    + eexists _, _. split; [reflexivity|]. split; [exact I|]. auto.
Qed.

Lemma rc_run_ok : forall os s t refs, rc_ok s t refs ->
  exists s' refs', rc_run s os = Ok (fst (own_run t os), s') /\ rc_ok s' (snd (own_run t os)) refs'.
Proof.
  induction os as [|o os IH]; intros s t refs R; cbn [rc_run own_run]; [eauto|].
  destruct (rc_step_ok s t refs o R) as (s1 & r1 & E1 & R1). rewrite E1. cbn [bind].
  destruct (own_step t o) as [x t1]. cbn [fst snd] in *.
  destruct (IH _ _ _ R1) as (s2 & r2 & E2 & R2). rewrite E2. cbn [bind].
  destruct (own_run t1 os) as [xs t2]. eauto.
Qed.
End RcRun.

(** ** Left joins *)
Lemma iterates_step {S A} (next : S -> res (option A * S)) s l : iterates next s l ->
  exists s', next s = Ok (hd_error l, s') /\ iterates next s' (tl l).
Proof.
  intros H. pose proof (H 1) as H1. cbn [calls] in H1.
  destruct (next s) as [[x s']| | |] eqn:E; cbn [bind] in H1; try discriminate.
  assert (Hx : x = hd_error l) by (destruct l; cbn in H1; injection H1 as H1; exact H1). subst x.
  exists s'. split; [reflexivity|]. intros n. specialize (H (Datatypes.S n)). cbn [calls] in H. rewrite E in H. cbn [bind] in H.
  destruct (calls next n s') as [xs| | |]; cbn [bind] in H; try discriminate. f_equal.
  injection H as H. destruct l as [|y l]; cbn [map app repeat firstn hd_error tl] in H |- *.
  - injection H as H. exact H.
  - injection H as H. rewrite H.
    change (None :: repeat None n) with (repeat (@None A) (1 + n)). rewrite Nat.add_comm, repeat_app, app_assoc.
    rewrite firstn_app.
    replace (n - length (map Some l ++ repeat None n)) with 0
      by (rewrite app_length, map_length, repeat_length; lia).
    rewrite firstn_O, app_nil_r. reflexivity.
Qed.

Section LeftJoinRun.
Context {B0 B1 K0 K1 V0 V1 Q0 Q1 : Type} (brw0 : K0 -> Q0) (brw1 : K1 -> Q1) (qb0 : Q0 -> B0)
  (f : JoinFilter B0 B1 Q0 Q1) (matches : K0 * V0 -> list (K1 * V1)).
Notation stack1 := (@tree_stack B1 K1 V1).
Notation inext k := (iter_next_with brw1 (joining_filter qb0 f (brw0 k))).

(** The right-hand iterators yield what the specification says. *)
Definition inner_ok (i : option (nat * K0)) (r : option (nat * stack1)) (l : option (list (K1 * V1))) : Prop :=
  match i, r, l with
  | None, None, None => True
  | Some (p, k), Some (p', st), Some l => p = p' /\ iterates (inext k) st l
  | _, _, _ => False
  end.
Definition join_ok (j : option (@left_join_iter B0 B1 K0 K1 V0 V1 * nat)) (l : option (list (K0 * V0))) : Prop :=
  match j, l with
  | None, None => True
  | Some (it, _), Some l => exists l', iterates (left_join_next f) it l' /\ map fst l' = l /\
      (forall e sr, In (e, sr) l' -> iterates (inext (fst e)) sr (matches e))
  | _, _ => False
  end.
Definition lj_ok (s : lj_state B0 B1 K0 K1 V0 V1) (t : option (list (K0 * V0)) * list (option (list (K1 * V1))))
    (refs : list (option (nat * stack1))) : Prop :=
  rc_inv (lj_heap s) (option_map snd (lj_join s)) refs /\ join_ok (lj_join s) (fst t) /\
  length (lj_inners s) = length refs /\ length refs = length (snd t) /\
  (forall n i r l, nth_error (lj_inners s) n = Some i -> nth_error refs n = Some r -> nth_error (snd t) n = Some l ->
     inner_ok i r l).

Lemma lj_alive : forall s t refs n, lj_ok s t refs ->
  match alive (lj_inners s) n with
  | None => alive (snd t) n = None
  | Some (p, k) => exists st l, alive (snd t) n = Some l /\ nth_error refs n = Some (Some (p, st)) /\
                     nth_error (snd t) n = Some (Some l) /\ nth_error (lj_inners s) n = Some (Some (p, k)) /\
                     iterates (inext k) st l
  end.
Proof.
  intros s t refs n (_ & _ & L1 & L2 & H). unfold alive.
  destruct (nth_error (lj_inners s) n) as [i|] eqn:E1.
  - assert (n < length (lj_inners s)) by (apply nth_error_Some; congruence).
    destruct (nth_error refs n) as [r|] eqn:E2; [|apply nth_error_None in E2; lia].
    destruct (nth_error (snd t) n) as [l|] eqn:E3; [|apply nth_error_None in E3; lia].
    specialize (H _ _ _ _ E1 E2 E3).
    destruct i as [[p k]|], r as [[p' st]|], l as [l|]; cbn in H; try contradiction; [|reflexivity].
    destruct H as [<- H]. exists st, l. auto.
  - destruct (nth_error (snd t) n) eqn:E3; [|reflexivity].
    assert (n < length (snd t)) by (apply nth_error_Some; congruence).
    apply nth_error_None in E1. lia.
Qed.

Lemma lj_step_ok : forall s t refs o, lj_ok s t refs ->
  exists s' refs', lj_step brw0 brw1 qb0 f s o = Ok (fst (ljs_step matches t o), s') /\
    lj_ok s' (snd (ljs_step matches t o)) refs'.
Proof.
  intros s t refs o R. pose proof R as (I & J & L1 & L2 & H). pose proof (fun n => lj_alive s t refs n R) as HA.
  destruct s as [jn h inn]. destruct t as [lt ins]. cbn [lj_heap lj_join lj_inners fst snd] in *.
  destruct o as [|n|n|]; cbn [lj_step ljs_step lj_heap lj_join lj_inners].
  - destruct jn as [[it a]|], lt as [lt|]; cbn [join_ok] in J; try contradiction.
    + destruct J as (l' & Hit & Hmap & Hin).
      destruct (iterates_step _ _ _ Hit) as (it' & E & Hit'). rewrite E. cbn [bind].
      destruct l' as [|[e st] l']; cbn in Hmap; subst lt; cbn [hd_error tl] in *.
      * eexists _, refs. split; [reflexivity|]. split; [exact I|]. split; [|auto]. cbn. exists []. auto.
      * destruct (make_mut_inv h a refs st I) as (h' & p & E' & I'). rewrite E'. cbn [bind].
        eexists _, _. split; [reflexivity|]. split; [exact I'|]. split; [|split; [|split]].
        -- cbn. exists l'. split; [exact Hit'|]. split; [reflexivity|]. intros; apply Hin; right; auto.
        -- cbn. rewrite !app_length. cbn. lia.
        -- cbn. rewrite !app_length. cbn. lia.
        -- cbn. intros n i r l E1 E2 E3. destruct (Nat.lt_ge_cases n (length refs)) as [Lt|Ge].
           ++ rewrite nth_error_app1 in E1, E2, E3 by lia. eapply H; eauto.
           ++ rewrite nth_error_app2 in E1, E2, E3 by lia.
              destruct (n - length inn) as [|m] eqn:En; [|destruct m; discriminate].
              replace (n - length refs) with 0 in E2 by lia. replace (n - length ins) with 0 in E3 by lia.
              cbn in E1, E2, E3. injection E1 as <-. injection E2 as <-. injection E3 as <-. cbn.
              split; [reflexivity|]. apply Hin. left. reflexivity.
    + eexists _, refs. split; [reflexivity|]. exact R.
  - specialize (HA n). destruct (alive inn n) as [[p k]|] eqn:E.
    + destruct HA as (st & l & E1 & E2 & E3 & E4 & Hst). rewrite E1.
      rewrite (read_inv _ _ _ _ _ _ I E2). cbn [bind].
      destruct (iterates_step _ _ _ Hst) as (st' & E5 & Hst'). rewrite E5. cbn [bind].
      destruct (write_inv _ _ _ _ _ _ st' I E2) as (h' & E6 & I'). rewrite E6. cbn [bind].
      eexists _, _. split; [reflexivity|]. split; [exact I'|]. split; [exact J|]. cbn.
      rewrite !set_nth_length. split; [exact L1|]. split; [exact L2|].
      intros m i r l0 G1 G2 G3. destruct (Nat.eq_dec n m) as [<-|N].
      * rewrite (nth_set_same _ _ _ _ E2) in G2. rewrite (nth_set_same _ _ _ _ E3) in G3.
        rewrite E4 in G1. injection G1 as <-. injection G2 as <-. injection G3 as <-. cbn. auto.
      * rewrite nth_set_other in G2 by auto. rewrite nth_set_other in G3 by auto. eapply H; eauto.
    + rewrite HA. eexists _, refs. split; [reflexivity|]. exact R.
  - specialize (HA n). destruct (alive inn n) as [[p k]|] eqn:E.
    + destruct HA as (st & l & E1 & E2 & E3 & E4 & Hst). rewrite E1.
      destruct (drop_inv _ _ _ _ _ _ I E2) as (h' & E6 & I'). rewrite E6. cbn [bind].
      eexists _, _. split; [reflexivity|]. split; [exact I'|]. split; [exact J|]. cbn.
      rewrite !set_nth_length. split; [exact L1|]. split; [exact L2|].
      intros m i r l0 G1 G2 G3. destruct (Nat.eq_dec n m) as [<-|N].
      * rewrite (nth_set_same _ _ _ _ E2) in G2. rewrite (nth_set_same _ _ _ _ E3) in G3.
        rewrite (nth_set_same _ _ _ _ E4) in G1. injection G1 as <-. injection G2 as <-. injection G3 as <-. exact Logic.I.
      * rewrite nth_set_other in G1 by auto. rewrite nth_set_other in G2 by auto. rewrite nth_set_other in G3 by auto. eapply H; eauto.
    + rewrite HA. eexists _, refs. split; [reflexivity|]. exact R.
  - destruct jn as [[it a]|].
    + destruct (alloc_drop_inv h a refs I) as (h' & E & I' & _). rewrite E. cbn [bind].
      eexists _, _. split; [reflexivity|]. split; [exact I'|]. cbn. auto.
    + eexists _, refs. split; [reflexivity|]. split; [exact I|]. cbn. auto.
Qed.

Lemma lj_run_ok : forall os s t refs, lj_ok s t refs ->
  exists s' refs', lj_run brw0 brw1 qb0 f s os = Ok (fst (ljs_run matches t os), s') /\
    lj_ok s' (snd (ljs_run matches t os)) refs'.
Proof.
  induction os as [|o os IH]; intros s t refs R; cbn [lj_run ljs_run]; [eauto|].
  destruct (lj_step_ok s t refs o R) as (s1 & r1 & E1 & R1). rewrite E1. cbn [bind].
  destruct (ljs_step matches t o) as [x t1]. cbn [fst snd] in *.
  destruct (IH _ _ _ R1) as (s2 & r2 & E2 & R2). rewrite E2. cbn [bind].
  destruct (ljs_run matches t1 os) as [xs t2]. eauto.
Qed.
End LeftJoinRun.
