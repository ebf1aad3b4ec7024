(** After panics that were caught and that struck while nothing was being split or running underfull (C51, C52). *)
From Verif Require Export PropCrash CalmInv.

(** ** C51 *)

(** What holds beyond [C51_found_is_stored_partial]: if every call that panicked was calm (it inserted into a tree none of
    whose nodes was full, removed from a tree whose nodes but the root were all above their minimum, or was another call) and
    did not insert a key matching [q], then looking up [q] finds exactly what is stored. *)
Theorem C51_calm_get_partial :
  forall (B K V Q : Type) (crash : nat -> bool) (bdrop : bool) (P : Params B K) (BR : Borrowed B K Q)
    (incl : B -> B -> Prop) (ok : K -> Prop) (os : list (mop B K V)) outs F s i cfg t q,
  bounds_laws (bops P) incl -> lookup_laws P BR incl ok ->
  Forall (unwind_ok bdrop) os ->
  Forall (fun o => forall k, inserts o k -> ok k) os ->
  (forall os1 o os2 outs1 F1 s1 F2 s2, os = os1 ++ o :: os2 -> xrun crash bdrop P [] os1 xinit = Some ((outs1, F1), s1) ->
     xstep crash bdrop P F1 o s1 = Some (inr F2, s2) ->
     calm o (xforget_forest F1) /\ forall k, inserts o k -> q_eq BR (borrow BR k) q = false) ->
  xrun crash bdrop P [] os xinit = Some ((outs, F), s) ->
  ptree_at (xforget_forest F) i = Some (cfg, t) ->
  rtree_get P BR t q = Ok (option_map snd (find (fun kv : K * V => q_eq BR (borrow BR (fst kv)) q) (contents t))).
Proof.
  intros * BL LL Hu Hok Hcalm E Et. pose (m := fun k => q_eq BR (borrow BR k) q).
  apply (get_covered P BR q cfg ok incl t LL).
  refine (slot_at (covered P ok incl m) _ i cfg t _ Et).
  refine (calm_inv crash bdrop P (ok_op ok) (unseen_op m) (covered P ok incl m) os outs F s (covered_keeps P ok incl BL m) _ Hu Hok Hcalm E).
  intros cfg0 o t0 t0' H1 H2 H3 H4 H5. exact (covered_survives P ok incl BL m cfg0 o t0 t0' H1 H2 H3 H4 H5).
Qed.
Print Assumptions C51_calm_get_partial.

(** The same for filtered iteration: if the keys whose insertion panicked do not satisfy the query, it yields exactly the
    stored entries that do. *)
Theorem C51_calm_filter_partial :
  forall (B K V Q : Type) (crash : nat -> bool) (bdrop : bool) (P : Params B K) (brw : K -> Q) (f : SpatialFilter B Q)
    (incl : B -> B -> Prop) (ok : K -> Prop) (os : list (mop B K V)) outs F s i cfg t,
  bounds_laws (bops P) incl -> filter_lawful P brw incl ok (test_bounds f) (test_key f) ->
  Forall (unwind_ok bdrop) os ->
  Forall (fun o => forall k, inserts o k -> ok k) os ->
  (forall os1 o os2 outs1 F1 s1 F2 s2, os = os1 ++ o :: os2 -> xrun crash bdrop P [] os1 xinit = Some ((outs1, F1), s1) ->
     xstep crash bdrop P F1 o s1 = Some (inr F2, s2) ->
     calm o (xforget_forest F1) /\ forall k, inserts o k -> test_key f (brw k) = false) ->
  xrun crash bdrop P [] os xinit = Some ((outs, F), s) ->
  ptree_at (xforget_forest F) i = Some (cfg, t) ->
  exists st, rtree_filter_iter t f = Ok st /\
    iterates (iter_next_with brw f) st (filter (fun kv => test_key f (brw (fst kv))) (contents t)).
Proof.
  intros * BL LL Hu Hok Hcalm E Et. pose (m := fun k => test_key f (brw k)).
  apply (filter_covered P brw f cfg ok incl t LL).
  refine (slot_at (covered P ok incl m) _ i cfg t _ Et).
  refine (calm_inv crash bdrop P (ok_op ok) (unseen_op m) (covered P ok incl m) os outs F s (covered_keeps P ok incl BL m) _ Hu Hok Hcalm E).
  intros cfg0 o t0 t0' H1 H2 H3 H4 H5. exact (covered_survives P ok incl BL m cfg0 o t0 t0' H1 H2 H3 H4 H5).
Qed.
Print Assumptions C51_calm_filter_partial.

(** The same for [remove]: on the tree as it is after the panics it removes an entry matching [q] exactly if one is stored. *)
Theorem C51_calm_remove_partial :
  forall (B K V Q : Type) (crash : nat -> bool) (bdrop : bool) (P : Params B K) (BR : Borrowed B K Q)
    (incl : B -> B -> Prop) (ok : K -> Prop) (os : list (mop B K V)) outs F s i cfg t q o t',
  bounds_laws (bops P) incl -> lookup_laws P BR incl ok ->
  Forall (unwind_ok bdrop) os ->
  Forall (fun o => forall k, inserts o k -> ok k) os ->
  (forall os1 o os2 outs1 F1 s1 F2 s2, os = os1 ++ o :: os2 -> xrun crash bdrop P [] os1 xinit = Some ((outs1, F1), s1) ->
     xstep crash bdrop P F1 o s1 = Some (inr F2, s2) ->
     calm o (xforget_forest F1) /\ forall k, inserts o k -> q_eq BR (borrow BR k) q = false) ->
  xrun crash bdrop P [] os xinit = Some ((outs, F), s) ->
  ptree_at (xforget_forest F) i = Some (cfg, t) ->
  rtree_remove P cfg BR t q = Ok (o, t') ->
  (o <> None <-> exists k v, In (k, v) (contents t) /\ q_eq BR (borrow BR k) q = true) /\
  match o with
  | None => t' = t
  | Some v => exists k, q_eq BR (borrow BR k) q = true /\ Permutation (contents t) ((k, v) :: contents t')
  end.
Proof.
  intros * BL LL Hu Hok Hcalm E Et Er. pose (m := fun k => q_eq BR (borrow BR k) q).
  refine (remove_covered P BR q cfg ok incl t t' o BL LL _ Er).
  refine (slot_at (covered P ok incl m) _ i cfg t _ Et).
  refine (calm_inv crash bdrop P (ok_op ok) (unseen_op m) (covered P ok incl m) os outs F s (covered_keeps P ok incl BL m) _ Hu Hok Hcalm E).
  intros cfg0 o0 t0 t0' H1 H2 H3 H4 H5. exact (covered_survives P ok incl BL m cfg0 o0 t0 t0' H1 H2 H3 H4 H5).
Qed.
Print Assumptions C51_calm_remove_partial.

(** ** C52 *)

(** What holds beyond [C52_no_own_panic_partial]: in supported configurations, if every earlier call that panicked was calm,
    then any call panics only if user code does. *)
Theorem C52_calm_partial :
  forall (B K V : Type) (crash : nat -> bool) (bdrop : bool) (P : Params B K) (os : list (mop B K V)) o outs F s F' s',
  Forall supported_op (os ++ [o]) ->
  (forall os1 o' os2 outs1 F1 s1 F2 s2, os = os1 ++ o' :: os2 -> xrun crash bdrop P [] os1 xinit = Some ((outs1, F1), s1) ->
     xstep crash bdrop P F1 o' s1 = Some (inr F2, s2) -> calm o' (xforget_forest F1)) ->
  xrun crash bdrop P [] os xinit = Some ((outs, F), s) ->
  xstep crash bdrop P F o s = Some (inr F', s') ->
  crashed crash (x_calls s) (x_calls s').
Proof.
  intros * Hs Hcalm E E1.
  assert (Hu : Forall (unwind_ok bdrop) (os ++ [o])).
  { eapply Forall_impl; [|exact Hs]. intros o'. unfold supported_op, unwind_ok, supported. destruct o'; auto. intros H. right. lia. }
  destruct (C49_every_call _ _ _ _ _ _ _ _ _ _ _ Hu E) as (r & s2 & E2 & HR).
  rewrite E1 in E2. injection E2 as <- <-. destruct HR as [[Hc|Hp] _]; [exact Hc|exfalso].
  apply Forall_app in Hu as [Hu _]. apply Forall_app in Hs as [Hs _].
  destruct (xrun_init crash bdrop P os [] Hu) as (outs' & F1 & s1 & lost & E' & HF & _ & _ & _).
  rewrite E in E'. injection E' as <- <- <-.
  refine (healthy_no_panic P (xforget_forest F) o _ (fun i cfg t => fwf_wf bdrop F i cfg t HF) Hp).
  refine (calm_inv crash bdrop P (@supported_op B K V) (fun _ => True) healthy os outs F s (healthy_keeps P) _ Hu Hs _ E).
  - intros cfg o' t t' _ _ H1 H2 H3. exact (healthy_survives P cfg o' t t' H1 H2 H3).
  - intros os1 o' os2 outs1 F2 s2 F3 s3 Eo Er Ex. split; [exact (Hcalm os1 o' os2 outs1 F2 s2 F3 s3 Eo Er Ex)|exact Logic.I].
Qed.
Print Assumptions C52_calm_partial.

(** *** The hypotheses on a concrete program: two calm insertions and a calm removal that panic *)
(** Is every call of [os] that unwinds calm, and inserts no key for which [m] holds? *)
Fixpoint calm_run (m : svec i32 2 -> bool) (l : list nat) (F : xforest (saabb i32 2) (svec i32 2) nat) (s : xmem (svec i32 2) nat)
  (os : list (mop (saabb i32 2) (svec i32 2) nat)) : bool :=
  match os with
  | [] => true
  | o :: os =>
    match xstep (panics l) true PP F o s with
    | Some (inl (_, F'), s') => calm_run m l F' s' os
    | Some (inr F', s') => calm_check o (xforget_forest F) &&
        match o with MInsert _ k _ | MInsertUnique _ k _ => negb (m k) | _ => true end && calm_run m l F' s' os
    | None => false
    end
  end.
Lemma calm_run_ok m l os : forall F s, calm_run m l F s os = true ->
  forall os1 o os2 outs1 F1 s1 F2 s2, os = os1 ++ o :: os2 -> xrun (panics l) true PP F os1 s = Some ((outs1, F1), s1) ->
     xstep (panics l) true PP F1 o s1 = Some (inr F2, s2) ->
     calm o (xforget_forest F1) /\ forall k, inserts o k -> m k = false.
Proof.
  induction os as [|o' os IH]; intros F s H os1 o os2 outs1 F1 s1 F2 s2 Eo Er Ex; [destruct os1; discriminate Eo|].
  cbn [calm_run] in H. destruct os1 as [|o1 os1].
  - cbn [app] in Eo. injection Eo as -> ->. cbn [xrun] in Er. unfold dret in Er. injection Er as <- <- <-. rewrite Ex in H.
    apply andb_prop in H as [H _]. apply andb_prop in H as [H1 H2]. split; [exact (calm_check_ok _ _ H1)|].
    intros k Hk. destruct o; cbn [inserts] in Hk; try contradiction; subst; now apply negb_true_iff in H2.
  - cbn [app] in Eo. injection Eo as <- ->. cbn [xrun] in Er. unfold dbind in Er.
    destruct (xstep (panics l) true PP F o' s) as [[[[x F']|F'] s']|] eqn:Es; [| |discriminate H].
    + destruct (xrun (panics l) true PP F' os1 s') as [[[xs F3] s3]|] eqn:E3; [|discriminate Er]. unfold dret in Er. injection Er as _ <- <-.
      exact (IH F' s' H os1 o os2 xs F3 s3 F2 s2 eq_refl E3 Ex).
    + destruct (xrun (panics l) true PP F' os1 s') as [[[xs F3] s3]|] eqn:E3; [|discriminate Er]. unfold dret in Er. injection Er as _ <- <-.
      apply andb_prop in H as [_ H]. exact (IH F' s' H os1 o os2 xs F3 s3 F2 s2 eq_refl E3 Ex).
Qed.

(** Three of the ten calls panic: the insertion of (20, 20) after the entry is in its leaf, the removal of (1, 0) after the entry
    is out, the insertion of (7, 7) after the entry is in. *)
Definition calm_sample : list (mop (saabb i32 2) (svec i32 2) nat) :=
  x_five (cfg_of 4 0) ++ [x_ins 20 20 6; x_rem 1 0; x_ins 7 7 7; x_ins 2 2 8].
Definition calm_panics : list nat := [28; 33; 38].

Lemma calm_sample_ok : Forall (unwind_ok true) calm_sample /\ Forall (fun o => forall k, inserts o k -> any_key k) calm_sample /\
  Forall supported_op calm_sample.
Proof.
  assert (Hs : Forall supported_op calm_sample) by (unfold calm_sample, x_five; cbn [app]; repeat (apply Forall_cons; [first [exact Logic.I|split; cbn; lia]|]); apply Forall_nil).
  split; [|split; [|exact Hs]].
  - eapply Forall_impl; [|exact Hs]. intros o. unfold supported_op, unwind_ok, supported. destruct o; auto. intros H. right. lia.
  - apply Forall_forall. intros o _ k _. exact Logic.I.
Qed.

Example C51_calm_example :
  Forall (unwind_ok true) calm_sample /\ Forall (fun o => forall k, inserts o k -> any_key k) calm_sample /\
  Forall supported_op calm_sample /\
  (* nothing but calm calls panics, and none of those inserts (8, 9) *)
  calm_run (fun k => key_eq PP k (pt 8 9)) calm_panics [] xinit calm_sample = true /\
  x_summary (xrun (panics calm_panics) true PP [] calm_sample xinit) =
    Some ([true; true; true; true; true; true; false; false; false; true], [Some (1, [1; 5; 8; 3; 4; 6; 7])]) /\
  (* (8, 9) is still found in the damaged tree; (20, 20), whose insertion panicked, is not, although it is stored *)
  match xrun (panics calm_panics) true PP [] calm_sample xinit with
  | Some ((_, F), _) =>
    match ptree_at (xforget_forest F) 0 with
    | Some (_, t) => (rtree_get PP (self_borrow PP) t (pt 8 9), rtree_get PP (self_borrow PP) t (pt 20 20))
    | None => (Panic, Panic)
    end
  | None => (Panic, Panic)
  end = (Ok (Some 4), Ok None).
Proof.
  split; [apply calm_sample_ok|]. split; [apply calm_sample_ok|]. split; [apply calm_sample_ok|].
  split; [vm_compute; reflexivity|]. split; vm_compute; reflexivity.
Qed.

(** The theorem on this program. *)
Example C51_calm_instance : forall outs F s t,
  xrun (panics calm_panics) true PP [] calm_sample xinit = Some ((outs, F), s) ->
  ptree_at (xforget_forest F) 0 = Some (cfg_of 4 0, t) ->
  rtree_get PP (self_borrow PP) t (pt 8 9) = Ok (option_map snd (find (fun kv => key_eq PP (fst kv) (pt 8 9)) (contents t))).
Proof.
  intros outs F s t E Et.
  refine (C51_calm_get_partial _ _ _ _ (panics calm_panics) true PP (self_borrow PP) _ any_key calm_sample outs F s 0 _ t (pt 8 9)
    PP_bounds PP_lookup _ _ _ E Et).
  - apply calm_sample_ok.
  - apply calm_sample_ok.
  - apply calm_run_ok. vm_compute. reflexivity.
Qed.

Example C51_calm_remove_instance : forall outs F s t o t',
  xrun (panics calm_panics) true PP [] calm_sample xinit = Some ((outs, F), s) ->
  ptree_at (xforget_forest F) 0 = Some (cfg_of 4 0, t) ->
  rtree_remove PP (cfg_of 4 0) (self_borrow PP) t (pt 8 9) = Ok (o, t') ->
  o <> None <-> exists k v, In (k, v) (contents t) /\ key_eq PP k (pt 8 9) = true.
Proof.
  intros outs F s t o t' E Et Er.
  refine (proj1 (C51_calm_remove_partial _ _ _ _ (panics calm_panics) true PP (self_borrow PP) _ any_key calm_sample outs F s 0 _ t (pt 8 9) o t'
    PP_bounds PP_lookup _ _ _ E Et Er)).
  - apply calm_sample_ok.
  - apply calm_sample_ok.
  - apply calm_run_ok. vm_compute. reflexivity.
Qed.

(** And the call after the three panics, were it to panic, would do so because user code did. *)
Example C52_calm_instance : forall outs F s F' s',
  xrun (panics calm_panics) true PP [] (removelast calm_sample) xinit = Some ((outs, F), s) ->
  xstep (panics calm_panics) true PP F (x_ins 2 2 8) s = Some (inr F', s') -> crashed (panics calm_panics) (x_calls s) (x_calls s').
Proof.
  intros outs F s F' s' E E1.
  refine (C52_calm_partial _ _ _ (panics calm_panics) true PP (removelast calm_sample) (x_ins 2 2 8) outs F s F' s' _ _ E E1).
  - unfold calm_sample, x_five. cbn [app removelast]. repeat (apply Forall_cons; [first [exact Logic.I|split; cbn; lia]|]); apply Forall_nil.
  - assert (H : calm_run (fun _ => false) calm_panics [] xinit (removelast calm_sample) = true) by (vm_compute; reflexivity).
    intros os1 o' os2 outs1 F1 s1 F2 s2 H1 H2 H3. exact (proj1 (calm_run_ok _ _ _ _ _ H os1 o' os2 outs1 F1 s1 F2 s2 H1 H2 H3)).
Qed.
