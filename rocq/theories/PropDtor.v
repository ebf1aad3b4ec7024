(** C72 and C73: dropping trees whose keys, values or bounds have destructors that panic.  The destructors that panic are
    chosen by [crash], which numbers the calls of user code and, while a tree is dropped, of destructors. *)
From Verif Require Import DtorSpec DtorProof PropCrash.

(** ** C72 *)

(** No undefined behaviour in any program that catches its panics, whichever user code and whichever destructors of dropped
    trees panic: no vector or stored bounds value is destroyed twice, and nothing is destroyed more often than it was made
    or handed over.  Unless the process was aborted, everything is destroyed, was given back, is in a tree or was leaked,
    each exactly once, and only calls and drops that panicked leak. *)
Theorem C72_no_ub :
  forall (B K V : Type) (crash : nat -> bool) (bdrop : bool) (P : Params B K) (os : list (mop B K V)),
  Forall (unwind_ok bdrop) os ->
  exists outs oF s, zrun crash bdrop P [] os xinit = Some ((outs, oF), s) /\
    NoDup (objs (x_gone s)) /\
    part_of (x_gone s) (x_made s ++ flat_map xgiven os) /\
    match oF with
    | None => True
    | Some F => length outs = length os /\ exists leaked,
        Permutation (x_made s ++ flat_map xgiven os) (x_gone s ++ got_back outs ++ xforest_things bdrop F ++ leaked) /\
        (Forall (fun o => o <> None) outs -> leaked = [])
    end.
Proof.
  intros * Hu. destruct (zrun_init crash bdrop P os Hu) as (outs & oF & s & E & HR).
  assert (Ho : exists H, xown (flat_map xgiven os) s H).
  { destruct oF as [F|]; [destruct HR as (_ & _ & lost & HR & _)|destruct HR as [H HR]]; eexists; exact HR. }
  destruct Ho as [H Ho]. exists outs, oF, s. split; [exact E|]. split; [|split].
  - assert (Hp := xown_objs _ _ _ Ho). destruct Ho as [_ Hnd _ _]. apply (Permutation_NoDup Hp) in Hnd. revert Hnd.
    generalize (objs (x_gone s)). induction l as [|x l IH]; cbn; intros Hn; [constructor|].
    inversion Hn as [|? ? Hx Hl]; subst. constructor; [|now apply IH]. intros Hin. apply Hx, in_or_app. now left.
  - exists H. apply Ho.
  - destruct oF as [F|]; [|exact Logic.I]. destruct HR as (_ & Hl & lost & Ho' & Hn). split; [exact Hl|]. exists lost. split; [|exact Hn].
    apply Ho'.
Qed.
Print Assumptions C72_no_ub.

(** Exactly what dropping a tree does.  [all_units] lists what is destroyed together, in order (DtorSpec.v).  Without a panic
    everything is destroyed.  The first unit [u] in which a destructor panics is still destroyed completely, and so are the
    bounds of the root (the last unit); everything between is never destroyed.  A second panic in [u] or of the bounds of the
    root aborts the process. *)
Theorem C72_drop_exact :
  forall (B K V : Type) (crash : nat -> bool) (bdrop : bool) (P : Params B K) (os : list (mop B K V)) outs F s i cfg t,
  Forall (unwind_ok bdrop) os ->
  zrun crash bdrop P [] os xinit = Some ((outs, Some F), s) ->
  xtree_at F i = Some (cfg, t) ->
  exists o s' d, p_drop_container crash bdrop t s = Some (o, s') /\ destroyed d s s' /\
  match o with
  | Done => d = concat (all_units bdrop t) /\ panics_among crash (x_calls s) (dtors d) = 0
  | Unwinding => exists before u after, all_units bdrop t = before ++ u :: after /\
      d = concat before ++ u ++ last after [] /\
      panics_among crash (x_calls s) (dtors (concat before)) = 0 /\
      panics_among crash (x_calls s + dtors (concat before)) (dtors u) = 1 /\
      panics_among crash (x_calls s + dtors (concat before ++ u)) (dtors (last after [])) = 0
  | Aborted => exists before u after p q, all_units bdrop t = before ++ u :: after /\
      u ++ last after [] = p ++ q /\ d = concat before ++ p /\
      panics_among crash (x_calls s) (dtors (concat before)) = 0 /\
      panics_among crash (x_calls s + dtors (concat before)) (dtors u) <> 0 /\
      panics_among crash (x_calls s + dtors (concat before)) (dtors p) = 2
  end.
Proof.
  intros * Hu E Et. destruct (zrun_init crash bdrop P os Hu) as (outs' & oF & s' & E' & HR). rewrite E in E'. injection E' as <- <- <-.
  destruct HR as (HF & _ & lost & Ho & _). destruct (fwf_at bdrop F i cfg t HF Et) as [Hw _].
  destruct (xforest_at bdrop F i cfg t Et) as (rest & Hp & _).
  apply (drop_container_ends crash bdrop (flat_map xgiven os) cfg t s (got_back outs ++ rest ++ lost) Hw).
  eapply xown_perm; [|exact Ho]. rewrite Hp. perm.
Qed.
Print Assumptions C72_drop_exact.

(** The units of a tree are all it owns. *)
Theorem C72_units_are_the_tree :
  forall (B K V : Type) (bdrop : bool) (t : xcontainer B K V),
  Permutation (concat (all_units bdrop t)) (xthings_c bdrop t) /\
  Permutation (flat_map (fun kv => [XKey (fst kv); XVal (snd kv)]) (xentries (snd t)))
    (filter (fun x => negb (is_obj x)) (concat (all_units bdrop t))).
Proof.
  intros *. assert (Hp := all_units_things bdrop t). split; [exact Hp|].
  apply (Permutation_filter_ (fun x => negb (is_obj x))) in Hp. rewrite Hp. unfold xthings_c.
  assert (Hb : forall b, filter (fun x => negb (is_obj x)) (bnd_things bdrop b) = (@nil (xthing K V))) by (intros b; unfold bnd_things; now destruct bdrop).
  assert (Hkv : forall es : list (K * V), filter (fun x => negb (is_obj x)) (flat_map xkv_things es) = flat_map xkv_things es).
  { induction es as [|[k v] es IH]; cbn; [reflexivity|now rewrite IH]. }
  induction (snd t) as [b bid id es|b bid id cs IH] using xnode_ind'; rewrite xthings_eq, filter_app, Hb; cbn [x_id x_children xthings_ch filter is_obj negb app].
  - rewrite Hkv, xentries_leaf. reflexivity.
  - rewrite xentries_inner. induction cs as [|c cs IHcs]; cbn [flat_map]; [reflexivity|].
    inversion IH as [|? ? Hc Hcs]; subst. rewrite flat_map_app, filter_app. apply Permutation_app; [exact Hc|]. apply IHcs. exact Hcs.
Qed.
Print Assumptions C72_units_are_the_tree.

(** If no destructor panics, the drop returns and everything the tree owns is destroyed once; if at most one panics, the
    process is not aborted. *)
Theorem C72_few_panics :
  forall (B K V : Type) (crash : nat -> bool) (bdrop : bool) (P : Params B K) (os : list (mop B K V)) outs F s i cfg t,
  Forall (unwind_ok bdrop) os ->
  zrun crash bdrop P [] os xinit = Some ((outs, Some F), s) ->
  xtree_at F i = Some (cfg, t) ->
  let panics := panics_among crash (x_calls s) (dtors (xthings_c bdrop t)) in
  exists o s' d, p_drop_container crash bdrop t s = Some (o, s') /\ destroyed d s s' /\
    (panics = 0 -> o = Done) /\ (panics <= 1 -> o <> Aborted) /\
    (o = Done -> Permutation d (xthings_c bdrop t)).
Proof.
  intros * Hu E Et panics. destruct (C72_drop_exact B K V crash bdrop P os outs F s i cfg t Hu E Et) as (o & s' & d & Ed & Hd & HR).
  exists o, s', d. split; [exact Ed|]. split; [exact Hd|].
  assert (Hperm := all_units_things bdrop t).
  assert (Hdt : forall l l' : list (xthing K V), Permutation l l' -> dtors l = dtors l').
  { intros l l' Hp. unfold dtors. apply Permutation_length, Permutation_filter_, Hp. }
  assert (Hle : forall c n m, panics_among crash c n <= panics_among crash c (n + m)) by (intros; rewrite among_app; lia).
  unfold panics. rewrite <- (Hdt _ _ Hperm). destruct o.
  - destruct HR as [-> _]. split; [reflexivity|]. split; [discriminate|intros _; exact Hperm].
  - destruct HR as (b & u & a & Eu & -> & H1 & H2 & H3). split; [|split; [discriminate|discriminate]]. intros H0. exfalso.
    rewrite Eu, concat_app in H0. cbn [concat] in H0. rewrite !dtors_app, !among_app in H0. lia.
  - destruct HR as (b & u & a & p & q & Eu & Ep & -> & H1 & H2 & H3).
    assert (Hp2 : 2 <= panics_among crash (x_calls s) (dtors (concat (all_units bdrop t)))).
    2:{ split; [intros H0; lia|split; [intros H0; lia|discriminate]]. }
    (* the second panic is in [u], or of the root's bounds; in both cases its number is within the range *)
    rewrite Eu, concat_app. cbn [concat]. rewrite (last_cut a).
    assert (Hpl : dtors p <= dtors u + dtors (last a [])) by (rewrite <- !dtors_app, Ep, dtors_app; lia).
    rewrite !dtors_app, among_app. replace (dtors u + (dtors (concat (removelast a)) + dtors (last a []))) with
      (dtors p + (dtors u + dtors (last a []) - dtors p + dtors (concat (removelast a)))) by lia.
    specialize (Hle (x_calls s + dtors (concat b)) (dtors p) (dtors u + dtors (last a []) - dtors p + dtors (concat (removelast a)))). lia.
Qed.
Print Assumptions C72_few_panics.

(** *** Samples *)

(** Which calls returned, the trees left (or that the process was aborted), and the values destroyed, in order. *)
Definition z_summary {B K V} (r : option ((list (option (list (xthing K V))) * option (xforest B K V)) * xmem K V))
  : option (list bool * option (list bool) * list V) :=
  match r with
  | Some ((outs, oF), s) =>
    Some (map (fun o => match o with Some _ => true | None => false end) outs,
          option_map (map (fun t => match t with Some _ => true | None => false end)) oF,
          flat_map (fun x => match x with XVal v => [v] | _ => [] end) (rev (x_gone s)))
  | None => None
  end.
Definition z_drop : list (mop (saabb i32 2) (svec i32 2) nat) := x_five (cfg_of 4 2) ++ [MDrop 0].

(** The calls of user code before the drop; the tree has two leaves and is dropped in the order 5 2 1, 4 3. *)
Example C72_example :
  Forall (unwind_ok true) z_drop /\
  z_summary (zrun (panics []) true PP [] z_drop xinit) = Some (repeat true 7, Some [false], [5; 2; 1; 4; 3]) /\
  (* a key of the first leaf panics: its value is destroyed too, the entries 1, 4 and 3 are leaked *)
  z_summary (zrun (panics [24 + 2]) true PP [] z_drop xinit) = Some (repeat true 6 ++ [false], Some [false], [5; 2]) /\
  (* a value of the second leaf panics *)
  z_summary (zrun (panics [24 + 7]) true PP [] z_drop xinit) = Some (repeat true 6 ++ [false], Some [false], [5; 2; 1; 4]) /\
  (* a key and its value panic *)
  z_summary (zrun (panics [24 + 2; 24 + 3]) true PP [] z_drop xinit) = Some (repeat true 6, None, [5; 2]).
Proof. split; [repeat (apply Forall_cons; [first [exact Logic.I|right; cbn; lia]|]); apply Forall_nil|]. repeat split; vm_compute; reflexivity. Qed.

(** ** C73 *)

(** The full property: if one destructor panics while a tree is dropped, everything else the tree owns is destroyed all the
    same.  Refuted: the loops are left at the panic. *)
Theorem C73_rest_destroyed_refuted :
  ~ (forall (B K V : Type) (crash : nat -> bool) (bdrop : bool) (P : Params B K) (os : list (mop B K V)) i outs F s,
     Forall (unwind_ok bdrop) os ->
     zrun crash bdrop P [] (os ++ [MDrop i]) xinit = Some ((outs, Some F), s) ->
     (forall outs1 F1 s1, zrun crash bdrop P [] os xinit = Some ((outs1, Some F1), s1) ->
        panics_among crash 0 (x_calls s1) = 0 /\ panics_among crash (x_calls s1) (x_calls s - x_calls s1) = 1) ->
     Permutation (x_made s ++ flat_map xgiven os) (x_gone s ++ got_back outs ++ xforest_things bdrop F)).
Proof.
  intros H. pose (os := x_five (cfg_of 4 2)). specialize (H _ _ _ (panics [24 + 2]) true PP os 0).
  assert (Hu : Forall (unwind_ok true) os) by (repeat (apply Forall_cons; [first [exact Logic.I|right; cbn; lia]|]); apply Forall_nil).
  assert (HE : match zrun (panics [24 + 2]) true PP [] (os ++ [MDrop 0]) xinit, zrun (panics [24 + 2]) true PP [] os xinit with
    | Some ((outs, Some F), s), Some ((_, Some _), s1) =>
      Nat.eqb (panics_among (panics [24 + 2]) 0 (x_calls s1)) 0 && Nat.eqb (panics_among (panics [24 + 2]) (x_calls s1) (x_calls s - x_calls s1)) 1 &&
      negb (Nat.eqb (length (x_made s ++ flat_map xgiven os)) (length (x_gone s ++ got_back outs ++ xforest_things true F)))
    | _, _ => false end = true) by (vm_compute; reflexivity).
  destruct (zrun (panics [24 + 2]) true PP [] (os ++ [MDrop 0]) xinit) as [[[outs [F|]] s]|]; [|discriminate HE|discriminate HE].
  destruct (zrun (panics [24 + 2]) true PP [] os xinit) as [[[outs1 [F1|]] s1]|]; [|discriminate HE|discriminate HE].
  apply andb_true_iff in HE as [HE HE3]. apply andb_true_iff in HE as [HE1 HE2].
  apply Nat.eqb_eq in HE1, HE2. apply negb_true_iff, Nat.eqb_neq in HE3. apply HE3, Permutation_length.
  apply (H outs F s Hu eq_refl). intros outs2 F2 s2 Ez2. injection Ez2 as _ _ <-. split; assumption.
Qed.
Print Assumptions C73_rest_destroyed_refuted.

(** What holds: exactly the units after the one that panicked are leaked, except the bounds of the root; so the entry whose
    key or value panicked and every entry before it are destroyed completely. *)
Theorem C73_what_is_leaked_partial :
  forall (B K V : Type) (crash : nat -> bool) (bdrop : bool) (P : Params B K) (os : list (mop B K V)) outs F s i cfg t s',
  Forall (unwind_ok bdrop) os ->
  zrun crash bdrop P [] os xinit = Some ((outs, Some F), s) ->
  xtree_at F i = Some (cfg, t) ->
  p_drop_container crash bdrop t s = Some (Unwinding, s') ->
  exists before u after d, all_units bdrop t = before ++ u :: after /\ destroyed d s s' /\
    d = concat before ++ u ++ last after [] /\
    panics_among crash (x_calls s) (dtors (concat before)) = 0 /\
    panics_among crash (x_calls s + dtors (concat before)) (dtors u) = 1 /\
    Permutation (xthings_c bdrop t) (d ++ concat (removelast after)).
Proof.
  intros * Hu E Et Ed. destruct (C72_drop_exact B K V crash bdrop P os outs F s i cfg t Hu E Et) as (o & s1 & d & Ed' & Hd & HR).
  rewrite Ed in Ed'. injection Ed' as <- <-. destruct HR as (b & u & a & Eu & -> & H1 & H2 & H3).
  exists b, u, a, (concat b ++ u ++ last a []). splits; auto.
  rewrite <- (all_units_things bdrop t), Eu, concat_app. cbn [concat]. rewrite (last_cut a). perm.
Qed.
Print Assumptions C73_what_is_leaked_partial.

(** A panic of the bounds of the root alone leaks nothing. *)
Example C73_example :
  z_summary (zrun (panics [24 + 12]) true PP [] z_drop xinit) = Some (repeat true 6 ++ [false], Some [false], [5; 2; 1; 4; 3]) /\
  option_map (fun r => length (x_made (snd r)) + length (flat_map xgiven z_drop) - length (x_gone (snd r)))
    (zrun (panics [24 + 12]) true PP [] z_drop xinit) = Some 0 /\
  option_map (fun r => length (x_made (snd r)) + length (flat_map xgiven z_drop) - length (x_gone (snd r)))
    (zrun (panics [24 + 2]) true PP [] z_drop xinit) = Some 11.
Proof. repeat split; vm_compute; reflexivity. Qed.
