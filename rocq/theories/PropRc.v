(** Property C29: the right-hand iterators of a left join never share memory. *)
From Verif Require Import Witness RcMutProof PropJoin.

(** ** The reference scheme behind them, for any values and any order of calls *)
Theorem C29_references_never_share :
  forall (V : Type) (os : list (rc_op V)),
  exists s, rc_run rc_init os = Ok (fst (own_run (true, []) os), s) /\
    (* two existing references use different boxes *)
    (forall i j p, alive (rc_refs s) i = Some p -> alive (rc_refs s) j = Some p -> i = j) /\
    (* as many references as the specification has, each reading its own value *)
    (forall i, match alive (rc_refs s) i with
               | Some p => exists v, alive (snd (snd (own_run (true, []) os))) i = Some v /\ read_value (rc_heap s) p = Ok v
               | None => alive (snd (snd (own_run (true, []) os))) i = None
               end) /\
    (* memory in use: at most one box per reference and one for the allocator; none at the end *)
    live_boxes (rc_heap s) <= live_refs (rc_refs s) + 1 /\
    (fst (snd (own_run (true, []) os)) = false -> (forall i, alive (rc_refs s) i = None) -> live_boxes (rc_heap s) = 0).
Proof.
  intros V os.
  destruct (rc_run_ok os rc_init (true, []) []) as (s & refs & E & I & Hr & Ht).
  { split; [exact rc_inv_init|]. auto. }
  exists s. split; [exact E|]. rewrite Hr, Ht. cbn [fst snd].
  split; [|split; [|split]].
  - intros i j p Hi Hj. rewrite alive_map in Hi, Hj.
    destruct (alive refs i) as [[p1 v1]|] eqn:E1; [|discriminate].
    destruct (alive refs j) as [[p2 v2]|] eqn:E2; [|discriminate].
    cbn in Hi, Hj. injection Hi as <-. injection Hj as ->.
    eapply (inv_inj _ _ _ I); apply alive_nth; eauto.
  - intros i. rewrite !alive_map. destruct (alive refs i) as [[p v]|] eqn:E1; cbn; [|reflexivity].
    exists v. split; [reflexivity|]. eapply read_inv; [exact I|]. apply alive_nth; eauto.
  - transitivity (live_refs refs + match rc_owner s with Some _ => 1 | None => 0 end); [apply live_bound; auto|].
    replace (live_refs (map (option_map fst) refs)) with (live_refs refs); [destruct (rc_owner s); lia|].
    unfold live_refs. clear. induction refs as [|[x|] refs IH]; cbn; auto.
  - intros Ho Hd. destruct (rc_owner s); [discriminate|]. eapply all_freed; [exact I|].
    intros i. specialize (Hd i). rewrite alive_map in Hd. destruct (alive refs i); [discriminate|reflexivity].
Qed.
Print Assumptions C29_references_never_share.

(** Ownership alternating between a reused and a fresh box; the last line: everything dropped, nothing allocated. *)
Definition rc_ops : list (rc_op nat) :=
  [RMake 41; RMake 42; RRead 0; RRead 1; RWrite 0 43; RRead 0; RRead 1; RDrop 1; RMake 7; RRead 2; RRead 0;
   RDropAlloc; RRead 2; RDrop 0; RRead 2; RDrop 2].
Example C29_references_example :
  fst (own_run (true, []) rc_ops)
    = [None; None; Some 41; Some 42; None; Some 43; Some 42; None; None; Some 7; Some 43; None; Some 7; None; Some 7; None] /\
  fst (snd (own_run (true, []) rc_ops)) = false /\
  res_map (fun r => length (rc_heap (snd r))) (rc_run rc_init rc_ops) = Ok 2 /\
  res_map (fun r => live_boxes (rc_heap (snd r))) (rc_run rc_init rc_ops) = Ok 0.
Proof. repeat split. Qed.

(** ** Left joins *)

(** Advancing the join, advancing and dropping the right-hand iterators and dropping the join in any order: every
    answer is that of independent iterators, the left entries coming in order and each right-hand iterator yielding
    exactly the matches of its left entry, whatever happens in between; no call is undefined or panics; when
    everything is dropped nothing is allocated. *)
Theorem C29_left_join_any_interleaving :
  forall (B0 B1 K0 K1 V0 V1 Q0 Q1 : Type) (P0 : Params B0 K0) (P1 : Params B1 K1) (cfg0 cfg1 : config)
    (ok0 : K0 -> Prop) (ok1 : K1 -> Prop) (incl0 : B0 -> B0 -> Prop) (incl1 : B1 -> B1 -> Prop)
    (brw0 : K0 -> Q0) (brw1 : K1 -> Q1) (qb0 : Q0 -> B0) (f : JoinFilter B0 B1 Q0 Q1)
    (a : rtree B0 K0 V0) (b : rtree B1 K1 V1) (os : list lj_op),
  bounds_laws (bops P0) incl0 -> bounds_laws (bops P1) incl1 ->
  join_filter_lawful P0 P1 brw0 brw1 incl0 incl1 ok0 ok1 (jtest_bounds f) (jtest_key f) ->
  (forall k, qb0 (brw0 k) = key_bounds P0 k) ->
  reachable P0 cfg0 ok0 a -> reachable P1 cfg1 ok1 b ->
  let matches e := filter (fun kv => jtest_key f (brw0 (fst e)) (brw1 (fst kv))) (contents b) in
  let spec := ljs_run matches (Some (contents a), []) os in
  exists s0 s, lj_new a b = Ok s0 /\
    lj_run brw0 brw1 qb0 f s0 os = Ok (fst spec, s) /\
    live_boxes (lj_heap s) <= live_refs (lj_inners s) + 1 /\
    (fst (snd spec) = None -> (forall i, alive (snd (snd spec)) i = None) -> live_boxes (lj_heap s) = 0).
Proof.
  intros * L0 L1 HF Hqb Ha Hb matches spec.
  destruct (C18_left_join_exact _ _ _ _ _ _ _ _ P0 P1 cfg0 cfg1 ok0 ok1 incl0 incl1 brw0 brw1 qb0 f a b L0 L1 HF Hqb Ha Hb)
    as (it & l & E & Hit & Hm & Hin).
  unfold lj_new. rewrite E. cbn [bind rc_alloc app length].
  eexists. assert (R : lj_ok brw0 brw1 qb0 f matches
    {| lj_join := Some (it, 0); lj_heap := [RLive false None]; lj_inners := [] |} (Some (contents a), []) []).
  { split; [exact rc_inv_init|]. split; [exists l; auto|]. split; [reflexivity|]. split; [reflexivity|].
    intros n i r l0 Hn. destruct n; discriminate. }
  destruct (lj_run_ok brw0 brw1 qb0 f matches os _ _ _ R) as (s & refs & E2 & R2).
  exists s. split; [reflexivity|]. split; [exact E2|].
  pose proof R2 as (I & J & Len1 & Len2 & H).
  assert (Hal : forall i, alive refs i = None <-> alive (snd (snd spec)) i = None).
  { intros i. pose proof (lj_alive brw0 brw1 qb0 f matches s _ refs i R2) as G. unfold spec.
    destruct (alive (lj_inners s) i) as [[p k]|] eqn:Ei.
    - destruct G as (st & l0 & G1 & G2 & _). rewrite G1. unfold alive. rewrite G2. split; discriminate.
    - rewrite G. split; [reflexivity|]. intros _. unfold alive in Ei |- *.
      destruct (nth_error refs i) as [r|] eqn:E4; [|reflexivity]. destruct r as [[p st]|]; [|reflexivity].
      assert (i < length refs) by (apply nth_error_Some; congruence).
      destruct (nth_error (lj_inners s) i) as [x|] eqn:E5; [|apply nth_error_None in E5; lia].
      destruct (nth_error (snd (snd (ljs_run matches (Some (contents a), []) os))) i) as [y|] eqn:E6;
        [|apply nth_error_None in E6; lia].
      specialize (H _ _ _ _ E5 E4 E6). destruct x as [[? ?]|]; [discriminate|]. cbn in H. contradiction. }
  split.
  - transitivity (live_refs refs + match option_map snd (lj_join s) with Some _ => 1 | None => 0 end); [apply live_bound; auto|].
    enough (live_refs refs = live_refs (lj_inners s)) by (destruct (option_map snd (lj_join s)); lia).
    clear - Len1 Len2 H. set (t := snd (snd _)) in *. clearbody t.
    unfold live_refs. revert refs t Len1 Len2 H. induction (lj_inners s) as [|x xs IH]; intros [|r refs] [|y t] Len1 Len2 H;
      try discriminate; [reflexivity|]. cbn in Len1, Len2.
    specialize (IH refs t ltac:(lia) ltac:(lia) (fun n => H (S n))).
    specialize (H 0 x r y eq_refl eq_refl eq_refl).
    destruct x as [[? ?]|], r as [[? ?]|], y; cbn in H |- *; try contradiction; lia.
  - intros Ho Hd.
    assert (Hj : lj_join s = None).
    { unfold spec in Ho. unfold join_ok in J. rewrite Ho in J. destruct (lj_join s) as [[? ?]|]; [contradiction|reflexivity]. }
    rewrite Hj in I. eapply all_freed; [exact I|]. intros i. apply Hal. apply Hd.
Qed.
Print Assumptions C29_left_join_any_interleaving.

(** The join of [sample] and [box_sample]: the first three right-hand iterators used out of order, the join dropped
    before they are.  Values only. *)
Definition lj_ops : list lj_op :=
  [JNext; JNext; JInner 0; JNext; JInner 1; JInner 0; JInner 2; JInner 0; JInner 0; JDropInner 0; JNext; JDrop; JInner 1;
   JInner 2; JInner 3; JDropInner 2; JInner 1; JDropInner 1; JDropInner 3].
Definition out_val {K0 K1 : Type} (o : @lj_out K0 K1 nat nat) : nat * option nat :=
  match o with OutLeft e => (1, option_map snd e) | OutRight e => (2, option_map snd e) | OutNothing => (0, None) end.
Example C29_left_join_example :
  (let* s0 := lj_new sample box_sample in
   let* (xs, s) := lj_run (fun k => k) (fun k => k) (key_bounds PP) pt_in_box s0 lj_ops in
   Ok (map out_val xs, live_boxes (lj_heap s), length (lj_heap s)))
  = Ok ([(1, Some 1); (1, Some 14); (2, Some 1); (1, Some 9); (2, Some 1); (2, Some 6); (2, Some 5); (2, Some 5); (2, None);
         (0, None); (1, Some 5); (0, None); (2, Some 6); (2, None); (2, Some 5); (0, None); (2, Some 5); (0, None); (0, None)],
        0, 4).
Proof. vm_compute. reflexivity. Qed.
