(** Property C71: debug printing; and the crate's own equality check (C26).  Vocabulary: Spec.v, DebugSpec.v. *)
From Verif Require Import Witness DebugProof.
Open Scope string_scope.

(** ** C71 debug printing shows every node and entry once, in order *)
Theorem C71_debug_shows :
  forall (B K V : Type) (P : Params B K) (cfg : config) (t : rtree B K V)
    (db : user_debug B) (dk : user_debug K) (dv : user_debug V) (pretty : bool),
  reachable P cfg any_key t ->
  exists text calls result, rtree_debug db dk dv pretty t = Ok (text, calls, result) /\
    calls = until_failure (show_ok db dk dv pretty) (shown_order (snd t)) /\
    result = forallb (show_ok db dk dv pretty) (shown_order (snd t)).
Proof.
  intros * Hr. apply inv_any in Hr. destruct Hr as [Hw _].
  destruct (runs_tree db dk dv pretty cfg any_key rel_any 0 False t Hw) as (text & E). do 3 eexists. split; [exact E|]. split; reflexivity.
Qed.
Print Assumptions C71_debug_shows.

Theorem C71_shown_entries :
  forall (B K V : Type) (P : Params B K) (cfg : config) (t : rtree B K V),
  reachable P cfg any_key t ->
  shown_keys (shown_order (snd t)) = map fst (contents t) /\
  shown_values (shown_order (snd t)) = map snd (contents t).
Proof.
  intros * Hr. apply inv_any in Hr. destruct Hr as [Hw _]. exact (shown_entries cfg any_key rel_any 0 False _ _ Hw).
Qed.
Print Assumptions C71_shown_entries.

(** The text of [{:?}]. *)
Theorem C71_debug_text :
  forall (B K V : Type) (P : Params B K) (cfg : config) (t : rtree B K V)
    (db : user_debug B) (dk : user_debug K) (dv : user_debug V),
  (forall b, snd (db false b) = true) -> (forall k, snd (dk false k) = true) -> (forall v, snd (dv false v) = true) ->
  reachable P cfg any_key t ->
  exists calls, rtree_debug db dk dv false t =
    Ok ("RTree { root: " ++ node_text (fun b => fst (db false b)) (fun k => fst (dk false k)) (fun v => fst (dv false v)) (snd t)
        ++ " }", calls, true).
Proof.
  intros * Hb Hk Hv Hr. apply inv_any in Hr. destruct Hr as [Hw _].
  exact (writes_tree db dk dv cfg any_key rel_any 0 False Hb Hk Hv t Hw).
Qed.
Print Assumptions C71_debug_text.

(** The text of [{:?}] determines levels, node bounds, nesting and entries; but not the configuration. *)
Theorem C71_text_determines_tree :
  forall (B K V : Type) (P1 P2 : Params B K) (cfg1 cfg2 : config) (t1 t2 : rtree B K V)
    (db : user_debug B) (dk : user_debug K) (dv : user_debug V) text calls1 calls2,
  (forall b, snd (db false b) = true) -> (forall k, snd (dk false k) = true) -> (forall v, snd (dv false v) = true) ->
  delimited (fun b => fst (db false b)) -> delimited (fun k => fst (dk false k)) -> delimited (fun v => fst (dv false v)) ->
  supported cfg1 -> supported cfg2 ->
  reachable P1 cfg1 any_key t1 -> reachable P2 cfg2 any_key t2 ->
  rtree_debug db dk dv false t1 = Ok (text, calls1, true) ->
  rtree_debug db dk dv false t2 = Ok (text, calls2, true) ->
  t1 = t2.
Proof.
  intros * Hb Hk Hv Db Dk Dv S1 S2 R1 R2 E1 E2.
  destruct (C71_debug_text B K V P1 cfg1 t1 db dk dv Hb Hk Hv R1) as (c1 & E1').
  destruct (C71_debug_text B K V P2 cfg2 t2 db dk dv Hb Hk Hv R2) as (c2 & E2').
  rewrite E1' in E1. rewrite E2' in E2. injection E1 as E1 _. injection E2 as E2 _.
  assert (E : node_text (fun b => fst (db false b)) (fun k => fst (dk false k)) (fun v => fst (dv false v)) (snd t1) ++ " }"
            = node_text (fun b => fst (db false b)) (fun k => fst (dk false k)) (fun v => fst (dv false v)) (snd t2) ++ " }").
  { apply (sapp_inv "RTree { root: "). etransitivity; [exact E1|symmetry; exact E2]. }
  assert (F1 := fill_root P1 cfg1 any_key t1 S1 R1). assert (F2 := fill_root P2 cfg2 any_key t2 S2 R2).
  apply inv_guaranteed in R1. apply inv_guaranteed in R2. destruct R1 as [W1 _], R2 as [W2 _].
  assert (G1 : fst t1 <> 0 -> 1 <= fanout (snd t1)) by (intros H; specialize (F1 H); lia).
  assert (G2 : fst t2 <> 0 -> 1 <= fanout (snd t2)) by (intros H; specialize (F2 H); lia).
  destruct (node_inj _ _ _ Db Dk Dv _ _ _ _ _ _ _ _ _ _ _ _ _ _ W1 W2 G1 G2 E) as (Es & _ & El).
  destruct t1, t2. cbn in Es, El. now subst.
Qed.
Print Assumptions C71_text_determines_tree.

(** The same for the crate's points and boxes of [i32]. *)
Theorem C71_i32_text_determines_tree :
  forall (D : nat) (cfg1 cfg2 : config) (t1 t2 : rtree (saabb i32 D) (svec i32 D) i32) text calls1 calls2,
  supported cfg1 -> supported cfg2 ->
  reachable (i32_point_params D) cfg1 any_key t1 -> reachable (i32_point_params D) cfg2 any_key t2 ->
  rtree_debug (aabb_debug (svec_debug i32_debug D)) (svec_debug i32_debug D) i32_debug false t1 = Ok (text, calls1, true) ->
  rtree_debug (aabb_debug (svec_debug i32_debug D)) (svec_debug i32_debug D) i32_debug false t2 = Ok (text, calls2, true) ->
  t1 = t2.
Proof.
  intros * S1 S2 R1 R2 E1 E2.
  assert (Di : delimited (fun x => fst (i32_debug false x))) by apply i32_delimited.
  destruct (svec_prefix_free i32_debug D (fun _ => eq_refl) Di) as [Ov Pv]. apply prefix_free_delimited in Pv.
  destruct (aabb_prefix_free (svec_debug i32_debug D) Ov Pv) as [Ob Pb]. apply prefix_free_delimited in Pb.
  exact (C71_text_determines_tree _ _ _ _ _ cfg1 cfg2 t1 t2 _ _ i32_debug text calls1 calls2 Ob Ov (fun _ => eq_refl) Pb Pv Di S1 S2 R1 R2 E1 E2).
Qed.
Print Assumptions C71_i32_text_determines_tree.

Definition C71_ops : list (op (svec i32 2) i32) :=
  [OInsert (pt 0 0) (i32_of 1); OInsert (pt (-9) 9) (i32_of (-20)); OInsert (pt 10 8) (i32_of 3)]%list.
Definition C71_tree : rtree (saabb i32 2) (svec i32 2) i32 := final PP (cfg_of 2 0) C71_ops.
Definition C71_print (pretty : bool) : string :=
  match rtree_debug (aabb_debug (svec_debug i32_debug 2)) (svec_debug i32_debug 2) i32_debug pretty C71_tree with
  | Ok (text, _, true) => text
  | _ => ""
  end.
Example C71_example : reachable PP (cfg_of 2 0) any_key C71_tree /\ supported (cfg_of 2 0).
Proof. split; [apply final_reachable_any|]. split; cbn; lia. Qed.
Example C71_example_text : C71_print false =
  "RTree { root: Node { bounds: AABB { min: [-9, 0], max: [10, 9] }, node: [" ++
  "Node { bounds: AABB { min: [0, 0], max: [0, 0] }, node: [([0, 0], 1)] }, " ++
  "Node { bounds: AABB { min: [-9, 8], max: [10, 9] }, node: [([-9, 9], -20), ([10, 8], 3)] }] } }".
Proof. vm_compute. reflexivity. Qed.

Example C71_example_pretty :
  substring 0 153 (C71_print true) = String.concat eol
   ["RTree {"; "    root: Node {"; "        bounds: AABB {"; "            min: ["; "                -9,";
    "                0,"; "            ],"; "            max: ["; "             "]%list.
Proof. vm_compute. reflexivity. Qed.

(** A [Debug] of the values that fails on 3 stops the output there. *)
Example C71_example_error :
  match rtree_debug (aabb_debug (svec_debug i32_debug 2)) (svec_debug i32_debug 2)
    (fun p v => if Z.eqb (i32_val v) 3 then ("", false) else i32_debug p v) false C71_tree with
  | Ok (text, calls, result) => (text, List.length calls, result)
  | _ => ("", 0, true)
  end = ("RTree { root: Node { bounds: AABB { min: [-9, 0], max: [10, 9] }, node: [" ++
         "Node { bounds: AABB { min: [0, 0], max: [0, 0] }, node: [([0, 0], 1)] }, " ++
         "Node { bounds: AABB { min: [-9, 8], max: [10, 9] }, node: [([-9, 9], -20), ([10, 8], ", 9, false).
Proof. vm_compute. reflexivity. Qed.

(** ** C26 the crate's own equality check *)
Theorem C26_debug_assert_eq :
  forall (B K V : Type) (P : Params B K) (cfg : config) (t t' : rtree B K V)
    (keqb : K -> K -> bool) (veqb : V -> V -> bool),
  (forall k, keqb k k = true) -> (forall v, veqb v v = true) ->
  reachable P cfg any_key t -> rtree_clone cfg t = Ok t' -> rtree_assert_eq keqb veqb cfg t cfg t' = Ok tt.
Proof.
  intros * Hk Hv Hr E. rewrite (clone_spec P cfg any_key t Hr) in E. injection E as <-.
  apply inv_any in Hr. destruct Hr as [Hw _].
  unfold rtree_assert_eq. rewrite !Nat.eqb_refl. cbn [andb assert bind].
  destruct (node_assert_eq_spec keqb veqb cfg cfg any_key any_key rel_any rel_any 0 0 False False _ _ _ _ Hw Hw)
    as [(-> & _)|(_ & N)]; [reflexivity|].
  exfalso. apply N. split; [reflexivity|]. clear N.
  revert Hw. generalize (fst t) (snd t). clear -Hk Hv. induction n as [|l IH]; intros n Hw;
    destruct (wf_inv _ _ _ _ _ _ _ Hw) as (b & x & ->); constructor.
  - clear -Hk Hv. induction x; constructor; auto.
  - rewrite wf_inner in Hw. destruct Hw as (_ & _ & Hcs). induction Hcs as [|c cs [Hc _] Hcs IHcs]; constructor; auto.
Qed.
Print Assumptions C26_debug_assert_eq.

Theorem C26_debug_assert_eq_exact :
  forall (B K V : Type) (P P' : Params B K) (cfg cfg' : config) (t t' : rtree B K V)
    (keqb : K -> K -> bool) (veqb : V -> V -> bool),
  reachable P cfg any_key t -> reachable P' cfg' any_key t' ->
  rtree_assert_eq keqb veqb cfg t cfg' t' = Ok tt <->
  cfg = cfg' /\ fst t = fst t' /\ alike keqb veqb (snd t) (snd t').
Proof.
  intros * Hr Hr'. apply inv_any in Hr. apply inv_any in Hr'. destruct Hr as [Hw _], Hr' as [Hw' _].
  destruct (node_assert_eq_spec keqb veqb cfg cfg' any_key any_key rel_any rel_any 0 0 False False _ _ _ _ Hw Hw')
    as [(E & El & Ha)|(E & N)]; unfold rtree_assert_eq; rewrite E;
    destruct cfg as [mx mn], cfg' as [mx' mn']; cbn [max_children min_children];
    destruct (Nat.eqb_spec mx mx') as [<-|N1], (Nat.eqb_spec mn mn') as [<-|N2]; cbn [andb assert bind];
    try (split; [intros H; discriminate H|intros (H & _); injection H; congruence]);
    destruct (Nat.eqb_spec (fst t) (fst t')) as [El'|N3]; cbn [assert bind];
    try (split; [intros H; discriminate H|intros (_ & H); tauto]).
  tauto.
Qed.
Print Assumptions C26_debug_assert_eq_exact.

Example C26_debug_assert_eq_example :
  rtree_assert_eq (key_eq PP) Nat.eqb (cfg_of 4 2) sample (cfg_of 4 2) sample = Ok tt.
Proof. vm_compute. reflexivity. Qed.
