(** C84: sizes, bounds and volumes are unobservable. *)
From Verif Require Import Indep Witness IterProof.

(** ** C84 what a tree answers does not depend on its configuration *)
(** Two trees over the same keys - perhaps with different [max_children] and [min_children], different bounds types and
    different volumes - driven by the same calls.  If no call is [insert], all answers are the same and the trees
    end with the same entries. *)
Theorem C84_same_answers :
  forall (B1 B2 K V : Type) (P1 : Params B1 K) (P2 : Params B2 K) (cfg1 cfg2 : config) (ok : K -> Prop)
    (incl1 : B1 -> B1 -> Prop) (incl2 : B2 -> B2 -> Prop) (os : list (op K V)),
  bounds_laws (bops P1) incl1 -> lookup_laws P1 (self_borrow P1) incl1 ok ->
  bounds_laws (bops P2) incl2 -> lookup_laws P2 (self_borrow P2) incl2 ok ->
  key_eq_laws (key_eq P1) -> (forall a b, key_eq P2 a b = key_eq P1 a b) ->
  supported cfg1 -> supported cfg2 ->
  Forall not_insert os -> Forall (ok_op ok) os -> Forall (fits cfg1) os -> Forall (fits cfg2) os ->
  exists xs (t1 : rtree B1 K V) (t2 : rtree B2 K V),
    run P1 cfg1 (rtree_new P1) os = Ok (xs, t1) /\ run P2 cfg2 (rtree_new P2) os = Ok (xs, t2)
    /\ Permutation (contents t1) (contents t2).
Proof.
  intros * BL1 LL1 BL2 LL2 EL Same S1 S2 Hn Hk H1 H2.
  exact (both_run_same P1 P2 cfg1 cfg2 ok incl1 incl2 BL1 LL1 BL2 LL2 EL Same os S1 S2 Hn Hk H1 H2).
Qed.
Print Assumptions C84_same_answers.

(** With [insert], which may store a key several times, [remove] and [get] may pick different ones of the equal keys
    (C04); but they find one in both trees or in neither, and both trees hold every key equally often. *)
Theorem C84_like_answers :
  forall (B1 B2 K V : Type) (P1 : Params B1 K) (P2 : Params B2 K) (cfg1 cfg2 : config) (ok : K -> Prop)
    (incl1 : B1 -> B1 -> Prop) (incl2 : B2 -> B2 -> Prop) (os : list (op K V)),
  bounds_laws (bops P1) incl1 -> lookup_laws P1 (self_borrow P1) incl1 ok ->
  bounds_laws (bops P2) incl2 -> lookup_laws P2 (self_borrow P2) incl2 ok ->
  key_eq_laws (key_eq P1) -> (forall a b, key_eq P2 a b = key_eq P1 a b) ->
  supported cfg1 -> supported cfg2 ->
  Forall (ok_op ok) os -> Forall (fits cfg1) os -> Forall (fits cfg2) os ->
  exists xs1 xs2 (t1 : rtree B1 K V) (t2 : rtree B2 K V),
    run P1 cfg1 (rtree_new P1) os = Ok (xs1, t1) /\ run P2 cfg2 (rtree_new P2) os = Ok (xs2, t2)
    /\ Forall2 alike xs1 xs2 /\ length (contents t1) = length (contents t2)
    /\ forall k, hits (key_eq P1) k (contents t1) = hits (key_eq P1) k (contents t2).
Proof.
  intros * BL1 LL1 BL2 LL2 EL Same S1 S2 Hk H1 H2.
  exact (both_run_like P1 P2 cfg1 cfg2 ok incl1 incl2 BL1 LL1 BL2 LL2 EL Same os S1 S2 Hk H1 H2).
Qed.
Print Assumptions C84_like_answers.

(** Queries: the entries that a key test selects are the same, in some order. *)
Theorem C84_same_queries :
  forall (B1 B2 K V Q : Type) (P1 : Params B1 K) (P2 : Params B2 K) (cfg1 cfg2 : config) (ok : K -> Prop)
    (incl1 : B1 -> B1 -> Prop) (incl2 : B2 -> B2 -> Prop) (os : list (op K V))
    (brw : K -> Q) (f1 : SpatialFilter B1 Q) (f2 : SpatialFilter B2 Q),
  bounds_laws (bops P1) incl1 -> lookup_laws P1 (self_borrow P1) incl1 ok ->
  bounds_laws (bops P2) incl2 -> lookup_laws P2 (self_borrow P2) incl2 ok ->
  key_eq_laws (key_eq P1) -> (forall a b, key_eq P2 a b = key_eq P1 a b) ->
  supported cfg1 -> supported cfg2 ->
  Forall not_insert os -> Forall (ok_op ok) os -> Forall (fits cfg1) os -> Forall (fits cfg2) os ->
  filter_lawful P1 brw incl1 ok (test_bounds f1) (test_key f1) ->
  filter_lawful P2 brw incl2 ok (test_bounds f2) (test_key f2) -> (forall q, test_key f1 q = test_key f2 q) ->
  exists xs (t1 : rtree B1 K V) (t2 : rtree B2 K V) s1 s2 l1 l2,
    run P1 cfg1 (rtree_new P1) os = Ok (xs, t1) /\ run P2 cfg2 (rtree_new P2) os = Ok (xs, t2)
    /\ rtree_filter_iter t1 f1 = Ok s1 /\ iterates (iter_next_with brw f1) s1 l1
    /\ rtree_filter_iter t2 f2 = Ok s2 /\ iterates (iter_next_with brw f2) s2 l2
    /\ Permutation l1 l2.
Proof.
  intros * BL1 LL1 BL2 LL2 EL Same S1 S2 Hn Hk H1 H2 F1 F2 FK.
  destruct (both_run_same P1 P2 cfg1 cfg2 ok incl1 incl2 BL1 LL1 BL2 LL2 EL Same os S1 S2 Hn Hk H1 H2)
    as (xs & t1 & t2 & E1 & E2 & HP).
  destruct (filter_iter_exact brw f1 P1 cfg1 ok incl1 t1 BL1 F1 (run_reachable P1 cfg1 ok _ _ _ _ (r_new _ _ _) Hk E1)) as (s1 & G1 & I1).
  destruct (filter_iter_exact brw f2 P2 cfg2 ok incl2 t2 BL2 F2 (run_reachable P2 cfg2 ok _ _ _ _ (r_new _ _ _) Hk E2)) as (s2 & G2 & I2).
  exists xs, t1, t2, s1, s2. do 2 eexists. split; [exact E1|]. split; [exact E2|]. split; [exact G1|]. split; [exact I1|].
  split; [exact G2|]. split; [exact I2|].
  rewrite (filter_ext _ (fun kv => test_key f1 (brw (fst kv))) (fun kv => eq_sym (FK (brw (fst kv))))). now apply filter_perm.
Qed.
Print Assumptions C84_same_queries.

(** Thirty keys, some again, some removed: [max_children] 4 and 9; the same answers, a different order. *)
Definition C84_ops : list (op (svec i32 2) nat) :=
  map (fun i => OInsertUnique (pt (Z.of_nat i * 7 mod 11) (Z.of_nat i * 5 mod 4)) i) (seq 0 30)
  ++ [ORemove (pt 0 0); OGet (pt 7 1); OSet (pt 7 1) 50; OLen; OIsEmpty; OClone; ORemove (pt 7 1); OGet (pt 7 1)].
Example C84_example :
  supported (cfg_of 4 2) /\ supported (cfg_of 9 4)
  /\ Forall not_insert C84_ops /\ Forall (ok_op any_key) C84_ops
  /\ Forall (fits (cfg_of 4 2)) C84_ops /\ Forall (fits (cfg_of 9 4)) C84_ops
  /\ fst (final PP (cfg_of 4 2) C84_ops) = 2 /\ fst (final PP (cfg_of 9 4) C84_ops) = 1
  /\ res_map fst (run PP (cfg_of 4 2) (rtree_new PP) C84_ops) = res_map fst (run PP (cfg_of 9 4) (rtree_new PP) C84_ops)
  /\ map snd (contents (final PP (cfg_of 4 2) C84_ops)) <> map snd (contents (final PP (cfg_of 9 4) C84_ops)).
Proof.
  split; [exact supported42|]. split; [split; cbn; [lia|discriminate]|].
  split; [unfold C84_ops; repeat constructor|]. split; [apply Forall_forall; intros o _; unfold ok_op, any_key; now destruct (op_key o)|].
  split; [apply Forall_forall; intros o _; destruct o; cbn; auto; lia|].
  split; [apply Forall_forall; intros o _; destruct o; cbn; auto; lia|].
  split; [vm_compute; reflexivity|]. split; [vm_compute; reflexivity|]. split; [vm_compute; reflexivity|].
  vm_compute. discriminate.
Qed.
