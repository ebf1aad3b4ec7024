(** Properties C01-C08, C12, C19-C26, C40-C42, C44: the tree core.  Vocabulary: Spec.v. *)
From Verif Require Import Witness MinOne.

(** ** C01 insert adds exactly one entry *)
Theorem C01_insert_adds_one :
  forall (B K V : Type) (P : Params B K) (cfg : config) (t t' : rtree B K V) (k : K) (v : V),
  reachable P cfg any_key t -> rtree_insert P cfg t k v = Ok t' ->
  Permutation (contents t') ((k, v) :: contents t).
Proof. intros * Hr E. exact (insert_contents P cfg any_key t t' k v Hr I E). Qed.
Print Assumptions C01_insert_adds_one.

(** ... and it does return, under a supported configuration after any history, or for any
    [max_children >= 2] if nothing was removed before. *)
Theorem C01_insert_returns :
  forall (B K V : Type) (P : Params B K) (cfg : config) (t : rtree B K V) (k : K) (v : V),
  (supported cfg /\ reachable P cfg any_key t) \/ (2 <= max_children cfg /\ grown P cfg any_key t) ->
  exists t', rtree_insert P cfg t k v = Ok t'.
Proof.
  intros * [[Hs Hr]|[H2 Hg]].
  - exact (insert_total P cfg any_key t k v Hs Hr I).
  - destruct (grown_step_total P cfg any_key t (OInsert k v) H2 Hg I ltac:(discriminate)) as [r E].
    cbn in E. destruct (rtree_insert P cfg t k v); try discriminate. eauto.
Qed.
Print Assumptions C01_insert_returns.

Example C01_example :
  reachable PP (cfg_of 4 2) any_key sample /\ supported (cfg_of 4 2) /\ fst sample = 2
  /\ res_map (fun t => length (contents t)) (rtree_insert PP (cfg_of 4 2) sample (pt 100 100) 99) = Ok 23.
Proof.
  split; [exact sample_reachable|]. split; [exact supported42|]. split; vm_compute; reflexivity.
Qed.

(** ** C02 get finds the first entry with an equal key *)
Theorem C02_get_finds_first :
  forall (B K V Q : Type) (P : Params B K) (cfg : config) (ok : K -> Prop) (incl : B -> B -> Prop)
    (BR : Borrowed B K Q) (t : rtree B K V) (q : Q),
  bounds_laws (bops P) incl -> lookup_laws P BR incl ok -> reachable P cfg ok t ->
  rtree_get P BR t q =
    Ok (option_map snd (find (fun kv => q_eq BR (borrow BR (fst kv)) q) (contents t))).
Proof. intros * BL LL Hr. exact (get_find P cfg ok incl BL BR LL t q Hr). Qed.
Print Assumptions C02_get_finds_first.

(** The same in words: [Some] iff an equal key is stored, and then the value of the first such entry. *)
Theorem C02_get_none_iff :
  forall (B K V Q : Type) (P : Params B K) (cfg : config) (ok : K -> Prop) (incl : B -> B -> Prop)
    (BR : Borrowed B K Q) (t : rtree B K V) (q : Q),
  bounds_laws (bops P) incl -> lookup_laws P BR incl ok -> reachable P cfg ok t ->
  (rtree_get P BR t q = Ok None <-> forall k v, In (k, v) (contents t) -> q_eq BR (borrow BR k) q = false)
  /\ forall v, rtree_get P BR t q = Ok (Some v) <->
       exists l1 k l2, contents t = l1 ++ (k, v) :: l2 /\ q_eq BR (borrow BR k) q = true
         /\ forall k' v', In (k', v') l1 -> q_eq BR (borrow BR k') q = false.
Proof. intros * BL LL Hr. exact (get_iff P cfg ok incl BL BR LL t q Hr). Qed.
Print Assumptions C02_get_none_iff.

Example C02_example :
  bounds_laws (bops PP) (box_incl i32_ops) /\ lookup_laws PP (self_borrow PP) (box_incl i32_ops) any_key
  /\ reachable PP (cfg_of 4 2) any_key sample
  /\ rtree_get PP (self_borrow PP) sample (pt 3 3) = Ok (Some 5)
  /\ rtree_get PP (self_borrow PP) sample (pt 7 2) = Ok None.
Proof.
  split; [exact PP_bounds|]. split; [exact PP_lookup|]. split; [exact sample_reachable|].
  split; vm_compute; reflexivity.
Qed.

(** ** C03 remove removes exactly one equal entry *)
Theorem C03_remove_one :
  forall (B K V Q : Type) (P : Params B K) (cfg : config) (ok : K -> Prop) (incl : B -> B -> Prop)
    (BR : Borrowed B K Q) (t t' : rtree B K V) (q : Q) (o : option V),
  bounds_laws (bops P) incl -> lookup_laws P BR incl ok -> reachable P cfg ok t ->
  rtree_remove P cfg BR t q = Ok (o, t') ->
  (o <> None <-> exists k v, In (k, v) (contents t) /\ q_eq BR (borrow BR k) q = true) /\
  match o with
  | None => t' = t
  | Some v => exists k, q_eq BR (borrow BR k) q = true /\ Permutation (contents t) ((k, v) :: contents t')
  end.
Proof. intros * BL LL Hr E. exact (remove_full P cfg ok incl BL BR LL t t' q o Hr E). Qed.
Print Assumptions C03_remove_one.

Theorem C03_remove_returns :
  forall (B K V Q : Type) (P : Params B K) (cfg : config) (BR : Borrowed B K Q) (t : rtree B K V) (q : Q),
  supported cfg -> reachable P cfg any_key t -> exists o t', rtree_remove P cfg BR t q = Ok (o, t').
Proof. intros * Hs Hr. destruct (remove_total P cfg any_key t Q BR q Hs Hr) as [[o t'] E]. eauto. Qed.
Print Assumptions C03_remove_returns.

Example C03_example :
  reachable PP (cfg_of 4 2) any_key sample
  /\ res_map (fun r => (fst r, length (contents (snd r)))) (rtree_remove PP (cfg_of 4 2) (self_borrow PP) sample (pt 5 5))
     = Ok (Some 17, 21)
  /\ res_map (fun r => (fst r, length (contents (snd r)))) (rtree_remove PP (cfg_of 4 2) (self_borrow PP) sample (pt 7 2))
     = Ok (None, 22).
Proof. split; [exact sample_reachable|]. split; vm_compute; reflexivity. Qed.

(** ** C04 remove takes the first of several equal entries: false *)
Definition C04_tree := final P1 (cfg_of 4 2) (map (fun v => OInsert (p1 0) v) [1; 2; 3; 4; 5; 6]).

Theorem C04_remove_first_refuted :
  exists (t : rtree (saabb i32 1) (svec i32 1) nat) (q : svec i32 1) (v v' : nat),
  supported (cfg_of 4 2) /\ reachable P1 (cfg_of 4 2) any_key t /\
  rtree_get P1 (self_borrow P1) t q = Ok (Some v) /\
  res_map fst (rtree_remove P1 (cfg_of 4 2) (self_borrow P1) t q) = Ok (Some v') /\ v <> v'.
Proof.
  exists C04_tree, (p1 0), 1, 5. split; [exact supported42|]. split; [apply final_reachable_any|].
  split; [vm_compute; reflexivity|]. split; [vm_compute; reflexivity|lia].
Qed.
Print Assumptions C04_remove_first_refuted.

(** What holds: remove returns what get returned if only one stored key equals the query. *)
Theorem C04_remove_first_partial :
  forall (B K V Q : Type) (P : Params B K) (cfg : config) (ok : K -> Prop) (incl : B -> B -> Prop)
    (BR : Borrowed B K Q) (t t' : rtree B K V) (q : Q) (o : option V) l1 k v l2,
  bounds_laws (bops P) incl -> lookup_laws P BR incl ok -> reachable P cfg ok t ->
  contents t = l1 ++ (k, v) :: l2 -> q_eq BR (borrow BR k) q = true ->
  (forall k' v', In (k', v') (l1 ++ l2) -> q_eq BR (borrow BR k') q = false) ->
  rtree_remove P cfg BR t q = Ok (o, t') -> o = Some v /\ Permutation (contents t') (l1 ++ l2).
Proof. intros * BL LL Hr E Hk Hl Er. exact (remove_only P cfg ok incl BL BR LL t t' q o l1 k v l2 Hr E Hk Hl Er). Qed.
Print Assumptions C04_remove_first_partial.

(** And for any number of equal entries: the leaves are searched from the last to the first, each of them from its first
    entry; the first match in that order is removed, and nothing else. *)
Theorem C04_remove_order_partial :
  forall (B K V Q : Type) (P : Params B K) (cfg : config) (ok : K -> Prop) (incl : B -> B -> Prop)
    (BR : Borrowed B K Q) (t t' : rtree B K V) (q : Q) (v : V),
  bounds_laws (bops P) incl -> lookup_laws P BR incl ok -> reachable P cfg ok t ->
  rtree_remove P cfg BR t q = Ok (Some v, t') ->
  exists ls1 es1 k es2 ls2,
    leaves (snd t) = ls1 ++ (es1 ++ (k, v) :: es2) :: ls2 /\ q_eq BR (borrow BR k) q = true
    /\ (forall kv, In kv es1 -> q_eq BR (borrow BR (fst kv)) q = false)
    /\ (forall es kv, In es ls2 -> In kv es -> q_eq BR (borrow BR (fst kv)) q = false)
    /\ Permutation (contents t') (concat (ls1 ++ (es1 ++ es2) :: ls2)).
Proof. intros * BL LL Hr E. exact (remove_order P cfg ok incl BL BR LL t t' q v Hr E). Qed.
Print Assumptions C04_remove_order_partial.

(** The leaves together hold the contents, in iteration order. *)
Theorem C04_leaves_partial : forall (B K V : Type) (t : rtree B K V), concat (leaves (snd t)) = contents t.
Proof. intros. apply concat_leaves. Qed.
Print Assumptions C04_leaves_partial.

(** Six equal keys in two leaves: get finds 1, remove takes 5. *)
Example C04_example : map (map snd) (leaves (snd C04_tree)) = [[1; 4; 3; 6]; [5; 2]].
Proof. vm_compute. reflexivity. Qed.

(** ** C05 insert_unique replaces the first equal entry or inserts *)
Theorem C05_insert_unique :
  forall (B K V : Type) (P : Params B K) (cfg : config) (ok : K -> Prop) (incl : B -> B -> Prop)
    (t t' : rtree B K V) (k : K) (v : V) (o : option V),
  bounds_laws (bops P) incl -> lookup_laws P (self_borrow P) incl ok -> reachable P cfg ok t -> ok k ->
  rtree_insert_unique P cfg t k v = Ok (o, t') ->
  match o with
  | None => (forall k' v', In (k', v') (contents t) -> key_eq P k' k = false)
            /\ Permutation (contents t') ((k, v) :: contents t)
  | Some old => fst t' = fst t /\
      exists l1 k' l2, contents t = l1 ++ (k', old) :: l2 /\ key_eq P k' k = true
        /\ (forall k'' v'', In (k'', v'') l1 -> key_eq P k'' k = false)
        /\ contents t' = l1 ++ (k', v) :: l2
  end.
Proof. intros * BL LL Hr Hk E. exact (insert_unique_full P cfg ok incl BL LL t t' k v o Hr Hk E). Qed.
Print Assumptions C05_insert_unique.

Theorem C05_insert_unique_returns :
  forall (B K V : Type) (P : Params B K) (cfg : config) (t : rtree B K V) (k : K) (v : V),
  (supported cfg /\ reachable P cfg any_key t) \/ (2 <= max_children cfg /\ grown P cfg any_key t) ->
  exists o t', rtree_insert_unique P cfg t k v = Ok (o, t').
Proof.
  intros * [[Hs Hr]|[H2 Hg]].
  - destruct (insert_unique_total P cfg any_key t k v Hs Hr I) as [[o t'] E]. eauto.
  - destruct (grown_step_total P cfg any_key t (OInsertUnique k v) H2 Hg I ltac:(discriminate)) as [r E].
    cbn in E. destruct (rtree_insert_unique P cfg t k v) as [[o t']| | |]; try discriminate. eauto.
Qed.
Print Assumptions C05_insert_unique_returns.

Example C05_example :
  reachable PB (cfg_of 4 2) (valid_box i32_ops) box_sample /\ valid_box i32_ops (bx 0 0 1 1)
  /\ bounds_laws (bops PB) (box_incl i32_ops) /\ lookup_laws PB (self_borrow PB) (box_incl i32_ops) (valid_box i32_ops)
  /\ map snd (contents box_sample) = [4; 7; 1; 6; 5; 2]
  /\ res_map (fun r => (fst r, map snd (contents (snd r))))
       (rtree_insert_unique PB (cfg_of 4 2) box_sample (bx 0 0 1 1) 77) = Ok (Some 1, [4; 7; 77; 6; 5; 2])
  /\ res_map (fun r => (fst r, length (contents (snd r))))
       (rtree_insert_unique PB (cfg_of 4 2) box_sample (bx 0 0 1 2) 77) = Ok (None, 7).
Proof.
  split; [exact box_sample_reachable|]. split; [apply all_le_spec; vm_compute; reflexivity|].
  split; [exact PB_bounds|]. split; [exact PB_lookup|]. split; [|split]; vm_compute; reflexivity.
Qed.

(** ** C06 insert_unique and remove give a map *)
Theorem C06_map :
  forall (B K V : Type) (P : Params B K) (cfg : config) (ok : K -> Prop) (incl : B -> B -> Prop)
    (os : list (op K V)),
  bounds_laws (bops P) incl -> lookup_laws P (self_borrow P) incl ok -> key_eq_laws (key_eq P) ->
  supported cfg -> Forall map_op os -> Forall (ok_op ok) os ->
  exists xs (t : rtree B K V) m,
    run P cfg (rtree_new P) os = Ok (xs, t)
    /\ map_run (key_eq P) (fun _ => None) os = Some (xs, m)
    /\ unique_keys (key_eq P) (contents t)
    /\ forall k, option_map snd (find (fun kv => key_eq P (fst kv) k) (contents t)) = m k.
Proof. intros * BL LL EL Hs Hm Hok. exact (map_history P cfg ok incl BL LL EL os Hs Hm Hok). Qed.
Print Assumptions C06_map.

Definition C06_ops : list (op (svec i32 2) nat) :=
  map (fun i => OInsertUnique (pt (Z.of_nat i * 7 mod 11) (Z.of_nat i * 5 mod 13)) i) (seq 0 20)
  ++ [ORemove (pt 0 0); OGet (pt 7 5); OSet (pt 7 5) 50; OClone; ORemove (pt 7 5); OGet (pt 7 5)].
Example C06_example :
  bounds_laws (bops PP) (box_incl i32_ops) /\ lookup_laws PP (self_borrow PP) (box_incl i32_ops) any_key
  /\ key_eq_laws (key_eq PP) /\ supported (cfg_of 4 2) /\ Forall map_op C06_ops /\ Forall (ok_op any_key) C06_ops
  /\ res_map (fun r => skipn 20 (fst r)) (run PP (cfg_of 4 2) (rtree_new PP) C06_ops)
     = Ok [OutVal (Some 0); OutVal (Some 1); OutVal (Some 1); OutUnit; OutVal (Some 50); OutVal None].
Proof.
  split; [exact PP_bounds|]. split; [exact PP_lookup|]. split; [exact PP_keys|]. split; [exact supported42|].
  split; [|split].
  - unfold C06_ops. repeat constructor.
  - apply Forall_forall. intros o _. unfold ok_op, any_key. now destruct (op_key o).
  - vm_compute. reflexivity.
Qed.

(** ** C07 len counts entries, is_empty is len = 0 *)
Theorem C07_len :
  forall (B K V : Type) (P : Params B K) (cfg : config) (t : rtree B K V),
  reachable P cfg any_key t -> rtree_len t = Ok (length (contents t)).
Proof. intros * Hr. exact (len_spec P cfg any_key t Hr). Qed.
Print Assumptions C07_len.

Theorem C07_is_empty :
  forall (B K V : Type) (P : Params B K) (cfg : config) (t : rtree B K V),
  1 <= min_children cfg -> reachable P cfg any_key t ->
  exists b, rtree_is_empty t = Ok b /\ (b = true <-> rtree_len t = Ok 0).
Proof.
  intros * Hm Hr. destruct (is_empty_spec P cfg any_key t Hm Hr) as (b & E & H). exists b. split; [exact E|].
  rewrite H, (len_spec P cfg any_key t Hr). destruct (contents t); cbn; split; congruence.
Qed.
Print Assumptions C07_is_empty.

Example C07_example :
  reachable PP (cfg_of 4 2) any_key sample /\ 1 <= min_children (cfg_of 4 2)
  /\ rtree_len sample = Ok 22 /\ rtree_is_empty sample = Ok false.
Proof. split; [exact sample_reachable|]. split; [cbn; lia|]. split; vm_compute; reflexivity. Qed.

(** ** C08 is_empty agrees with len also for min_children = 0: false *)
Definition C08_ops : list (op (svec i32 1) nat) :=
  [OInsert (p1 1) 1; OInsert (p1 2) 2; OInsert (p1 30) 3; ORemove (p1 1); ORemove (p1 2); ORemove (p1 30)].
Theorem C08_is_empty_min0_refuted :
  exists (cfg : config) (t : rtree (saabb i32 1) (svec i32 1) nat),
  2 <= max_children cfg /\ min_children cfg = 0 /\ reachable P1 cfg any_key t
  /\ rtree_len t = Ok 0 /\ rtree_is_empty t = Ok false.
Proof.
  exists (cfg_of 2 0), (final P1 (cfg_of 2 0) C08_ops). split; [cbn; lia|]. split; [reflexivity|].
  split; [apply final_reachable_any|]. split; vm_compute; reflexivity.
Qed.
Print Assumptions C08_is_empty_min0_refuted.

(** What holds for every configuration: is_empty = true implies len = 0. *)
Theorem C08_is_empty_sound_partial :
  forall (B K V : Type) (P : Params B K) (cfg : config) (t : rtree B K V),
  reachable P cfg any_key t ->
  exists b, rtree_is_empty t = Ok b /\ (b = true -> rtree_len t = Ok 0).
Proof. intros * Hr. exact (is_empty_sound P cfg any_key t Hr). Qed.
Print Assumptions C08_is_empty_sound_partial.

(** ** C12 get_mut addresses the entry that get finds *)
Theorem C12_get_mut :
  forall (B K V Q : Type) (P : Params B K) (cfg : config) (ok : K -> Prop) (incl : B -> B -> Prop)
    (BR : Borrowed B K Q) (t : rtree B K V) (q : Q),
  bounds_laws (bops P) incl -> lookup_laws P BR incl ok -> reachable P cfg ok t ->
  exists r, rtree_get_mut P BR t q = Ok r /\
  match r with
  | None => rtree_get P BR t q = Ok None
  | Some (v, put) =>
    rtree_get P BR t q = Ok (Some v) /\
    (forall v', rtree_get P BR (put v') q = Ok (Some v') /\ same_but_values t (put v')) /\
    exists l1 k l2, contents t = l1 ++ (k, v) :: l2 /\ forall v', contents (put v') = l1 ++ (k, v') :: l2
  end.
Proof. intros * BL LL Hr. exact (get_mut_full P cfg ok incl BL BR LL t q Hr). Qed.
Print Assumptions C12_get_mut.

Example C12_example :
  reachable PP (cfg_of 4 2) any_key sample
  /\ res_map (option_map fst) (rtree_get_mut PP (self_borrow PP) sample (pt 3 3)) = Ok (Some 5)
  /\ res_map (option_map (fun p => map snd (contents (snd p 500)))) (rtree_get_mut PP (self_borrow PP) sample (pt 3 3))
     = Ok (Some [1; 14; 9; 500; 24; 11; 6; 23; 22; 27; 29; 17; 10; 21; 2; 33; 15; 25; 26; 28; 12; 8]).
Proof. split; [exact sample_reachable|]. split; vm_compute; reflexivity. Qed.

(** ** C19 bounding volume hierarchy *)
Theorem C19_bounds_cover :
  forall (B K V : Type) (P : Params B K) (cfg : config) (incl : B -> B -> Prop) (t : rtree B K V) i n k v,
  bounds_laws (bops P) incl -> reachable P cfg any_key t ->
  node_at t i n -> In (k, v) (entries n) -> incl (node_bounds n) (key_bounds P k).
Proof. intros * BL Hr Hat Hin. exact (bvh_cover P cfg any_key incl t i n BL Hr Hat k v Hin). Qed.
Print Assumptions C19_bounds_cover.

Theorem C19_bounds_exact :
  forall (B K V : Type) (P : Params B K) (cfg : config) (t : rtree B K V) i n,
  semilattice_laws (bops P) ->
  (forall k k', key_eq P k' k = true -> key_bounds P k' = key_bounds P k) ->
  reachable P cfg any_key t -> node_at t i n ->
  node_bounds n = b_union_all (bops P) (child_bounds (key_bounds P) n).
Proof. intros * SL Hk Hr Hat. exact (bvh_exact P cfg any_key t i n SL Hk Hr Hat). Qed.
Print Assumptions C19_bounds_exact.

(** Hence the crate's own debugging check never fails. *)
Theorem C19_debug_assert_bvh :
  forall (B K V : Type) (P : Params B K) (cfg : config) (beq : B -> B -> bool) (t : rtree B K V),
  semilattice_laws (bops P) ->
  (forall k k', key_eq P k' k = true -> key_bounds P k' = key_bounds P k) ->
  (forall b, beq b b = true) -> reachable P cfg any_key t ->
  rtree_debug_assert_bvh P beq t = Ok (node_bounds (snd t)).
Proof. intros * SL Hk Hb Hr. exact (debug_bvh_spec P cfg any_key beq t SL Hk Hb Hr). Qed.
Print Assumptions C19_debug_assert_bvh.

Example C19_example :
  bounds_laws (bops PP) (box_incl i32_ops) /\ semilattice_laws (bops PP)
  /\ (forall k k', key_eq PP k' k = true -> key_bounds PP k' = key_bounds PP k)
  /\ reachable PP (cfg_of 4 2) any_key sample /\ fst sample = 2
  /\ exists n, node_at sample 1 n /\ fanout n = 2.
Proof.
  split; [exact PP_bounds|]. split; [exact PP_semilattice|]. split; [exact PP_key_bounds|].
  split; [exact sample_reachable|]. split; [exact (proj1 sample_height)|exact sample_inner].
Qed.

(** ** C20 node fill *)
Theorem C20_max_children :
  forall (B K V : Type) (P : Params B K) (cfg : config) (t : rtree B K V) i n,
  reachable P cfg any_key t -> node_at t i n -> fanout n <= max_children cfg.
Proof. intros * Hr Hat. exact (fill_max P cfg any_key t i n Hr Hat). Qed.
Print Assumptions C20_max_children.

Theorem C20_min_children :
  forall (B K V : Type) (P : Params B K) (cfg : config) (t : rtree B K V) i n,
  2 * min_children cfg <= max_children cfg -> reachable P cfg any_key t -> node_at t i n -> i < fst t ->
  min_children cfg <= fanout n.
Proof. intros * H Hr Hat Hi. exact (fill_min P cfg any_key t i n H Hr Hat Hi). Qed.
Print Assumptions C20_min_children.

Theorem C20_root_children :
  forall (B K V : Type) (P : Params B K) (cfg : config) (t : rtree B K V),
  supported cfg -> reachable P cfg any_key t -> fst t <> 0 -> 2 <= fanout (snd t).
Proof. intros *. exact (fill_root P cfg any_key t). Qed.
Print Assumptions C20_root_children.

Theorem C20_debug_assert_min_children :
  forall (B K V : Type) (P : Params B K) (cfg : config) (t : rtree B K V),
  2 * min_children cfg <= max_children cfg -> reachable P cfg any_key t ->
  rtree_debug_assert_min_children cfg t = Ok tt.
Proof. intros * H Hr. exact (debug_min_spec P cfg any_key t H Hr). Qed.
Print Assumptions C20_debug_assert_min_children.

Example C20_example :
  supported (cfg_of 4 2) /\ 2 * min_children (cfg_of 4 2) <= max_children (cfg_of 4 2)
  /\ reachable PP (cfg_of 4 2) any_key sample /\ fst sample <> 0 /\ (exists n, node_at sample 1 n /\ fanout n = 2).
Proof.
  split; [exact supported42|]. split; [cbn; lia|]. split; [exact sample_reachable|].
  split; [rewrite (proj1 sample_height); discriminate|exact sample_inner].
Qed.

(** ** C21 minimum fill for the largest splittable minimum: false *)
Definition C21_ops : list (op (svec i32 1) nat) :=
  [OInsert (p1 1) 1; OInsert (p1 2) 2; OInsert (p1 30) 3; OInsert (p1 40) 4].
Theorem C21_min_fill_refuted :
  exists (cfg : config) (t : rtree (saabb i32 1) (svec i32 1) nat) i n,
  2 * min_children cfg = max_children cfg + 1 /\ 2 <= min_children cfg /\ reachable P1 cfg any_key t
  /\ node_at t i n /\ i < fst t /\ fanout n < min_children cfg.
Proof.
  exists (cfg_of 3 2), (final P1 (cfg_of 3 2) C21_ops).
  destruct (underfull_child (final P1 (cfg_of 3 2) C21_ops) 1) as (i & n & H1 & H2 & H3); [vm_compute; reflexivity|].
  exists i, n. split; [reflexivity|]. split; [cbn; lia|]. split; [apply final_reachable_any|].
  split; [exact H1|]. split; [exact H2|]. change (fanout n < 2). lia.
Qed.
Print Assumptions C21_min_fill_refuted.

(** What holds: with [2 * min_children = max_children + 1] at most one child is missing, and in general
    no node but the root has fewer than [guaranteed_fill] children. *)
Theorem C21_min_fill_partial :
  forall (B K V : Type) (P : Params B K) (cfg : config) (t : rtree B K V) i n,
  2 * min_children cfg = max_children cfg + 1 -> reachable P cfg any_key t -> node_at t i n -> i < fst t ->
  min_children cfg - 1 <= fanout n.
Proof.
  intros * H Hr Hat Hi. assert (Hf := fill_guaranteed P cfg any_key t i n Hr Hat Hi). unfold guaranteed_fill in Hf. lia.
Qed.
Print Assumptions C21_min_fill_partial.

Theorem C21_guaranteed_fill :
  forall (B K V : Type) (P : Params B K) (cfg : config) (t : rtree B K V) i n,
  reachable P cfg any_key t -> node_at t i n -> i < fst t -> guaranteed_fill cfg <= fanout n.
Proof. intros *. exact (fill_guaranteed P cfg any_key t i n). Qed.
Print Assumptions C21_guaranteed_fill.

Definition C21_ops2 : list (op (svec i32 1) nat) := map (fun x => OInsert (p1 x) 0) [1; 2; 3; 40; 50; 60; 4; 5; 6; 7]%Z.
Example C21_example :
  2 * min_children (cfg_of 5 3) = max_children (cfg_of 5 3) + 1 /\ guaranteed_fill (cfg_of 5 3) = 2
  /\ reachable P1 (cfg_of 5 3) any_key (final P1 (cfg_of 5 3) C21_ops2)
  /\ fst (final P1 (cfg_of 5 3) C21_ops2) = 1 /\ root_child_with (Nat.eqb 2) (final P1 (cfg_of 5 3) C21_ops2) = true.
Proof.
  split; [reflexivity|]. split; [reflexivity|]. split; [apply final_reachable_any|]. split; vm_compute; reflexivity.
Qed.

(** ** C22 uniform depth and logarithmic height *)
Theorem C22_uniform_depth :
  forall (B K V : Type) (P : Params B K) (cfg : config) (t : rtree B K V) i n,
  reachable P cfg any_key t -> node_at t i n ->
  match node_children n with CLeaf _ => i = 0 | CInner _ => i <> 0 end.
Proof. intros * Hr Hat. exact (uniform_depth P cfg any_key t i n Hr Hat). Qed.
Print Assumptions C22_uniform_depth.

Theorem C22_height :
  forall (B K V : Type) (P : Params B K) (cfg : config) (t : rtree B K V),
  supported cfg -> reachable P cfg any_key t -> fst t <> 0 ->
  2 * guaranteed_fill cfg ^ fst t <= length (contents t).
Proof. intros *. exact (height_bound P cfg any_key t). Qed.
Print Assumptions C22_height.

(** Spelled out: logarithmic to base [min_children], and to base 2 at worst. *)
Theorem C22_height_min :
  forall (B K V : Type) (P : Params B K) (cfg : config) (t : rtree B K V),
  2 <= min_children cfg -> 2 * min_children cfg <= max_children cfg -> reachable P cfg any_key t -> fst t <> 0 ->
  2 * min_children cfg ^ fst t <= length (contents t).
Proof.
  intros * H1 H2 Hr H0. rewrite <- (guaranteed_min cfg H2) at 1. apply (height_bound P cfg any_key t); auto.
  unfold supported. lia.
Qed.
Print Assumptions C22_height_min.

Theorem C22_height_log2 :
  forall (B K V : Type) (P : Params B K) (cfg : config) (t : rtree B K V),
  2 <= min_children cfg -> min_children cfg + 2 <= max_children cfg -> reachable P cfg any_key t -> fst t <> 0 ->
  2 ^ S (fst t) <= length (contents t).
Proof. intros *. exact (height_log P cfg any_key t). Qed.
Print Assumptions C22_height_log2.

Example C22_example :
  supported (cfg_of 4 2) /\ reachable PP (cfg_of 4 2) any_key sample /\ fst sample = 2 /\ length (contents sample) = 22.
Proof. split; [exact supported42|]. split; [exact sample_reachable|]. exact sample_height. Qed.

(** ** C23 no panic *)
Theorem C23_no_panic :
  forall (B K V : Type) (P : Params B K) (cfg : config) (os : list (op K V)),
  supported cfg -> exists xs (t : rtree B K V), run P cfg (rtree_new P) os = Ok (xs, t).
Proof. intros * Hs. destruct (run_no_panic P cfg os Hs) as [[xs t] E]. eauto. Qed.
Print Assumptions C23_no_panic.

Theorem C23_no_panic_without_remove :
  forall (B K V : Type) (P : Params B K) (cfg : config) (os : list (op K V)),
  2 <= max_children cfg -> (forall k, ~ In (ORemove k) os) ->
  exists xs (t : rtree B K V), run P cfg (rtree_new P) os = Ok (xs, t).
Proof. intros * H1 H2. destruct (run_no_panic_grow P cfg os H1 H2) as [[xs t] E]. eauto. Qed.
Print Assumptions C23_no_panic_without_remove.

(** [get] and [remove] through any borrowed key type (lawful or not). *)
Theorem C23_no_panic_borrowed :
  forall (B K V Q : Type) (P : Params B K) (cfg : config) (BR : Borrowed B K Q) (t : rtree B K V) (q : Q),
  reachable P cfg any_key t ->
  (exists o, rtree_get P BR t q = Ok o) /\ (exists o, rtree_get_mut P BR t q = Ok o)
  /\ (supported cfg -> exists r, rtree_remove P cfg BR t q = Ok r).
Proof.
  intros * Hr. split; [exact (get_safe P cfg any_key t Q BR q Hr)|].
  split; [exact (get_mut_safe P cfg any_key t Q BR q Hr)|]. intros Hs. exact (remove_total P cfg any_key t Q BR q Hs Hr).
Qed.
Print Assumptions C23_no_panic_borrowed.

Example C23_example : supported (cfg_of 4 2) /\ supported (cfg_of 32 8) /\ supported (cfg_of 2 0) /\ supported (cfg_of 3 2)
  /\ is_ok (run PP (cfg_of 4 2) (rtree_new PP) sample_ops) = true.
Proof. unfold supported; cbn [cfg_of max_children min_children]. repeat split; try lia; vm_compute; reflexivity. Qed.

(** ** C24 min_children = 1 is usable: false *)
Definition C24_ops : list (op (svec i32 1) nat) :=
  map (fun x => OInsert (p1 x) 0) [1; 2; 30; 40; 41]%Z ++ map (fun x => ORemove (p1 x)) [1; 2; 30; 40; 41]%Z
  ++ [OInsert (p1 7) 0].
Theorem C24_min1_refuted :
  exists (cfg : config) (os : list (op (svec i32 1) nat)),
  2 <= max_children cfg /\ min_children cfg = 1 /\ run P1 cfg (rtree_new P1) os = Panic.
Proof.
  exists (cfg_of 2 1), C24_ops. split; [cbn; lia|]. split; [reflexivity|].
  apply is_panic_spec. vm_compute. reflexivity.
Qed.
Print Assumptions C24_min1_refuted.

(** ... and it is not an accident of that tree: for every type of keys with lawful bounds and more than
    [max_children ^ 2] different keys, some history panics. *)
Theorem C24_min1_refuted_everywhere :
  forall (B K V : Type) (P : Params B K) (cfg : config) (incl : B -> B -> Prop) (ks : list K) (v : V),
  bounds_laws (bops P) incl -> lookup_laws P (self_borrow P) incl any_key -> key_eq_laws (key_eq P) ->
  2 <= max_children cfg -> min_children cfg = 1 ->
  NoDup ks -> (forall k k', In k ks -> In k' ks -> key_eq P k k' = true -> k = k') ->
  max_children cfg * max_children cfg < length ks ->
  exists os : list (op K V), run P cfg (rtree_new P) os = Panic.
Proof. intros B K V P cfg incl ks v BL LL KL H1 H2 H3 H4 H5. exact (min1_panics P cfg incl H1 H2 BL LL KL ks v (conj H3 H4) H5). Qed.
Print Assumptions C24_min1_refuted_everywhere.

Definition keys_upto (n : nat) : list (svec i32 1) := map (fun i => p1 (Z.of_nat i)) (seq 0 n).
Lemma p1_inj a b : (0 <= a < 2147483648)%Z -> (0 <= b < 2147483648)%Z -> p1 a = p1 b -> a = b.
Proof.
  intros Ha Hb H. assert (E : i32_val (i32_of a) = i32_val (i32_of b)) by (apply (f_equal (fun x => i32_val (fst x))) in H; exact H).
  rewrite !i32_of_val in E. unfold wrap32 in E. rewrite !Z.mod_small in E by lia. lia.
Qed.
Lemma keys_upto_nodup n : (Z.of_nat n <= 2147483648)%Z -> NoDup (keys_upto n).
Proof.
  intros Hn. unfold keys_upto. assert (H : forall s m, (Z.of_nat (s + m) <= 2147483648)%Z -> NoDup (map (fun i => p1 (Z.of_nat i)) (seq s m))).
  { intros s m; revert s; induction m as [|m IH]; intros s Hs; cbn [seq map]; [constructor|]. constructor; [|apply IH; lia].
    intros Hin. apply in_map_iff in Hin as (j & E & Hj). apply in_seq in Hj. apply p1_inj in E; lia. }
  apply H. lia.
Qed.

Example C24_everywhere_hypotheses :
  bounds_laws (bops P1) (box_incl i32_ops) /\ lookup_laws P1 (self_borrow P1) (box_incl i32_ops) any_key /\
  key_eq_laws (key_eq P1) /\ 2 <= max_children (cfg_of 3 1) /\ min_children (cfg_of 3 1) = 1 /\
  NoDup (keys_upto 10) /\ (forall k k', In k (keys_upto 10) -> In k' (keys_upto 10) -> key_eq P1 k k' = true -> k = k') /\
  max_children (cfg_of 3 1) * max_children (cfg_of 3 1) < length (keys_upto 10).
Proof.
  split; [exact P1_bounds|]. split; [exact P1_lookup|]. split; [exact P1_keys|]. cbn [max_children min_children cfg_of].
  split; [lia|]. split; [reflexivity|]. split; [apply keys_upto_nodup; lia|]. split; [intros k k' _ _; apply P1_key_eq|].
  unfold keys_upto. rewrite map_length, seq_length. lia.
Qed.

(** For the crate's one-dimensional [i32] points the panicking configurations are exactly those with
    [max_children < 2] or [min_children = 1]. *)
Theorem C23_supported_exact :
  forall (cfg : config), (Z.of_nat (max_children cfg) <= 40000)%Z ->
  ((forall os : list (op (svec i32 1) nat), run P1 cfg (rtree_new P1) os <> Panic) <-> supported cfg).
Proof.
  intros cfg Hmax. split.
  - intros H. destruct (Nat.le_gt_cases 2 (max_children cfg)) as [H2|H2].
    + split; [exact H2|]. intros H1. exfalso.
      destruct (min1_panics P1 cfg (box_incl i32_ops) H2 H1 P1_bounds P1_lookup P1_keys
        (keys_upto (S (max_children cfg * max_children cfg))) 0) as [os E].
      * split; [apply keys_upto_nodup; nia|]. intros k k' _ _. apply P1_key_eq.
      * unfold keys_upto. rewrite map_length, seq_length. lia.
      * exact (H os E).
    + exfalso. apply (H [OInsert (p1 0) 0; OInsert (p1 0) 0]). apply tiny_panics. lia.
  - intros Hs os E. destruct (run_no_panic P1 cfg os Hs) as [r E']. congruence.
Qed.
Print Assumptions C23_supported_exact.

(** What holds for [min_children = 1]: no panic as long as nothing is removed. *)
Theorem C24_min1_grow_partial :
  forall (B K V : Type) (P : Params B K) (cfg : config) (os : list (op K V)),
  2 <= max_children cfg -> min_children cfg = 1 -> (forall k, ~ In (ORemove k) os) ->
  exists xs (t : rtree B K V), run P cfg (rtree_new P) os = Ok (xs, t).
Proof. intros * H1 _ H2. destruct (run_no_panic_grow P cfg os H1 H2) as [[xs t] E]. eauto. Qed.
Print Assumptions C24_min1_grow_partial.

(** ** C25 node storage is never read as the wrong kind *)
Theorem C25_no_ub_history :
  forall (B K V : Type) (P : Params B K) (cfg : config) (os : list (op K V)),
  run P cfg (rtree_new P : rtree B K V) os <> UB.
Proof. intros *. exact (proj1 (run_no_ub P cfg os)). Qed.
Print Assumptions C25_no_ub_history.

Theorem C25_no_ub_calls :
  forall (B K V Q : Type) (P : Params B K) (cfg : config) (BR : Borrowed B K Q) (t : rtree B K V) (q : Q) (o : op K V),
  reachable P cfg any_key t ->
  step P cfg t o <> UB /\ rtree_remove P cfg BR t q <> UB
  /\ rtree_get P BR t q <> UB /\ rtree_get_mut P BR t q <> UB /\ rtree_drop t <> UB.
Proof.
  intros * Hr. split; [apply (step_no_ub P cfg any_key t o Hr), ok_any|].
  split; [apply (remove_no_ub P cfg any_key t Q BR q Hr)|].
  destruct (get_safe P cfg any_key t Q BR q Hr) as [? ->]. destruct (get_mut_safe P cfg any_key t Q BR q Hr) as [? ->].
  destruct (drop_spec P cfg any_key t Hr) as (? & -> & _). repeat split; discriminate.
Qed.
Print Assumptions C25_no_ub_calls.

Example C25_example : reachable PP (cfg_of 4 2) any_key sample /\ fst sample = 2
  /\ is_panic (run P1 (cfg_of 2 1) (rtree_new P1) C24_ops) = true.
Proof. split; [exact sample_reachable|]. split; [exact (proj1 sample_height)|]. vm_compute. reflexivity. Qed.

(** ** C26 clone is an equal, independent tree *)
Theorem C26_clone :
  forall (B K V : Type) (P : Params B K) (cfg : config) (t : rtree B K V),
  reachable P cfg any_key t -> rtree_clone cfg t = Ok t.
Proof. intros * Hr. exact (clone_spec P cfg any_key t Hr). Qed.
Print Assumptions C26_clone.

Example C26_example : reachable PP (cfg_of 4 2) any_key sample /\ length (contents sample) = 22.
Proof. split; [exact sample_reachable|exact (proj2 sample_height)]. Qed.

(** ** C40 every inserted key can be found again: false for boxes with min > max *)
Definition C40_ops : list (op (saabb i32 1) nat) :=
  [OInsert (ibox 1 [0%Z] [1%Z]) 1; OInsert (ibox 1 [90%Z] [91%Z]) 2; OInsert (ibox 1 [5%Z] [3%Z]) 3].
Theorem C40_find_again_refuted :
  exists (t : rtree (saabb i32 1) (saabb i32 1) nat) (k : saabb i32 1),
  reachable PB1 (cfg_of 2 1) any_key t /\ (exists v, In (k, v) (contents t))
  /\ rtree_get PB1 (self_borrow PB1) t k = Ok None.
Proof.
  exists (final PB1 (cfg_of 2 1) C40_ops), (ibox 1 [5%Z] [3%Z]). split; [apply final_reachable_any|]. split.
  - exists 3. apply box_in. vm_compute. reflexivity.
  - vm_compute. reflexivity.
Qed.
Print Assumptions C40_find_again_refuted.

Theorem C40_find_again_partial :
  forall (B K V : Type) (P : Params B K) (cfg : config) (ok : K -> Prop) (incl : B -> B -> Prop)
    (t t' : rtree B K V) (k : K) (v : V),
  bounds_laws (bops P) incl -> lookup_laws P (self_borrow P) incl ok -> key_eq_laws (key_eq P) ->
  reachable P cfg ok t -> ok k -> rtree_insert P cfg t k v = Ok t' ->
  rtree_get P (self_borrow P) t' k <> Ok None.
Proof. intros * BL LL EL Hr Hk E. exact (find_again P cfg ok incl BL LL EL t t' k v Hr Hk E). Qed.
Print Assumptions C40_find_again_partial.

(** ** C41 a split is a partition with exact bounds *)
Definition split_params {B T : Type} (O : BoundsOps B) (VO : VolumeOps B) (bnd : T -> B) : Params B T :=
  {| bops := O; vops := VO; key_bounds := bnd; key_eq := fun _ _ => false |}.

Theorem C41_split_partition :
  forall (B T : Type) (O : BoundsOps B) (VO : VolumeOps B) (bnd : T -> B) (cap min : nat) (values : list T) (ov : T),
  1 <= cap -> length values = cap ->
  exists b1 b2 g1 g2, split (split_params O VO bnd) bnd cap min values ov = Ok (b1, b2, g1, g2)
  /\ Permutation (g1 ++ g2) (ov :: values) /\ 1 <= length g1 <= cap /\ 1 <= length g2 <= cap
  /\ (2 * min <= cap -> min <= length g1 /\ min <= length g2).
Proof. intros * Hc Hl. exact (split_partition O VO bnd cap min values ov Hc Hl). Qed.
Print Assumptions C41_split_partition.

Theorem C41_split_bounds :
  forall (B T : Type) (O : BoundsOps B) (VO : VolumeOps B) (bnd : T -> B) (incl : B -> B -> Prop) (cap min : nat)
    (values : list T) (ov : T) b1 b2 g1 g2,
  bounds_laws O incl -> length values = cap ->
  split (split_params O VO bnd) bnd cap min values ov = Ok (b1, b2, g1, g2) ->
  (forall x, In x g1 -> incl b1 (bnd x)) /\ (forall x, In x g2 -> incl b2 (bnd x)).
Proof. intros * BL Hl E. exact (split_covers O VO bnd incl cap min values ov b1 b2 g1 g2 BL Hl E). Qed.
Print Assumptions C41_split_bounds.

Theorem C41_split_bounds_exact :
  forall (B T : Type) (O : BoundsOps B) (VO : VolumeOps B) (bnd : T -> B) (cap min : nat)
    (values : list T) (ov : T) b1 b2 g1 g2,
  semilattice_laws O -> length values = cap ->
  split (split_params O VO bnd) bnd cap min values ov = Ok (b1, b2, g1, g2) ->
  b1 = b_union_all O (map bnd g1) /\ b2 = b_union_all O (map bnd g2).
Proof. intros * SL Hl E. exact (split_exact O VO bnd cap min values ov b1 b2 g1 g2 SL Hl E). Qed.
Print Assumptions C41_split_bounds_exact.

Example C41_example :
  res_map (fun r => let '(_, _, g1, g2) := r in (map snd g1, map snd g2))
    (split PP (fun kv => point_bounds (fst kv)) 4 2 [(pt 0 0, 1); (pt 9 9, 2); (pt 1 0, 3); (pt 8 9, 4)] (pt 2 2, 5))
  = Ok ([1; 3; 5], [2; 4]).
Proof. vm_compute. reflexivity. Qed.

(** ** C42 insertion descends into a child of least volume increase *)
Theorem C42_select :
  forall (B K : Type) (P : Params B K) (bs : list B) (eb : B),
  volume_laws (vops P) -> bs <> [] ->
  exists i, select P bs eb = Some i /\ least_enlargement P bs eb i.
Proof.
  intros * VL Hne. destruct (select_spec P bs eb Hne) as (i & E & _). exists i. split; [exact E|].
  exact (select_least P VL bs eb i E).
Qed.
Print Assumptions C42_select.

(** ... and the entry goes below that child; the other children are not touched, only redistributed over
    the node and its new sibling [sib] if the node overflows. *)
Theorem C42_insert_descends :
  forall (B K V : Type) (P : Params B K) (cfg : config) (t : rtree B K V) l n k v n' sib,
  volume_laws (vops P) -> reachable P cfg any_key t -> node_at t (S l) n ->
  node_insert P cfg (S l) n (ELeaf (k, v)) = Ok (n', sib) ->
  exists b cs b' cs', n = Node b (CInner cs) /\ n' = Node b' (CInner cs') /\
  exists i c c' new, nth_error cs i = Some c /\ least_enlargement P (map node_bounds cs) (key_bounds P k) i
    /\ length new <= 1 /\ Permutation (entries c' ++ flat_map entries new) ((k, v) :: entries c)
    /\ match sib with
       | None => cs' = set_nth i c' cs ++ new
       | Some s => exists b'' cs'', s = (S l, Node b'' (CInner cs'')) /\ Permutation (cs' ++ cs'') (set_nth i c' cs ++ new)
       end.
Proof. intros * VL Hr Hat E. exact (insert_descends P cfg VL any_key t l n k v n' sib Hr Hat I E). Qed.
Print Assumptions C42_insert_descends.

Example C42_example : volume_laws (vops PZ) /\ reachable PZ (cfg_of 4 2) any_key sample_z
  /\ select PZ (map node_bounds (match snd sample_z with Node _ (CInner cs) => cs | _ => [] end)) (point_bounds (pt 100 100)) = Some 1
  /\ select PZ (map node_bounds (match snd sample_z with Node _ (CInner cs) => cs | _ => [] end)) (point_bounds (pt 0 0)) = Some 0.
Proof. split; [exact (cmp_laws_volume_laws (vops PZ) z_cmp_laws)|]. split; [apply final_reachable_any|]. split; vm_compute; reflexivity. Qed.

(** ** C44 split seeds are the pair of greatest joint volume: false in two dimensions *)
Theorem C44_seeds_refuted :
  exists (values : list (svec i32 2)) (ov x y z : svec i32 2),
  In x values /\ In y values /\ In z values /\
  (* the seeds are x (left at index 0) and y ... *)
  res_map (fun r => (coords (hd ov (fst r)), coords (snd r))) (seed_split_groups PP point_bounds values ov)
    = Ok (coords x, coords y) /\
  (* ... but z and the overflowing value span a greater volume *)
  n64_cmp (vops PP) (volume (vops PP) (box_union i32_ops (point_bounds x) (point_bounds y)))
    (volume (vops PP) (box_union i32_ops (point_bounds z) (point_bounds ov))) = Lt.
Proof.
  exists [pt 0 0; pt 4 10], (pt 10 0), (pt 0 0), (pt 4 10), (pt 4 10).
  split; [now left|]. split; [right; now left|]. split; [right; now left|]. split; vm_compute; reflexivity.
Qed.
Print Assumptions C44_seeds_refuted.

(** What holds: the seeds maximise, over all pairs, the volume of the union of the pair *and the
    overflowing value* ([pair_measure]; index [length values] is the overflowing value). *)
Theorem C44_seeds_partial :
  forall (B K T : Type) (P : Params B K) (bnd : T -> B) (values : list T) (ov : T) i1 i2,
  volume_laws (vops P) -> (forall b, n64_cmp (vops P) (n64_neg_inf (vops P)) (volume (vops P) b) = Lt) ->
  worst_combination P bnd values ov = Ok (i1, i2) ->
  exists m, pair_measure P bnd values ov i1 i2 = Some m
  /\ forall i j m', i < j -> pair_measure P bnd values ov i j = Some m' -> n64_cmp (vops P) m' m <> Gt.
Proof. intros * VL Hinf E. exact (worst_combination_max P bnd VL values ov i1 i2 Hinf E). Qed.
Print Assumptions C44_seeds_partial.

Example C44_example : volume_laws (vops PZ)
  /\ (forall b, n64_cmp (vops PZ) (n64_neg_inf (vops PZ)) (volume (vops PZ) b) = Lt)
  /\ worst_combination PZ point_bounds [pt 0 0; pt 4 10; pt 3 3] (pt 10 0) = Ok (0, 1).
Proof. split; [exact (cmp_laws_volume_laws (vops PZ) z_cmp_laws)|]. split; [reflexivity|]. vm_compute. reflexivity. Qed.
