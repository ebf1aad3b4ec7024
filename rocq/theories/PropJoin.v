(** Properties C17, C18: joins.  Vocabulary: Spec.v, IterSpec.v. *)
From Verif Require Import Witness JoinProof LeftJoinProof.

(** ** C17 join yields exactly the matching pairs *)
Theorem C17_join_exact :
  forall (B0 B1 K0 K1 V0 V1 Q0 Q1 : Type) (P0 : Params B0 K0) (P1 : Params B1 K1) (cfg0 cfg1 : config)
    (ok0 : K0 -> Prop) (ok1 : K1 -> Prop) (incl0 : B0 -> B0 -> Prop) (incl1 : B1 -> B1 -> Prop)
    (brw0 : K0 -> Q0) (brw1 : K1 -> Q1) (f : JoinFilter B0 B1 Q0 Q1) (a : rtree B0 K0 V0) (b : rtree B1 K1 V1),
  bounds_laws (bops P0) incl0 -> bounds_laws (bops P1) incl1 ->
  join_filter_lawful P0 P1 brw0 brw1 incl0 incl1 ok0 ok1 (jtest_bounds f) (jtest_key f) ->
  reachable P0 cfg0 ok0 a -> reachable P1 cfg1 ok1 b ->
  exists s l, rtree_join a b f = Ok s /\ iterates (join_next brw0 brw1 f) s l /\
    Permutation l (filter (fun p => jtest_key f (brw0 (fst (fst p))) (brw1 (fst (snd p))))
                     (list_prod (contents a) (contents b))).
Proof.
  intros * L0 L1 HF Ha Hb. exact (join_exact brw0 brw1 f P0 P1 cfg0 cfg1 ok0 ok1 incl0 incl1 HF a b L0 L1 Ha Hb).
Qed.
Print Assumptions C17_join_exact.

(** For any filter, lawful or not: it ends, and nothing is made up or yielded twice. *)
Theorem C17_join_any_filter :
  forall (B0 B1 K0 K1 V0 V1 Q0 Q1 : Type) (P0 : Params B0 K0) (P1 : Params B1 K1) (cfg0 cfg1 : config)
    (brw0 : K0 -> Q0) (brw1 : K1 -> Q1) (f : JoinFilter B0 B1 Q0 Q1) (a : rtree B0 K0 V0) (b : rtree B1 K1 V1),
  reachable P0 cfg0 any_key a -> reachable P1 cfg1 any_key b ->
  exists s l, rtree_join a b f = Ok s /\ iterates (join_next brw0 brw1 f) s l /\
    multi_part l (filter (fun p => jtest_key f (brw0 (fst (fst p))) (brw1 (fst (snd p))))
                    (list_prod (contents a) (contents b))).
Proof. intros * Ha Hb. exact (join_any brw0 brw1 f P0 P1 cfg0 cfg1 a b Ha Hb). Qed.
Print Assumptions C17_join_any_filter.

(** Points of [sample] (height 2) lying in boxes of [box_sample] (height 1), and the reverse. *)
Definition pt_in_box : JoinFilter (saabb i32 2) (saabb i32 2) (svec i32 2) (saabb i32 2) :=
  {| jtest_bounds := box_intersects_box i32_ops; jtest_key := fun p b => box_intersects_point i32_ops b p |}.
Definition box_has_pt : JoinFilter (saabb i32 2) (saabb i32 2) (saabb i32 2) (svec i32 2) :=
  {| jtest_bounds := box_intersects_box i32_ops; jtest_key := box_intersects_point i32_ops |}.

Lemma pt_in_box_lawful : join_filter_lawful PP PB (fun k => k) (fun k => k) (box_incl i32_ops) (box_incl i32_ops)
  any_key (valid_box i32_ops) (jtest_bounds pt_in_box) (jtest_key pt_in_box).
Proof.
  intros b0 b1 k0 k1 _ _ Hk [H1 H2] [H3 H4]. cbn in *. apply in_box_iff in Hk as [G1 G2]. apply (intersects_box_iff i32_ops).
  split; eauto using (vec_le_trans i32_ops i32_laws).
Qed.
Lemma box_has_pt_lawful : join_filter_lawful PB PP (fun k => k) (fun k => k) (box_incl i32_ops) (box_incl i32_ops)
  (valid_box i32_ops) any_key (jtest_bounds box_has_pt) (jtest_key box_has_pt).
Proof.
  intros b0 b1 k0 k1 _ _ Hk [H1 H2] [H3 H4]. cbn in *. apply in_box_iff in Hk as [G1 G2]. apply (intersects_box_iff i32_ops).
  split; eauto using (vec_le_trans i32_ops i32_laws).
Qed.

(** The value pairs among the first [n] answers. *)
Definition run_join {S A C V W} (next : S -> res (option ((A * V) * (C * W)) * S)) (start : res S) (n : nat) : res (list (option (V * W))) :=
  let* s := start in res_map (map (option_map (fun p => (snd (fst p), snd (snd p))))) (calls next n s).

Example C17_example :
  bounds_laws (bops PP) (box_incl i32_ops) /\ bounds_laws (bops PB) (box_incl i32_ops) /\
  reachable PP (cfg_of 4 2) any_key sample /\ reachable PB (cfg_of 4 2) (valid_box i32_ops) box_sample /\
  fst sample = 2 /\ fst box_sample = 1 /\
  run_join (join_next (fun k => k) (fun k => k) pt_in_box) (rtree_join sample box_sample pt_in_box) 24 =
    Ok (map Some [(1, 1); (14, 1); (1, 6); (14, 6); (1, 5); (14, 5); (9, 5); (5, 5); (11, 5); (6, 5); (17, 5);
                  (10, 5); (17, 2); (10, 2); (2, 5); (33, 5); (15, 5); (2, 2); (12, 5); (8, 5)] ++ repeat None 4) /\
  res_map (fun l => length (filter (fun o => match o with Some _ => true | None => false end) l))
    (run_join (join_next (fun k => k) (fun k => k) box_has_pt) (rtree_join box_sample sample box_has_pt) 30) = Ok 20.
Proof.
  split; [exact PP_bounds|]. split; [exact PB_bounds|]. split; [exact sample_reachable|]. split; [exact box_sample_reachable|].
  repeat split; vm_compute; reflexivity.
Qed.

(** ** C18 left join yields every left entry with an iterator over exactly its matches *)
Theorem C18_left_join_exact :
  forall (B0 B1 K0 K1 V0 V1 Q0 Q1 : Type) (P0 : Params B0 K0) (P1 : Params B1 K1) (cfg0 cfg1 : config)
    (ok0 : K0 -> Prop) (ok1 : K1 -> Prop) (incl0 : B0 -> B0 -> Prop) (incl1 : B1 -> B1 -> Prop)
    (brw0 : K0 -> Q0) (brw1 : K1 -> Q1) (qb0 : Q0 -> B0) (f : JoinFilter B0 B1 Q0 Q1)
    (a : rtree B0 K0 V0) (b : rtree B1 K1 V1),
  bounds_laws (bops P0) incl0 -> bounds_laws (bops P1) incl1 ->
  join_filter_lawful P0 P1 brw0 brw1 incl0 incl1 ok0 ok1 (jtest_bounds f) (jtest_key f) ->
  (* the borrowed form of a key has the bounds of the key *)
  (forall k, qb0 (brw0 k) = key_bounds P0 k) ->
  reachable P0 cfg0 ok0 a -> reachable P1 cfg1 ok1 b ->
  exists s l, rtree_left_join a b = Ok s /\ iterates (left_join_next f) s l /\
    map fst l = contents a /\
    forall e sr, In (e, sr) l ->
      iterates (iter_next_with brw1 (joining_filter qb0 f (brw0 (fst e)))) sr
        (filter (fun kv => jtest_key f (brw0 (fst e)) (brw1 (fst kv))) (contents b)).
Proof.
  intros * L0 L1 HF Hqb Ha Hb.
  destruct (left_join_exact brw0 brw1 qb0 f P0 P1 cfg0 cfg1 ok0 ok1 incl0 incl1 HF Hqb a b L0 L1 Ha Hb) as (s & l & H1 & H2 & H3 & H4).
  exists s, l. repeat (split; [assumption|]). intros e sr Hin. rewrite Forall_forall in H4. exact (H4 _ Hin).
Qed.
Print Assumptions C18_left_join_exact.

(** For any filter, lawful or not: every left entry still comes exactly once, and the right iterator makes
    nothing up, yields nothing twice and ends. *)
Theorem C18_left_join_any_filter :
  forall (B0 B1 K0 K1 V0 V1 Q0 Q1 : Type) (P0 : Params B0 K0) (P1 : Params B1 K1) (cfg0 cfg1 : config)
    (brw0 : K0 -> Q0) (brw1 : K1 -> Q1) (qb0 : Q0 -> B0) (f : JoinFilter B0 B1 Q0 Q1)
    (a : rtree B0 K0 V0) (b : rtree B1 K1 V1),
  reachable P0 cfg0 any_key a -> reachable P1 cfg1 any_key b ->
  exists s l, rtree_left_join a b = Ok s /\ iterates (left_join_next f) s l /\
    map fst l = contents a /\
    forall e sr, In (e, sr) l ->
      exists m, iterates (iter_next_with brw1 (joining_filter qb0 f (brw0 (fst e)))) sr m /\
        sublist m (filter (fun kv => jtest_key f (brw0 (fst e)) (brw1 (fst kv))) (contents b)).
Proof.
  intros * Ha Hb.
  destruct (left_join_any brw0 brw1 qb0 f P0 P1 cfg0 cfg1 a b Ha Hb) as (s & l & H1 & H2 & H3 & H4).
  exists s, l. repeat (split; [assumption|]). intros e sr Hin. rewrite Forall_forall in H4. exact (H4 _ Hin).
Qed.
Print Assumptions C18_left_join_any_filter.

(** The values of the left entries, each with the values of its matches. *)
Fixpoint run_left {B K W Q S A V} (brw : K -> Q) (g : A -> SpatialFilter B Q)
    (next : S -> res (option ((A * V) * @tree_stack B K W) * S)) (n : nat) (s : S) : res (list (option (V * list (option W)))) :=
  match n with
  | 0 => Ok []
  | S n =>
    let* (o, s) := next s in
    let* x := match o with
              | None => Ok None
              | Some (e, sr) => let* ws := calls (iter_next_with brw (g (fst e))) 8 sr in
                                Ok (Some (snd e, filter (fun o => match o with Some _ => true | None => false end)
                                                   (map (option_map snd) ws)))
              end in
    let* xs := run_left brw g next n s in Ok (x :: xs)
  end.

Example C18_example :
  (forall k, key_bounds PP k = key_bounds PP k) /\
  join_filter_lawful PP PB (fun k => k) (fun k => k) (box_incl i32_ops) (box_incl i32_ops)
    any_key (valid_box i32_ops) (jtest_bounds pt_in_box) (jtest_key pt_in_box) /\
  res_map (map (option_map (fun p => (fst p, length (snd p)))))
    (let* s := rtree_left_join sample box_sample in
     run_left (fun k => k) (joining_filter (key_bounds PP) pt_in_box) (left_join_next pt_in_box) 23 s)
  = Ok (map Some [(1, 3); (14, 3); (9, 1); (5, 1); (24, 0); (11, 1); (6, 1); (23, 0); (22, 0); (27, 0); (29, 0);
                  (17, 2); (10, 2); (21, 0); (2, 2); (33, 1); (15, 1); (25, 0); (26, 0); (28, 0); (12, 1); (8, 1)] ++ [None]).
Proof.
  split; [reflexivity|]. split; [exact pt_in_box_lawful|]. vm_compute. reflexivity.
Qed.
