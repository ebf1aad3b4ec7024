(** C81: the distribution of the elements of an overflowing node over its two halves; C44: the seeds, as seen in the result of a split;
    C42, C44, C81 for boxes of integers, whose volumes need no hypotheses. *)
From Verif Require Import HeurProof VolLaws Witness.

(** ** C44: the groups start with the seeds *)

(** The first elements of the two groups are the pair, among the children and the overflowing element, for which the volume of
    the union *with the overflowing element* is greatest. *)
Theorem C44_groups_partial :
  forall (B K T : Type) (P : Params B K) (bnd : T -> B) (cap min : nat) (values : list T) (ov : T) b1 b2 g1 g2,
  volume_laws (vops P) -> (forall b, n64_cmp (vops P) (n64_neg_inf (vops P)) (volume (vops P) b) = Lt) ->
  length values = cap -> split P bnd cap min values ov = Ok (b1, b2, g1, g2) ->
  exists i j s1 s2 m, i < j /\ nth_error (values ++ [ov]) i = Some s1 /\ nth_error (values ++ [ov]) j = Some s2 /\
    hd_error g1 = Some s1 /\ hd_error g2 = Some s2 /\ seed_volume P bnd values ov i j = Some m /\
    forall i' j' m', i' < j' -> seed_volume P bnd values ov i' j' = Some m' -> n64_cmp (vops P) m' m <> Gt.
Proof.
  intros * VL Hinf Hlen E. eapply (split_seeds P bnd VL cap min (fun n => n - 1 = min)); [left; tauto|exact Hlen|exact Hinf|exact E].
Qed.
Print Assumptions C44_groups_partial.

Theorem C44_i32_partial :
  forall (D : nat) (K T : Type) (P : Params (saabb i32 (S D)) K) (bnd : T -> saabb i32 (S D)) (cap min : nat) (values : list T) (ov : T) b1 b2 g1 g2,
  S D <= 33 -> vops P = i32_volume_ops (S D) ->
  length values = cap -> split P bnd cap min values ov = Ok (b1, b2, g1, g2) ->
  exists i j s1 s2 m, i < j /\ nth_error (values ++ [ov]) i = Some s1 /\ nth_error (values ++ [ov]) j = Some s2 /\
    hd_error g1 = Some s1 /\ hd_error g2 = Some s2 /\ seed_volume P bnd values ov i j = Some m /\
    forall i' j' m', i' < j' -> seed_volume P bnd values ov i' j' = Some m' -> n64_cmp (vops P) m' m <> Gt.
Proof.
  intros * HD E. apply C44_groups_partial.
  - rewrite E. now apply i32_volume_laws.
  - rewrite E. intros b. now apply i32_neg_inf.
Qed.
Print Assumptions C44_i32_partial.

Theorem C44_unsigned_partial :
  forall (w D : nat) (K T : Type) (P : Params (saabb (uint w) (S D)) K) (bnd : T -> saabb (uint w) (S D)) (cap min : nat) (values : list T) (ov : T) b1 b2 g1 g2,
  w <= 32 -> S D <= 31 -> vops P = uint_volume_ops w (S D) ->
  length values = cap -> split P bnd cap min values ov = Ok (b1, b2, g1, g2) ->
  exists i j s1 s2 m, i < j /\ nth_error (values ++ [ov]) i = Some s1 /\ nth_error (values ++ [ov]) j = Some s2 /\
    hd_error g1 = Some s1 /\ hd_error g2 = Some s2 /\ seed_volume P bnd values ov i j = Some m /\
    forall i' j' m', i' < j' -> seed_volume P bnd values ov i' j' = Some m' -> n64_cmp (vops P) m' m <> Gt.
Proof.
  intros * Hw HD E. apply C44_groups_partial.
  - rewrite E. now apply uint_volume_laws.
  - rewrite E. intros b. now apply uint_neg_inf.
Qed.
Print Assumptions C44_unsigned_partial.

(** ** C42 for integers *)

Theorem C42_i32 :
  forall (D : nat) (K : Type) (P : Params (saabb i32 (S D)) K) (bs : list (saabb i32 (S D))) (eb : saabb i32 (S D)),
  S D <= 33 -> vops P = i32_volume_ops (S D) -> bs <> [] ->
  exists i, select P bs eb = Some i /\ least_enlargement P bs eb i.
Proof.
  intros * HD E Hne. assert (VL : volume_laws (vops P)) by (rewrite E; now apply i32_volume_laws).
  destruct (select_spec P bs eb Hne) as (i & Es & _). exists i. split; [exact Es|]. exact (select_least P VL bs eb i Es).
Qed.
Print Assumptions C42_i32.

Theorem C42_unsigned :
  forall (w D : nat) (K : Type) (P : Params (saabb (uint w) (S D)) K) (bs : list (saabb (uint w) (S D))) (eb : saabb (uint w) (S D)),
  w <= 32 -> S D <= 31 -> vops P = uint_volume_ops w (S D) -> bs <> [] ->
  exists i, select P bs eb = Some i /\ least_enlargement P bs eb i.
Proof.
  intros * Hw HD E Hne. assert (VL : volume_laws (vops P)) by (rewrite E; now apply uint_volume_laws).
  destruct (select_spec P bs eb Hne) as (i & Es & _). exists i. split; [exact Es|]. exact (select_least P VL bs eb i Es).
Qed.
Print Assumptions C42_unsigned.

(** ** C81: false *)

(** Points on a line, at most 4 children, at least 2: of the points 0, 100, 99, 98, 97 the first group gets 0 and two of those
    near 100, one more than it needs. *)
Definition C81_points : list (svec i32 1) := [p1 0; p1 100; p1 99; p1 98].
Definition C81_check (o : res (saabb i32 1 * saabb i32 1 * list (svec i32 1) * list (svec i32 1))) : bool :=
  match o with
  | Ok (_, _, [x; _; _], [y; _]) => ((i32_val (fst x) =? 0) && (i32_val (fst y) =? 100))%Z
  | _ => false
  end.
Lemma p1_unique (x : svec i32 1) z : i32_val (fst x) = i32_val (fst (p1 z)) -> x = p1 z.
Proof. destruct x as [a []]. unfold p1. cbn [ivec fst]. intros H. f_equal. now apply i32_eq. Qed.
Lemma C81_check_spec b1 b2 g1 g2 : C81_check (Ok (b1, b2, g1, g2)) = true -> exists x y z, g1 = [p1 0; x; y] /\ g2 = [p1 100; z].
Proof.
  destruct g1 as [|s1 [|x [|y [|]]]]; try discriminate. destruct g2 as [|s2 [|z [|]]]; try discriminate. cbn [C81_check]. intros H.
  apply andb_true_iff in H. destruct H as [H1 H2]. apply Z.eqb_eq in H1, H2.
  exists x, y, z. rewrite (p1_unique s1 0) by exact H1. rewrite (p1_unique s2 100) by exact H2. now split.
Qed.

Theorem C81_refuted :
  ~ (forall values ov r, length values = 4 -> split P1 point_bounds 4 2 values ov = Ok r ->
     split_result P1 point_bounds (fun n => n <= 2) (fun n => n <= 2) values ov r).
Proof.
  intros H. specialize (H C81_points (p1 97)).
  assert (Hc : C81_check (split P1 point_bounds 4 2 C81_points (p1 97)) = true) by (vm_compute; reflexivity).
  destruct (split P1 point_bounds 4 2 C81_points (p1 97)) as [[[[b1 b2] g1] g2]| | |]; try discriminate Hc.
  specialize (H _ eq_refl eq_refl). apply C81_check_spec in Hc. destruct Hc as (x & y & z & -> & ->).
  destruct H as (s1 & s2 & rest & Hp & Hd).
  assert (Hh := distributes_heads _ _ _ _ _ _ _ _ _ _ Hd ltac:(discriminate) ltac:(discriminate)). cbn [fst snd hd_error] in Hh.
  destruct Hh as [E1 E2]. injection E1 as <-. injection E2 as <-.
  set (L := [p1 99; p1 98; p1 97]).
  assert (HpL : Permutation L rest).
  { apply (Permutation_cons_inv (a := p1 100)), (Permutation_cons_inv (a := p1 0)).
    rewrite <- Hp. unfold C81_points, L. perm. }
  clear Hp. assert (Hin : forall a, In a rest -> In a L) by (intros a; apply Permutation_in; now symmetry).
  assert (Hlen : length rest = 3) by (rewrite <- (Permutation_length HpL); reflexivity).
  (* a group only grows *)
  assert (Hgrow : forall n1 n2 g1 c1 g2 c2 l r, distributes P1 point_bounds n1 n2 g1 c1 g2 c2 l r -> length g2 <= length (snd r)).
  { clear. induction 1; cbn [snd]; try lia. rewrite app_length in IHdistributes. lia. }
  inversion Hd as [|? ? ? ? ? x1 x2 rest' ? [I1 _] [I2 _] Hc Hp' Hd'|? ? ? ? ? x1 x2 rest' ? [I1 _] [I2 _] Hc Hp' Hd']; subst.
  - exfalso. apply Hin in I1, I2. rewrite Hlen in Hc. cbn [length] in Hc.
    assert (G : match n64_cmp (vops P1) (enlargement P1 point_bounds (point_bounds (p1 0)) x1) (enlargement P1 point_bounds (point_bounds (p1 100)) x2) with Lt => False | _ => True end).
    { destruct I1 as [<-|[<-|[<-|[]]]], I2 as [<-|[<-|[<-|[]]]]; vm_compute; exact I. }
    destruct (n64_cmp _ _ _); try lia; exact G.
  - clear Hd Hc. apply Hin in I2. assert (Hin' : forall a, In a rest' -> In a L).
    { intros a Ha. apply Hin. apply Permutation_in with (x2 :: rest'); [now symmetry|now right]. }
    assert (Hlen' : length rest' = 2) by (assert (Hl := Permutation_length Hp'); cbn [length] in Hl; congruence).
    inversion Hd' as [|? ? ? ? ? y1 y2 rest2 ? [J1 _] [J2 _] Hc _ Hd2|? ? ? ? ? y1 y2 rest2 ? [J1 _] [J2 _] Hc _ Hd2]; subst.
    + exfalso. apply Hin' in J1, J2. rewrite Hlen' in Hc. cbn [length app] in Hc.
      match type of Hc with context [n64_cmp ?o ?u ?v] => assert (G : match n64_cmp o u v with Lt => False | _ => True end) end.
      { clear - I2 J1 J2. destruct I2 as [<-|[<-|[<-|[]]]], J1 as [<-|[<-|[<-|[]]]], J2 as [<-|[<-|[<-|[]]]]; vm_compute; exact I. }
      destruct (n64_cmp _ _ _); try lia; exact G.
    + apply Hgrow in Hd2. rewrite !app_length in Hd2. cbn [length snd] in Hd2. lia.
Qed.
Print Assumptions C81_refuted.

(** ** What holds: the first group keeps one more than it needs *)

(** Every minimum: the first group claims all that remain when with them it has exactly one element more than the minimum. *)
Theorem C81_rule_partial :
  forall (B K T : Type) (P : Params B K) (bnd : T -> B) (cap min : nat) (values : list T) (ov : T) r,
  volume_laws (vops P) -> length values = cap -> split P bnd cap min values ov = Ok r ->
  split_result P bnd (fun n => n - 1 = min) (fun n => n <= min) values ov r.
Proof. intros * VL Hlen E. apply (split_distributes P bnd VL cap min); [left; tauto|exact Hlen|exact E]. Qed.
Print Assumptions C81_rule_partial.

(** A minimum of at most half the maximum: the rule of C81, except that the first group claims [min + 1]. *)
Theorem C81_partial :
  forall (B K T : Type) (P : Params B K) (bnd : T -> B) (cap min : nat) (values : list T) (ov : T) r,
  volume_laws (vops P) -> 2 * min <= cap -> length values = cap -> split P bnd cap min values ov = Ok r ->
  split_result P bnd (fun n => n <= min + 1) (fun n => n <= min) values ov r.
Proof. intros * VL Hc Hlen E. apply (split_distributes P bnd VL cap min); [right; split; [exact Hc|tauto]|exact Hlen|exact E]. Qed.
Print Assumptions C81_partial.

Theorem C81_i32_partial :
  forall (D : nat) (K T : Type) (P : Params (saabb i32 (S D)) K) (bnd : T -> saabb i32 (S D)) (cap min : nat) (values : list T) (ov : T) r,
  S D <= 33 -> vops P = i32_volume_ops (S D) -> 2 * min <= cap -> length values = cap -> split P bnd cap min values ov = Ok r ->
  split_result P bnd (fun n => n <= min + 1) (fun n => n <= min) values ov r.
Proof. intros * HD E. apply C81_partial. rewrite E. now apply i32_volume_laws. Qed.
Print Assumptions C81_i32_partial.

Theorem C81_unsigned_partial :
  forall (w D : nat) (K T : Type) (P : Params (saabb (uint w) (S D)) K) (bnd : T -> saabb (uint w) (S D)) (cap min : nat) (values : list T) (ov : T) r,
  w <= 32 -> S D <= 31 -> vops P = uint_volume_ops w (S D) -> 2 * min <= cap -> length values = cap -> split P bnd cap min values ov = Ok r ->
  split_result P bnd (fun n => n <= min + 1) (fun n => n <= min) values ov r.
Proof. intros * Hw HD E. apply C81_partial. rewrite E. now apply uint_volume_laws. Qed.
Print Assumptions C81_unsigned_partial.

(** In a tree: inserting an entry into a full leaf, or a child into a full inner node, leaves the two groups as the node and its new sibling. *)
Theorem C81_leaf_partial :
  forall (B K V : Type) (P : Params B K) (cfg : config) b (es : list (K * V)) k v n' sib,
  volume_laws (vops P) -> 2 * min_children cfg <= max_children cfg -> length es = max_children cfg ->
  node_insert P cfg 0 (Node b (CLeaf es)) (ELeaf (k, v)) = Ok (n', sib) ->
  exists b1 b2 g1 g2, n' = Node b1 (CLeaf g1) /\ sib = Some (0, Node b2 (CLeaf g2)) /\
  split_result P (fun e : K * V => key_bounds P (fst e)) (fun n => n <= min_children cfg + 1) (fun n => n <= min_children cfg) es (k, v) (b1, b2, g1, g2).
Proof.
  intros * VL Hc Hlen E. cbn [node_insert target_level Nat.eqb negb] in E. unfold self_insert in E. cbn [children_at read_leaf node_children bind] in E.
  change (0 =? 0) with true in E. cbn [negb] in E. unfold try_push in E. rewrite Hlen, Nat.eqb_refl in E. match type of E with context [@split _ _ _ ?T ?f ?a ?m es (k, v)] => destruct (@split B K P T f a m es (k, v)) as [[[[b1 b2] g1] g2]| | |] eqn:Es end; try discriminate.
  cbn [bind] in E. injection E as <- <-. exists b1, b2, g1, g2. split; [reflexivity|]. split; [reflexivity|].
  eapply C81_partial; eassumption.
Qed.
Print Assumptions C81_leaf_partial.

Theorem C81_inner_partial :
  forall (B K V : Type) (P : Params B K) (cfg : config) l b (cs : list (node B K V)) c n' sib,
  volume_laws (vops P) -> 2 * min_children cfg <= max_children cfg -> length cs = max_children cfg ->
  self_insert P cfg (S l) (Node b (CInner cs)) (EInner (l, c)) = Ok (n', sib) ->
  exists b1 b2 g1 g2, n' = Node b1 (CInner g1) /\ sib = Some (S l, Node b2 (CInner g2)) /\
  split_result P node_bounds (fun n => n <= min_children cfg + 1) (fun n => n <= min_children cfg) cs c (b1, b2, g1, g2).
Proof.
  intros * VL Hc Hlen E. unfold self_insert in E. cbn [children_at read_inner node_children bind Nat.sub] in E. rewrite Nat.sub_0_r, Nat.eqb_refl in E.
  cbn [negb] in E. unfold try_push in E. rewrite Hlen, Nat.eqb_refl in E.
  match type of E with context [@split _ _ _ ?T ?f ?a ?m cs c] => destruct (@split B K P T f a m cs c) as [[[[b1 b2] g1] g2]| | |] eqn:Es end; try discriminate.
  cbn [bind] in E. injection E as <- <-. exists b1, b2, g1, g2. split; [reflexivity|]. split; [reflexivity|].
  eapply C81_partial; eassumption.
Qed.
Print Assumptions C81_inner_partial.

(** The hypotheses are met: points on a line, split as above. *)
Example C81_example :
  vops P1 = i32_volume_ops 1 /\ volume_laws (vops P1) /\
  is_ok (split P1 point_bounds 4 2 C81_points (p1 97)) = true /\ length C81_points = 4 /\
  least_of P1 point_bounds (point_bounds (p1 0)) [p1 99; p1 98; p1 97] (p1 97) /\
  least_of P1 point_bounds (point_bounds (p1 100)) [p1 99; p1 98; p1 97] (p1 99).
Proof.
  split; [reflexivity|]. split; [exact (i32_volume_laws 0 ltac:(lia))|]. split; [vm_compute; reflexivity|]. split; [reflexivity|].
  assert (G : forall a b, n64_cmp (vops P1) a b <> Gt <-> match n64_cmp_f a b with Gt => False | _ => True end).
  { intros a b. change (n64_cmp (vops P1) a b) with (n64_cmp_f a b). destruct (n64_cmp_f a b); intuition congruence. }
  split; (split; [cbn [In]; auto|]); intros y Hy; apply G; destruct Hy as [<-|[<-|[<-|[]]]]; vm_compute; exact I.
Qed.
