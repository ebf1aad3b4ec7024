(** Concrete trees and histories: used to show that hypotheses are satisfiable, and as counterexamples. *)
From Verif Require Export Main Heuristics GeomProof IterSpec.

Definition cfg_of (mx mn : nat) : config := {| max_children := mx; min_children := mn |}.
Definition pt (x y : Z) : svec i32 2 := ivec 2 [x; y].
Definition p1 (x : Z) : svec i32 1 := ivec 1 [x].
Definition PP := i32_point_params 2.
Definition P1 := i32_point_params 1.
Definition PB := i32_box_params 2.
Definition PB1 := i32_box_params 1.

(** A history with splits at two levels, duplicates, removals with re-insertion, replacement. *)
Definition sample_ops : list (op (svec i32 2) nat) :=
  [ OInsert (pt 0 0) 1; OInsert (pt 9 9) 2; OInsert (pt 1 8) 3; OInsert (pt 7 2) 4; OInsert (pt 3 3) 5;
    OInsert (pt 3 3) 6; OInsert (pt 5 5) 7; OInsert (pt 2 9) 8; OInsert (pt 8 1) 9; OInsert (pt 6 6) 10;
    OInsert (pt 4 4) 11; OInsert (pt 0 9) 12; OInsert (pt 9 0) 13; OInsert (pt 1 1) 14;
    OInsert (pt 20 20) 21; OInsert (pt 21 20) 22; OInsert (pt 22 25) 23; OInsert (pt 30 3) 24; OInsert (pt 31 4) 25;
    OInsert (pt 32 2) 26; OInsert (pt 25 25) 27; OInsert (pt 33 9) 28; OInsert (pt 3 30) 29;
    OInsertUnique (pt 5 5) 17; ORemove (pt 9 0); ORemove (pt 7 2); OInsertUnique (pt 4 5) 15; OSet (pt 1 8) 33 ].
Definition sample : rtree (saabb i32 2) (svec i32 2) nat := final PP (cfg_of 4 2) sample_ops.

Lemma sample_reachable : reachable PP (cfg_of 4 2) any_key sample.
Proof. apply final_reachable_any. Qed.

(** Checking outcomes by computation: only booleans and naturals are compared. *)
Definition is_ok {A} (r : res A) : bool := match r with Ok _ => true | _ => false end.
Definition is_panic {A} (r : res A) : bool := match r with Panic => true | _ => false end.
Lemma is_ok_spec {A} (r : res A) : is_ok r = true -> exists a, r = Ok a.
Proof. destruct r; cbn; try discriminate. eauto. Qed.
Lemma is_panic_spec {A} (r : res A) : is_panic r = true -> r = Panic.
Proof. destruct r; cbn; congruence. Qed.

Lemma sample_ran : is_ok (run PP (cfg_of 4 2) (rtree_new PP) sample_ops) = true.
Proof. vm_compute. reflexivity. Qed.

Lemma sample_height : fst sample = 2 /\ length (contents sample) = 22.
Proof. split; vm_compute; reflexivity. Qed.

(** A tree of boxes. *)
Definition bx (a b c d : Z) : saabb i32 2 := ibox 2 [a; b] [c; d].
Definition box_ops : list (op (saabb i32 2) nat) :=
  [ OInsert (bx 0 0 1 1) 1; OInsert (bx 5 5 9 9) 2; OInsert (bx 1 4 2 8) 3; OInsert (bx 3 2 7 2) 4;
    OInsert (bx 0 0 9 9) 5; OInsert (bx 0 0 1 1) 6; OInsert (bx 5 1 5 1) 7; ORemove (bx 1 4 2 8) ].
Definition box_sample : rtree (saabb i32 2) (saabb i32 2) nat := final PB (cfg_of 4 2) box_ops.

Definition valid_boxb {D} (b : saabb i32 D) : bool := all_le i32_ops (bmin b) (bmax b).
Definition ok_opb {D} (o : op (saabb i32 D) nat) : bool :=
  match op_key o with Some k => valid_boxb k | None => true end.

Lemma ok_opb_spec D (os : list (op (saabb i32 D) nat)) : forallb ok_opb os = true -> Forall (ok_op (valid_box i32_ops)) os.
Proof.
  rewrite forallb_forall, Forall_forall. intros H o Ho. specialize (H o Ho). unfold ok_opb, ok_op in *.
  destruct (op_key o); [|exact I]. now apply all_le_spec.
Qed.

Lemma box_sample_reachable : reachable PB (cfg_of 4 2) (valid_box i32_ops) box_sample.
Proof. apply final_reachable, ok_opb_spec. vm_compute. reflexivity. Qed.

Lemma box_sample_height : fst box_sample = 1 /\ length (contents box_sample) = 6.
Proof. split; vm_compute; reflexivity. Qed.

(** Laws for these trees. *)
Lemma PP_bounds : bounds_laws (bops PP) (box_incl i32_ops).
Proof. apply box_bounds_laws, i32_laws. Qed.
Lemma PP_lookup : lookup_laws PP (self_borrow PP) (box_incl i32_ops) any_key.
Proof. apply point_lookup_laws, i32_laws. Qed.
Lemma PP_semilattice : semilattice_laws (bops PP).
Proof. apply box_semilattice; [apply i32_laws|apply i32_antisym]. Qed.
Lemma PP_keys : key_eq_laws (key_eq PP).
Proof. apply vec_key_eq_laws, i32_laws. Qed.
Lemma PP_key_bounds : forall k k', key_eq PP k' k = true -> key_bounds PP k' = key_bounds PP k.
Proof. intros k k' H. apply (vec_eqb_eq i32_ops i32_laws) in H; [now subst|apply i32_antisym]. Qed.
Lemma PB_bounds : bounds_laws (bops PB) (box_incl i32_ops).
Proof. apply box_bounds_laws, i32_laws. Qed.
Lemma PB_lookup : lookup_laws PB (self_borrow PB) (box_incl i32_ops) (valid_box i32_ops).
Proof. apply box_lookup_laws, i32_laws. Qed.

Lemma supported42 : supported (cfg_of 4 2).
Proof. unfold supported; cbn; lia. Qed.

(** Exact integer volumes with [None] as negative infinity: a totally ordered volume. *)
Definition z_cmp (a b : option Z) : comparison :=
  match a, b with
  | None, None => Eq
  | None, Some _ => Lt
  | Some _, None => Gt
  | Some x, Some y => Z.compare x y
  end.
Definition z_volume_ops (D : nat) : VolumeOps (saabb i32 D) := {|
  N64 := option Z;
  volume := fun b => Some (fold_right Z.mul 1%Z (map (fun p => (i32_val (snd p) - i32_val (fst p))%Z) (vzip (bmin b) (bmax b))));
  n64_sub := fun a b => match a, b with Some x, Some y => Some (x - y)%Z | _, _ => None end;
  n64_cmp := z_cmp;
  n64_neg_inf := None
|}.
Definition PZ : Params (saabb i32 2) (svec i32 2) := point_params i32_ops (z_volume_ops 2).

Lemma z_cmp_laws : cmp_laws z_cmp.
Proof.
  constructor.
  - intros [a|] [b|]; cbn; try reflexivity. apply Z.compare_antisym.
  - intros [a|] [b|] [c|]; cbn; try congruence. rewrite !Z.compare_gt_iff. lia.
Qed.
Definition sample_z : rtree (saabb i32 2) (svec i32 2) nat := final PZ (cfg_of 4 2) sample_ops.

(** A child of the root with at most [m] / exactly [m] children. *)
Definition root_child_with {B K V} (f : nat -> bool) (t : rtree B K V) : bool :=
  match t with
  | (S _, Node _ (CInner cs)) => existsb (fun c => f (fanout c)) cs
  | _ => false
  end.
Lemma root_child_with_spec {B K V} (f : nat -> bool) (t : rtree B K V) : root_child_with f t = true ->
  exists i n, fst t = S i /\ node_at t i n /\ f (fanout n) = true.
Proof.
  destruct t as [[|l] [b [cs|es]]]; cbn; try discriminate. intros H. apply existsb_exists in H as (c & Hin & Hc).
  exists l, c. split; [reflexivity|]. split; [|exact Hc]. eapply (at_child _ l b cs); [apply (at_root (S l, Node b (CInner cs)))|exact Hin].
Qed.

Lemma underfull_child {B K V} (t : rtree B K V) m : root_child_with (fun x => x <=? m) t = true ->
  exists i n, node_at t i n /\ i < fst t /\ fanout n <= m.
Proof.
  intros H. apply root_child_with_spec in H as (i & n & E & H1 & H2). exists i, n. split; [exact H1|].
  split; [lia|]. now apply Nat.leb_le.
Qed.

Lemma sample_inner : exists n, node_at sample 1 n /\ fanout n = 2.
Proof.
  destruct (root_child_with_spec (fun x => x =? 2) sample) as (i & n & E & H1 & H2); [vm_compute; reflexivity|].
  rewrite (proj1 sample_height) in E. injection E as <-. exists n. split; [exact H1|]. now apply Nat.eqb_eq.
Qed.

Lemma box_in {D} (l : list (saabb i32 D * nat)) k v :
  existsb (fun kv => box_eqb i32_ops (fst kv) k && (snd kv =? v)) l = true -> In (k, v) l.
Proof.
  intros H. apply existsb_exists in H as ([k' v'] & Hin & H). apply andb_prop in H as [H1 H2].
  apply (box_eqb_eq i32_ops i32_laws _ _ _ i32_antisym) in H1. apply Nat.eqb_eq in H2. cbn in *. now subst.
Qed.

(** The coordinates of a point as integers. *)
Definition coords {D} (v : svec i32 D) : list Z := map i32_val (vlist v).

(** The first [n] answers of an iterator. *)
Definition run_iter {S K V} (next : S -> res (option (K * V) * S)) (start : res S) (n : nat) : res (list (option V)) :=
  let* s := start in res_map (map (option_map snd)) (calls next n s).

(** The same for one-dimensional points. *)
Lemma P1_bounds : bounds_laws (bops P1) (box_incl i32_ops).
Proof. apply box_bounds_laws, i32_laws. Qed.
Lemma P1_lookup : lookup_laws P1 (self_borrow P1) (box_incl i32_ops) any_key.
Proof. apply point_lookup_laws, i32_laws. Qed.
Lemma P1_keys : key_eq_laws (key_eq P1).
Proof. apply vec_key_eq_laws, i32_laws. Qed.
Lemma P1_key_eq k k' : key_eq P1 k k' = true -> k = k'.
Proof. intros H. apply (vec_eqb_eq i32_ops i32_laws) in H; [exact H|apply i32_antisym]. Qed.
