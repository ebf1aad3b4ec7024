(** Properties C09, C10, C11, C33, C34: iteration and box queries.  Vocabulary: Spec.v, IterSpec.v, GeomSpec.v. *)
From Verif Require Import Witness MutProof.

(** ** C09 iter yields every entry exactly once *)
Theorem C09_iter_yields_all :
  forall (B K V : Type) (P : Params B K) (cfg : config) (t : rtree B K V),
  reachable P cfg any_key t ->
  exists s, rtree_iter t = Ok s /\ iterates iter_next s (contents t).
Proof. intros * Hr. exact (iter_all P cfg any_key t Hr). Qed.
Print Assumptions C09_iter_yields_all.

Example C09_example :
  fst sample = 2 /\
  run_iter iter_next (rtree_iter sample) 24 =
    Ok (map Some [1; 14; 9; 5; 24; 11; 6; 23; 22; 27; 29; 17; 10; 21; 2; 33; 15; 25; 26; 28; 12; 8] ++ [None; None]).
Proof. split; vm_compute; reflexivity. Qed.

(** ** C10 filter_iter yields exactly the matching entries *)
Theorem C10_filter_iter_exact :
  forall (B K V Q : Type) (P : Params B K) (cfg : config) (ok : K -> Prop) (incl : B -> B -> Prop)
    (brw : K -> Q) (f : SpatialFilter B Q) (t : rtree B K V),
  bounds_laws (bops P) incl -> filter_lawful P brw incl ok (test_bounds f) (test_key f) ->
  reachable P cfg ok t ->
  exists s, rtree_filter_iter t f = Ok s /\
    iterates (iter_next_with brw f) s (filter (fun kv => test_key f (brw (fst kv))) (contents t)).
Proof. intros * BL HF Hr. exact (filter_iter_exact brw f P cfg ok incl t BL HF Hr). Qed.
Print Assumptions C10_filter_iter_exact.

Theorem C10_filter_iter_any_filter :
  forall (B K V Q : Type) (P : Params B K) (cfg : config) (brw : K -> Q) (f : SpatialFilter B Q) (t : rtree B K V),
  reachable P cfg any_key t ->
  exists s l, rtree_filter_iter t f = Ok s /\ iterates (iter_next_with brw f) s l /\
    sublist l (filter (fun kv => test_key f (brw (fst kv))) (contents t)).
Proof. intros * Hr. exact (filter_iter_any brw f P cfg t Hr). Qed.
Print Assumptions C10_filter_iter_any_filter.

(** Entries right of x = 6, with a lawful bounds test and with one that prunes everything but the root. *)
Definition C10_filter : SpatialFilter (saabb i32 2) (svec i32 2) :=
  {| test_bounds := fun b => (6 <=? nth 0 (coords (bmax b)) 0)%Z; test_key := fun p => (6 <=? nth 0 (coords p) 0)%Z |}.
Lemma C10_filter_lawful :
  filter_lawful PP (fun k => k) (box_incl i32_ops) any_key (test_bounds C10_filter) (test_key C10_filter).
Proof.
  intros [lo [hx [hy []]]] [px [py []]] _ Hk [_ H]. apply vec_le_cons in H as [H _]. cbn in *.
  rewrite Z.leb_le in *. lia.
Qed.
Example C10_example :
  bounds_laws (bops PP) (box_incl i32_ops) /\ reachable PP (cfg_of 4 2) any_key sample /\
  run_iter (iter_next_with (fun k => k) C10_filter) (rtree_filter_iter sample C10_filter) 13 =
    Ok (map Some [9; 24; 23; 22; 27; 10; 21; 2; 25; 26; 28] ++ [None; None]).
Proof. split; [exact PP_bounds|]. split; [exact sample_reachable|]. vm_compute. reflexivity. Qed.

(** ** C11 mutable iterators hand out each value once *)
(** The tree as the mutable iterator sees it is [r], whose entries hold the locations of their values; any
    non-empty tree can be laid out like this. *)
Theorem C11_layout_exists :
  forall (B K V : Type) (t : rtree B K V), contents t <> [] ->
  exists (r : rtree B K nat) (m : nat -> V), distinct_locations r /\ deref m r = t.
Proof. intros * H. exact (locate t H). Qed.
Print Assumptions C11_layout_exists.

Theorem C11_iter_mut :
  forall (B K V : Type) (P : Params B K) (cfg : config) (m : nat -> V) (r : rtree B K nat),
  reachable P cfg any_key (deref m r) -> distinct_locations r ->
  exists s refs, rtree_iter r = Ok s /\ iterates iter_next s refs /\
    (* one reference per entry, in iteration order, no location twice *)
    map (fun kl => (fst kl, m (snd kl))) refs = contents (deref m r) /\ NoDup (map snd refs) /\
    (* writes through them touch values only *)
    (forall ws : list (nat * V), same_but_values (deref m r) (deref (write_all m ws) r)) /\
    (* and each value is replaced by what was written *)
    (forall g : K -> V -> V,
       contents (deref (write_all m (update_writes g m refs)) r)
       = map (fun kv => (fst kv, g (fst kv) (snd kv))) (contents (deref m r))).
Proof.
  intros * Hr Hd. apply inv_any in Hr. destruct Hr as [Hw _]. apply deref_wf in Hw.
  destruct (iter_wf _ _ _ _ _ r Hw) as (s & E & Hi). exists s, (contents r).
  split; [exact E|]. split; [exact Hi|]. split; [now rewrite deref_contents|]. split; [exact Hd|].
  split; [intros ws; apply deref_same|]. intros g. rewrite !deref_contents.
  assert (H := update_contents (fun _ => true) g m (contents r) Hd).
  assert (Ef : forall l : list (K * nat), filter (fun _ => true) l = l) by (induction l; cbn; congruence).
  rewrite Ef in H. exact H.
Qed.
Print Assumptions C11_iter_mut.

Theorem C11_filter_iter_mut :
  forall (B K V Q : Type) (P : Params B K) (cfg : config) (ok : K -> Prop) (incl : B -> B -> Prop)
    (brw : K -> Q) (f : SpatialFilter B Q) (m : nat -> V) (r : rtree B K nat),
  bounds_laws (bops P) incl -> filter_lawful P brw incl ok (test_bounds f) (test_key f) ->
  reachable P cfg ok (deref m r) -> distinct_locations r ->
  let tk := fun k => test_key f (brw k) in
  exists s refs, rtree_filter_iter r f = Ok s /\ iterates (iter_next_with brw f) s refs /\
    map (fun kl => (fst kl, m (snd kl))) refs = filter (fun kv => tk (fst kv)) (contents (deref m r)) /\
    NoDup (map snd refs) /\
    (* any writes through the references keep the structure, all keys and every non-matching value *)
    (forall ws : list (nat * V), (forall l v, In (l, v) ws -> In l (map snd refs)) ->
       same_but_values (deref m r) (deref (write_all m ws) r) /\
       Forall2 (fun old new => fst new = fst old /\ (tk (fst old) = false -> snd new = snd old))
         (contents (deref m r)) (contents (deref (write_all m ws) r))) /\
    (forall g : K -> V -> V,
       contents (deref (write_all m (update_writes g m refs)) r)
       = map (fun kv => (fst kv, if tk (fst kv) then g (fst kv) (snd kv) else snd kv)) (contents (deref m r))).
Proof.
  intros * BL HF Hr Hd tk. apply (inv_cover _ _ _ incl _ BL) in Hr. destruct Hr as [Hw _]. apply deref_wf in Hw.
  destruct (filter_iter_wf brw f P cfg ok incl r _ _ HF Hw) as (s & E & Hi). eexists s, _.
  split; [exact E|]. split; [exact Hi|].
  split; [|split; [|split]].
  - rewrite deref_contents. generalize (contents r) as es. induction es as [|[k l] es IH]; cbn; [reflexivity|]. fold (tk k).
    destruct (tk k); cbn; [f_equal|]; exact IH.
  - now apply NoDup_filter_snd.
  - intros ws Hws. split; [apply deref_same|]. rewrite !deref_contents. apply writes_others; [exact Hd|].
    intros l v Hin. specialize (Hws l v Hin). apply in_map_iff in Hws as ([k l'] & E' & Hin'). cbn in E'. subst l'.
    apply filter_In in Hin' as [H1 H2]. eauto.
  - intros g. rewrite !deref_contents. exact (update_contents tk g m (contents r) Hd).
Qed.
Print Assumptions C11_filter_iter_mut.

(** [sample] itself has distinct values, so it is its own layout with [m] the identity. *)
Example C11_example :
  distinct_locations sample /\ deref (fun l => l) sample = sample /\
  (let refs := filter (fun kl => test_key C10_filter (fst kl)) (contents sample) in
   map snd (contents (deref (write_all (fun l => l) (update_writes (fun _ v => v + 100) (fun l => l) refs)) sample)))
  = [1; 14; 109; 5; 124; 11; 6; 123; 122; 127; 29; 17; 110; 121; 102; 33; 15; 125; 126; 128; 12; 8].
Proof.
  split; [|split].
  - unfold distinct_locations. assert (E : map snd (contents sample) = [1; 14; 9; 5; 24; 11; 6; 23; 22; 27; 29; 17; 10; 21; 2; 33; 15; 25; 26; 28; 12; 8]) by (vm_compute; reflexivity).
    rewrite E. repeat (constructor; [cbn; lia|]). constructor.
  - apply deref_id.
  - vm_compute. reflexivity.
Qed.

(** ** C33 box queries return exactly the overlapping entries *)
Lemma intersects_box_lawful (N : Type) (S : ScalarOps N) (D : nat) VO (q : saabb N D) : order_laws S ->
  filter_lawful (box_params S VO) (fun k => k) (box_incl S) (valid_box S) (box_intersects_box S q) (box_intersects_box S q).
Proof.
  intros L b k _ Hk [H1 H2]. cbn [box_params key_bounds] in *. apply (intersects_box_iff S) in Hk as [H3 H4]. apply (intersects_box_iff S).
  split; eapply (vec_le_trans S L); eassumption.
Qed.

Lemma intersects_point_lawful (N : Type) (S : ScalarOps N) (D : nat) VO (q : saabb N D) : order_laws S ->
  filter_lawful (point_params S VO) (fun k => k) (box_incl S) any_key (box_intersects_box S q) (box_intersects_point S q).
Proof.
  intros L b k _ Hk [H1 H2]. cbn in H1, H2. apply in_box_iff in Hk as [H3 H4]. apply (intersects_box_iff S).
  split; eapply (vec_le_trans S L); eassumption.
Qed.

(** A query box over a tree of (non-empty) boxes, with both kinds of filter. *)
Theorem C33_box_query :
  forall (N : Type) (S : ScalarOps N) (D : nat) (VO : VolumeOps (saabb N D)) (V : Type) (cfg : config)
    (t : rtree (saabb N D) (saabb N D) V) (q : saabb N D) (f : SpatialFilter (saabb N D) (saabb N D)),
  order_laws S -> reachable (box_params S VO) cfg (valid_box S) t -> valid_box S q ->
  f = intersects_filter (box_intersects_box S) (box_intersects_box S) q \/
  f = bounded_intersects_filter (box_bounds_ops S) (fun b => b) (box_intersects_box S) q ->
  exists s l, rtree_filter_iter t f = Ok s /\ iterates (iter_next_with (fun k => k) f) s l /\
    exactly (fun kv => exists p, in_box S q p /\ in_box S (fst kv) p) l (contents t).
Proof.
  intros * L Hr Hq Hf.
  assert (HF : test_bounds f = box_intersects_box S q /\ test_key f = box_intersects_box S q) by (destruct Hf as [-> | ->]; split; reflexivity).
  destruct HF as [Hf1 Hf2].
  destruct (filter_iter_exact (fun k => k) f (box_params S VO) cfg (valid_box S) (box_incl S) t) as (s & E & Hi);
    [apply (box_bounds_laws S L)|rewrite Hf1, Hf2; now apply intersects_box_lawful|exact Hr|].
  eexists s, _. split; [exact E|]. split; [exact Hi|]. eexists; split; [reflexivity|].
  intros [k v] Hin. cbn. rewrite Hf2. apply (boxes_meet_iff S L); [exact Hq|]. exact (reachable_keys _ _ _ _ Hr (k, v) Hin).
Qed.
Print Assumptions C33_box_query.

(** A query box over a tree of points. *)
Theorem C33_point_query :
  forall (N : Type) (S : ScalarOps N) (D : nat) (VO : VolumeOps (saabb N D)) (V : Type) (cfg : config)
    (t : rtree (saabb N D) (svec N D) V) (q : saabb N D) (f : SpatialFilter (saabb N D) (svec N D)),
  order_laws S -> reachable (point_params S VO) cfg any_key t ->
  f = intersects_filter (box_intersects_box S) (box_intersects_point S) q \/
  f = bounded_intersects_filter (box_bounds_ops S) (fun b => b) (box_intersects_point S) q ->
  exists s l, rtree_filter_iter t f = Ok s /\ iterates (iter_next_with (fun k => k) f) s l /\
    exactly (fun kv => in_box S q (fst kv)) l (contents t).
Proof.
  intros * L Hr Hf.
  assert (HF : test_bounds f = box_intersects_box S q /\ test_key f = box_intersects_point S q) by (destruct Hf as [-> | ->]; split; reflexivity).
  destruct HF as [Hf1 Hf2].
  destruct (filter_iter_exact (fun k => k) f (point_params S VO) cfg any_key (box_incl S) t) as (s & E & Hi);
    [apply (box_bounds_laws S L)|rewrite Hf1, Hf2; now apply intersects_point_lawful|exact Hr|].
  eexists s, _. split; [exact E|]. split; [exact Hi|]. eexists; split; [reflexivity|].
  intros [k v] Hin. cbn. rewrite Hf2. apply in_box_iff.
Qed.
Print Assumptions C33_point_query.

Definition q33 : saabb i32 2 := bx 2 2 6 9.
Definition f33p : SpatialFilter (saabb i32 2) (svec i32 2) :=
  intersects_filter (box_intersects_box i32_ops) (box_intersects_point i32_ops) q33.
Definition f33b : SpatialFilter (saabb i32 2) (saabb i32 2) :=
  intersects_filter (box_intersects_box i32_ops) (box_intersects_box i32_ops) q33.
Example C33_example :
  reachable PP (cfg_of 4 2) any_key sample /\ reachable PB (cfg_of 4 2) (valid_box i32_ops) box_sample /\
  valid_box i32_ops q33 /\
  run_iter (iter_next_with (fun k => k) f33p) (rtree_filter_iter sample f33p) 8 =
    Ok (map Some [5; 11; 6; 17; 10; 15; 8] ++ [None]) /\
  run_iter (iter_next_with (fun k => k) f33b) (rtree_filter_iter box_sample f33b) 5 =
    Ok ([Some 4; Some 5; Some 2; None; None]).
Proof.
  split; [exact sample_reachable|]. split; [exact box_sample_reachable|].
  split; [apply all_le_spec; vm_compute; reflexivity|]. split; vm_compute; reflexivity.
Qed.

(** ** C34 contains queries return exactly the contained entries: false *)
Definition f34b (q : saabb i32 2) : SpatialFilter (saabb i32 2) (saabb i32 2) :=
  contains_filter (box_intersects_box i32_ops) (box_contains_box i32_ops) q.
Definition f34p (q : saabb i32 2) : SpatialFilter (saabb i32 2) (svec i32 2) :=
  contains_filter (box_intersects_box i32_ops) (box_contains_point i32_ops) q.

(** An entry that is not contained is yielded. *)
Theorem C34_contains_box_refuted :
  exists (t : rtree (saabb i32 2) (saabb i32 2) nat) (q k : saabb i32 2) s l,
  reachable PB (cfg_of 4 2) (valid_box i32_ops) t /\ valid_box i32_ops q /\
  rtree_filter_iter t (f34b q) = Ok s /\ iterates (iter_next_with (fun k => k) (f34b q)) s l /\
  In (k, 2) l /\ ~ (forall p, in_box i32_ops k p -> in_box i32_ops q p).
Proof.
  exists box_sample, q33, (bx 5 5 9 9).
  assert (HF : filter_lawful PB (fun k => k) (box_incl i32_ops) (valid_box i32_ops) (test_bounds (f34b q33)) (test_key (f34b q33))).
  { apply (intersects_box_lawful _ i32_ops 2 _ q33), i32_laws. }
  destruct (filter_iter_exact (fun k => k) (f34b q33) PB (cfg_of 4 2) _ _ box_sample PB_bounds HF box_sample_reachable) as (s & E & Hi).
  eexists s, _. split; [exact box_sample_reachable|]. split; [apply all_le_spec; vm_compute; reflexivity|].
  split; [exact E|]. split; [exact Hi|]. split.
  - apply box_in. vm_compute. reflexivity.
  - intros H. assert (Hin : in_box i32_ops (bx 5 5 9 9) (pt 9 9)) by (apply in_box_iff; vm_compute; reflexivity).
    apply H, in_box_iff in Hin. vm_compute in Hin. discriminate.
Qed.
Print Assumptions C34_contains_box_refuted.

(** A contained point is not yielded. *)
Theorem C34_contains_point_refuted :
  exists (t : rtree (saabb i32 2) (svec i32 2) nat) (q : saabb i32 2) (k : svec i32 2) s,
  reachable PP (cfg_of 4 2) any_key t /\ valid_box i32_ops q /\
  rtree_get PP (self_borrow PP) t k = Ok (Some 5) /\ in_box i32_ops q k /\
  rtree_filter_iter t (f34p q) = Ok s /\ iterates (iter_next_with (fun k => k) (f34p q)) s [].
Proof.
  exists sample, q33, (pt 3 3).
  assert (HF : filter_lawful PP (fun k => k) (box_incl i32_ops) any_key (test_bounds (f34p q33)) (test_key (f34p q33))).
  { intros b k _ Hk Hi. cbn [f34p contains_filter test_bounds test_key] in *.
    apply (contains_point_degenerate i32_ops i32_laws) in Hk as [H1 H2]; [|apply all_le_spec; vm_compute; reflexivity].
    assert (E := vec_eqb_eq i32_ops i32_laws _ _ _ i32_antisym H1). apply (vec_eqb_eq i32_ops i32_laws) in H2; [|exact i32_antisym].
    exfalso. rewrite <- E in H2. apply (f_equal (fun v => coords v)) in H2. vm_compute in H2. discriminate. }
  destruct (filter_iter_exact (fun k => k) (f34p q33) PP (cfg_of 4 2) _ _ sample PP_bounds HF sample_reachable) as (s & E & Hi).
  exists s. split; [exact sample_reachable|]. split; [apply all_le_spec; vm_compute; reflexivity|].
  split; [vm_compute; reflexivity|]. split; [apply in_box_iff; vm_compute; reflexivity|]. split; [exact E|].
  assert (En : filter (fun kv => test_key (f34p q33) (fst kv)) (contents sample) = []).
  { apply length_zero_iff_nil. vm_compute. reflexivity. }
  rewrite En in Hi. exact Hi.
Qed.
Print Assumptions C34_contains_point_refuted.

(** What holds: over boxes, the contains filters return exactly the entries meeting the query box, hence every
    contained one. *)
Theorem C34_contains_box_partial :
  forall (N : Type) (S : ScalarOps N) (D : nat) (VO : VolumeOps (saabb N D)) (V : Type) (cfg : config)
    (t : rtree (saabb N D) (saabb N D) V) (q : saabb N D) (f : SpatialFilter (saabb N D) (saabb N D)),
  order_laws S -> reachable (box_params S VO) cfg (valid_box S) t -> valid_box S q ->
  f = contains_filter (box_intersects_box S) (box_contains_box S) q \/
  f = bounded_contains_filter (box_bounds_ops S) (fun b => b) (box_contains_box S) q ->
  exists s l, rtree_filter_iter t f = Ok s /\ iterates (iter_next_with (fun k => k) f) s l /\
    exactly (fun kv => exists p, in_box S q p /\ in_box S (fst kv) p) l (contents t) /\
    (forall k v, In (k, v) (contents t) -> (forall p, in_box S k p -> in_box S q p) -> In (k, v) l).
Proof.
  intros * L Hr Hq Hf.
  destruct (C33_box_query N S D VO V cfg t q f L Hr Hq) as (s & l & E & Hi & He).
  { destruct Hf as [-> | ->]; [left|right]; reflexivity. }
  exists s, l. split; [exact E|]. split; [exact Hi|]. split; [exact He|]. intros k v Hin Hk.
  destruct He as (g & -> & Hg). apply filter_In. split; [exact Hin|]. apply Hg; [exact Hin|].
  assert (Hv := reachable_keys _ _ _ _ Hr (k, v) Hin : valid_box S k). exists (bmin k). cbn.
  assert (in_box S k (bmin k)) by (split; [apply (vec_le_refl S L)|exact Hv]). auto.
Qed.
Print Assumptions C34_contains_box_partial.

(** Over points they return exactly the entries at a query box that is a single point. *)
Theorem C34_contains_point_partial :
  forall (N : Type) (S : ScalarOps N) (D : nat) (VO : VolumeOps (saabb N D)) (V : Type) (cfg : config)
    (t : rtree (saabb N D) (svec N D) V) (q : saabb N D) (f : SpatialFilter (saabb N D) (svec N D)),
  order_laws S -> reachable (point_params S VO) cfg any_key t -> valid_box S q ->
  f = contains_filter (box_intersects_box S) (box_contains_point S) q \/
  f = bounded_contains_filter (box_bounds_ops S) (fun b => b) (box_contains_point S) q ->
  exists s l, rtree_filter_iter t f = Ok s /\ iterates (iter_next_with (fun k => k) f) s l /\
    exactly (fun kv => vec_eqb S (bmin q) (fst kv) = true /\ vec_eqb S (bmax q) (fst kv) = true) l (contents t).
Proof.
  intros * L Hr Hq Hf.
  assert (HF : test_bounds f = box_intersects_box S q /\ test_key f = box_contains_point S q) by (destruct Hf as [-> | ->]; split; reflexivity).
  destruct HF as [Hf1 Hf2].
  assert (Hiff : forall k, box_contains_point S q k = true <-> vec_eqb S (bmin q) k = true /\ vec_eqb S (bmax q) k = true).
  { intros k. split; [apply (contains_point_degenerate S L); exact Hq|]. rewrite !(vec_eqb_spec S L), (contains_point_iff S). tauto. }
  destruct (filter_iter_exact (fun k => k) f (point_params S VO) cfg any_key (box_incl S) t) as (s & E & Hi);
    [apply (box_bounds_laws S L)| |exact Hr|].
  { rewrite Hf1, Hf2. intros b k _ Hk [H1 H2]. cbn in H1, H2. apply Hiff in Hk. rewrite !(vec_eqb_spec S L) in Hk.
    destruct Hk as [[G1 G2] [G3 G4]]. apply (intersects_box_iff S). split; eapply (vec_le_trans S L); eassumption. }
  eexists s, _. split; [exact E|]. split; [exact Hi|]. eexists; split; [reflexivity|].
  intros [k v] Hin. cbn. rewrite Hf2. apply Hiff.
Qed.
Print Assumptions C34_contains_point_partial.

Example C34_example :
  run_iter (iter_next_with (fun k => k) (f34p (bx 3 3 3 3))) (rtree_filter_iter sample (f34p (bx 3 3 3 3))) 4 =
    Ok ([Some 5; Some 6; None; None]) /\
  run_iter (iter_next_with (fun k => k) (f34b q33)) (rtree_filter_iter box_sample (f34b q33)) 5 =
    Ok ([Some 4; Some 5; Some 2; None; None]).
Proof. split; vm_compute; reflexivity. Qed.
