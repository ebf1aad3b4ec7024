(** Mutable iterators: trees whose values live in a memory. *)
From Verif Require Export IterProof.

Section Mut.
Context {B K V : Type}.

Lemma deref_contents {L} (m : L -> V) (r : rtree B K L) :
  contents (deref m r) = map (fun kl => (fst kl, m (snd kl))) (contents r).
Proof. unfold contents, deref. cbn. apply map_node_entries. Qed.

Lemma map_node_ext {L} (g h : L -> V) (n : node B K L) : (forall l, In l (map snd (entries n)) -> g l = h l) ->
  map_node g n = map_node h n.
Proof.
  induction n as [b es|b cs IH] using node_ind'; cbn [map_node entries]; intros H.
  - do 2 f_equal. apply map_ext_in. intros [k l] Hin. cbn. f_equal. apply H. now apply (in_map snd) in Hin.
  - do 2 f_equal. induction IH as [|c cs Hc _ IHcs]; cbn in *; [reflexivity|]. rewrite map_app in H. f_equal.
    + apply Hc. intros l Hl. apply H, in_or_app. now left.
    + apply IHcs. intros l Hl. apply H, in_or_app. now right.
Qed.

Lemma map_node_map {L M W} (g : L -> M) (h : M -> W) (n : node B K L) :
  map_node h (map_node g n) = map_node (fun l => h (g l)) n.
Proof.
  induction n as [b es|b cs IH] using node_ind'; cbn [map_node].
  - rewrite map_map. reflexivity.
  - do 2 f_equal. rewrite map_map. induction IH as [|c cs Hc _ IHcs]; cbn; [reflexivity|]. now rewrite Hc, IHcs.
Qed.

Lemma deref_id (t : rtree B K V) : deref (fun v => v) t = t.
Proof.
  destruct t as [l n]. unfold deref. cbn [fst snd]. apply (f_equal (pair l)).
  induction n as [b es|b cs IH] using node_ind'; cbn [map_node]; do 2 f_equal.
  - rewrite <- map_id. apply map_ext. now intros [? ?].
  - rewrite <- map_id. apply map_ext_in. intros c Hc. rewrite Forall_forall in IH. now apply IH.
Qed.

(** Every tree is the meaning of one with distinct locations. *)
Lemma locate_node (d : nat -> V) (n : node B K V) base : exists (r : node B K nat) (m : nat -> V),
  map_node m r = n /\ map snd (entries r) = seq base (length (entries n))
  /\ forall l, l < base \/ base + length (entries n) <= l -> m l = d l.
Proof.
  revert base; induction n as [b es|b cs IH] using node_ind'; intros base.
  - enough (exists (rs : list (K * nat)) m, map (fun kv => (fst kv, m (snd kv))) rs = es /\ map snd rs = seq base (length es)
      /\ forall l, l < base \/ base + length es <= l -> m l = d l) as (rs & m & H1 & H2 & H3).
    { exists (Node b (CLeaf rs)), m. cbn. rewrite H1. auto. }
    revert base; induction es as [|[k v] es IHes]; intros base.
    + exists [], d. cbn. auto.
    + destruct (IHes (S base)) as (rs & m & H1 & H2 & H3).
      exists ((k, base) :: rs), (fun l => if l =? base then v else m l). cbn. rewrite Nat.eqb_refl. split; [|split].
      * f_equal. rewrite <- H1. apply map_ext_in. intros [k' l] Hin. cbn. f_equal.
        apply (in_map snd) in Hin. rewrite H2 in Hin. apply in_seq in Hin. cbn in Hin. destruct (Nat.eqb_spec l base); [lia|reflexivity].
      * now f_equal.
      * intros l Hl. destruct (Nat.eqb_spec l base); [lia|]. apply H3. lia.
  - enough (exists (rs : list (node B K nat)) m, map (map_node m) rs = cs /\ map snd (flat_map entries rs) = seq base (length (flat_map entries cs))
      /\ forall l, l < base \/ base + length (flat_map entries cs) <= l -> m l = d l) as (rs & m & H1 & H2 & H3).
    { exists (Node b (CInner rs)), m. cbn. rewrite H1. auto. }
    revert base; induction IH as [|c cs Hc _ IHcs]; intros base.
    + exists [], d. cbn. auto.
    + destruct (Hc base) as (rc & mc & H1 & H2 & H3).
      destruct (IHcs (base + length (entries c))) as (rs & ms & G1 & G2 & G3).
      exists (rc :: rs), (fun l => if l <? base + length (entries c) then mc l else ms l). split; [|split].
      * cbn. f_equal.
        -- transitivity (map_node mc rc); [|exact H1]. apply map_node_ext. intros l Hl. rewrite H2 in Hl. apply in_seq in Hl.
           destruct (Nat.ltb_spec l (base + length (entries c))); [reflexivity|lia].
        -- transitivity (map (map_node ms) rs); [|exact G1]. apply map_ext_in. intros r Hr. apply map_node_ext. intros l Hl.
           assert (Hin : In l (map snd (flat_map entries rs))).
           { apply in_map_iff in Hl as (x & <- & Hx). apply in_map, in_flat_map. eauto. }
           rewrite G2 in Hin. apply in_seq in Hin. destruct (Nat.ltb_spec l (base + length (entries c))); [lia|reflexivity].
      * cbn. rewrite map_app, app_length, seq_app. now rewrite H2, G2.
      * intros l. cbn. rewrite app_length. intros Hl. destruct (Nat.ltb_spec l (base + length (entries c))); [apply H3|apply G3]; lia.
Qed.

Lemma locate (t : rtree B K V) : contents t <> [] ->
  exists (r : rtree B K nat) (m : nat -> V), distinct_locations r /\ deref m r = t.
Proof.
  intros Hne. destruct (contents t) as [|[k v] es] eqn:E; [congruence|].
  destruct (locate_node (fun _ => v) (snd t) 0) as (r & m & H1 & H2 & _).
  exists (fst t, r), m. split.
  - unfold distinct_locations, contents. cbn. rewrite H2. apply seq_NoDup.
  - unfold deref. cbn. rewrite H1. now destruct t.
Qed.

Lemma deref_same (m m' : nat -> V) (r : rtree B K nat) : same_but_values (deref m r) (deref m' r).
Proof. split; [reflexivity|]. unfold erase, deref. cbn. rewrite !map_node_map. reflexivity. Qed.

Lemma deref_wf cfg ok rel lo strict (m : nat -> V) (r : rtree B K nat) :
  wf cfg ok rel lo strict (fst (deref m r)) (snd (deref m r)) <-> wf cfg ok rel lo strict (fst r) (snd r).
Proof. unfold deref. cbn. apply map_node_wf. Qed.

Lemma write_all_other (m : nat -> V) ws l : ~ In l (map fst ws) -> write_all m ws l = m l.
Proof.
  revert m; induction ws as [|[l' v] ws IH]; intros m H; cbn; [reflexivity|]. cbn in H.
  rewrite IH by tauto. destruct (Nat.eqb_spec l l'); [subst; tauto|reflexivity].
Qed.

Lemma write_all_one (m : nat -> V) ws l v : NoDup (map fst ws) -> In (l, v) ws -> write_all m ws l = v.
Proof.
  revert m; induction ws as [|[l' v'] ws IH]; intros m Hd Hin; [destruct Hin|]. cbn in *.
  inversion Hd as [|? ? H1 H2]; subst. destruct Hin as [[= -> ->]|Hin].
  - rewrite write_all_other by exact H1. now rewrite Nat.eqb_refl.
  - apply IH; assumption.
Qed.

(** Writing [g k old] once through each of the references [refs] of [all]. *)
Definition update_writes (g : K -> V -> V) (m : nat -> V) (refs : list (K * nat)) : list (nat * V) :=
  map (fun kl => (snd kl, g (fst kl) (m (snd kl)))) refs.

Lemma NoDup_filter_snd (h : K * nat -> bool) l : NoDup (map snd l) -> NoDup (map snd (filter h l)).
Proof.
  induction l as [|[k x] l IH]; cbn; [auto|]. intros H. inversion H as [|? ? H1 H2]; subst.
  destruct (h (k, x)); cbn; [|auto]. constructor; [|auto]. intros Hin. apply H1.
  apply in_map_iff in Hin as (y & Hy & Hin). apply filter_In in Hin as [Hin _]. rewrite <- Hy. now apply in_map.
Qed.

Lemma same_location (all : list (K * nat)) k k' l : NoDup (map snd all) -> In (k, l) all -> In (k', l) all -> k' = k.
Proof.
  induction all as [|[a b] all IH]; [intros _ []|]. cbn. intros Hd Hin Hl. inversion Hd as [|? ? H1 H2]; subst.
  destruct Hin as [Hin|Hin], Hl as [Hl|Hl]; [congruence| | |auto].
  - exfalso. apply H1. injection Hin as -> ->. now apply (in_map snd) in Hl.
  - exfalso. apply H1. injection Hl as -> ->. now apply (in_map snd) in Hin.
Qed.

Lemma update_contents (tk : K -> bool) (g : K -> V -> V) (m : nat -> V) (all : list (K * nat)) :
  NoDup (map snd all) ->
  map (fun kl => (fst kl, write_all m (update_writes g m (filter (fun kl => tk (fst kl)) all)) (snd kl))) all
  = map (fun kv => (fst kv, if tk (fst kv) then g (fst kv) (snd kv) else snd kv)) (map (fun kl => (fst kl, m (snd kl))) all).
Proof.
  intros Hd. rewrite map_map. apply map_ext_in. intros [k l] Hin. cbn. f_equal.
  assert (Efst : forall refs, map fst (update_writes g m refs) = map snd refs).
  { intros refs. unfold update_writes. rewrite map_map. apply map_ext. reflexivity. }
  destruct (tk k) eqn:Ek.
  - apply write_all_one.
    + rewrite Efst. now apply NoDup_filter_snd.
    + unfold update_writes. apply in_map_iff. exists (k, l). split; [reflexivity|]. apply filter_In. auto.
  - apply write_all_other. rewrite Efst. intros Hl. apply in_map_iff in Hl as ([k' l'] & E & Hl). cbn in E. subst l'.
    apply filter_In in Hl as [Hl Hk']. cbn in Hk'.
    rewrite (same_location all k k' l Hd) in Hk' by assumption. congruence.
Qed.

Lemma writes_others (tk : K -> bool) (m : nat -> V) (all : list (K * nat)) ws :
  NoDup (map snd all) ->
  (forall l v, In (l, v) ws -> exists k, In (k, l) all /\ tk k = true) ->
  Forall2 (fun old new => fst new = fst old /\ (tk (fst old) = false -> snd new = snd old))
    (map (fun kl => (fst kl, m (snd kl))) all) (map (fun kl => (fst kl, write_all m ws (snd kl))) all).
Proof.
  intros Hd Hws.
  assert (H : forall sub, (forall x, In x sub -> In x all) ->
    Forall2 (fun old new => fst new = fst old /\ (tk (fst old) = false -> snd new = snd old))
    (map (fun kl => (fst kl, m (snd kl))) sub) (map (fun kl => (fst kl, write_all m ws (snd kl))) sub)); [|apply H; auto].
  induction sub as [|[k l] sub IH]; intros Hsub; cbn; constructor.
  - cbn. split; [reflexivity|]. intros Hk. apply write_all_other. intros Hin.
    apply in_map_iff in Hin as ([l' v] & E & Hin). cbn in E. subst l'. destruct (Hws l v Hin) as (k' & Hin' & Hk').
    assert (Hin2 : In (k, l) all) by (apply Hsub; now left).
    rewrite (same_location all k k' l Hd) in Hk' by assumption. congruence.
  - apply IH. intros x Hx. apply Hsub. now right.
Qed.
End Mut.

(** The order of the references does not matter. *)
Lemma update_contents_perm {K V} (tk : K -> bool) (g : K -> V -> V) (m : nat -> V) (all refs : list (K * nat)) :
  NoDup (map snd all) -> Permutation refs (filter (fun kl => tk (fst kl)) all) ->
  map (fun kl => (fst kl, write_all m (update_writes g m refs) (snd kl))) all
  = map (fun kv => (fst kv, if tk (fst kv) then g (fst kv) (snd kv) else snd kv)) (map (fun kl => (fst kl, m (snd kl))) all).
Proof.
  intros Hd Hp. rewrite <- (update_contents tk g m all Hd). apply map_ext_in. intros [k l] Hin. cbn. f_equal.
  assert (Efst : forall refs, map fst (update_writes g m refs) = map snd refs).
  { intros rs. unfold update_writes. rewrite map_map. apply map_ext. reflexivity. }
  assert (Hd1 : NoDup (map snd (filter (fun kl => tk (fst kl)) all))) by now apply NoDup_filter_snd.
  assert (Hd2 : NoDup (map snd refs)) by (eapply Permutation_NoDup; [apply Permutation_map, Permutation_sym, Hp|exact Hd1]).
  assert (Hw : Permutation (update_writes g m refs) (update_writes g m (filter (fun kl => tk (fst kl)) all))) by now apply Permutation_map.
  destruct (in_dec Nat.eq_dec l (map snd refs)) as [Hl|Hl].
  - rewrite <- Efst with (refs := refs) in Hl. apply in_map_iff in Hl as ([l' v] & E & Hl). cbn in E. subst l'.
    rewrite (write_all_one m _ l v); [|now rewrite Efst|exact Hl]. symmetry. apply write_all_one; [now rewrite Efst|]. now rewrite <- Hw.
  - rewrite write_all_other; [|now rewrite Efst]. symmetry. apply write_all_other. rewrite Efst. intros Hin'. apply Hl.
    eapply Permutation_in; [apply Permutation_map, Permutation_sym, Hp|exact Hin'].
Qed.
