(** The invariants that survive calm unwinding. *)
From Verif Require Export CrashCalm IterProof.

(** ** A supported tree cannot come to panic by itself *)
Section Healthy.
Context {B K V : Type} (P : Params B K).
Notation tree := (rtree B K V).

Definition healthy (cfg : config) (t : tree) : Prop :=
  supported cfg /\
  ((min_children cfg = 0 /\ wf_root cfg any_key rel_any 0 True True t) \/ (2 <= min_children cfg /\ all_wide cfg any_key t)).

Lemma healthy_insert cfg (t : tree) k v : healthy cfg t -> post (rtree_insert P cfg t k v) False (healthy cfg).
Proof.
  intros [Hs [[H0 H]|[H2 H]]]; destruct (supported_cases cfg Hs) as [Hc _].
  - eapply post_mono; [apply (insert_entry_spec P cfg any_key rel_any (any_laws P _) 0 True True (fun x => x) (fun _ => Hc)
      (fun _ => or_introl (Nat.le_0_l 1)) t (ELeaf (k, v)) H Logic.I (Nat.le_0_l _))|tauto|].
    intros t' (_ & Hw & _). split; [exact Hs|]. left. now split.
  - eapply post_mono; [apply (insert_wide P cfg any_key Hc t k v H Logic.I)|tauto|]. intros t' Hw. split; [exact Hs|]. right. now split.
Qed.
Lemma healthy_insert_unique cfg (t : tree) k v : healthy cfg t ->
  post (rtree_insert_unique P cfg t k v) False (fun r => healthy cfg (snd r)).
Proof.
  intros [Hs [[H0 H]|[H2 H]]]; destruct (supported_cases cfg Hs) as [Hc _].
  - eapply post_mono; [apply (container_insert_unique_spec P cfg any_key rel_any (any_laws P _) 0 True True (fun x => x) (fun _ => Hc)
      (fun _ => or_introl (Nat.le_0_l 1)) False (False_ind _) t k v H Logic.I)|tauto|].
    intros [old t'] (Hw & _). split; [exact Hs|]. left. now split.
  - eapply post_mono; [apply (insert_unique_wide P cfg any_key Hc t k v H Logic.I)|tauto|]. intros r Hw. split; [exact Hs|]. right. now split.
Qed.
Lemma healthy_remove cfg (t : tree) {Q} (BR : Borrowed B K Q) q : healthy cfg t ->
  post (rtree_remove P cfg BR t q) False (fun r => healthy cfg (snd r)).
Proof.
  intros [Hs [[H0 H]|[H2 H]]]; destruct (supported_cases cfg Hs) as [Hc _].
  - eapply post_mono; [apply (container_remove_spec P cfg any_key rel_any (any_laws P _) 0 True BR True (fun x => x) (fun _ => Hc)
      (fun _ => or_introl (Nat.le_0_l 1)) (fun _ => Nat.le_0_l _) (fun _ => or_introl H0) False (False_ind _) t q H)|tauto|].
    intros [old t'] (Hw & _). split; [exact Hs|]. left. now split.
  - eapply post_mono; [apply (remove_wide P cfg any_key Hc H2 t BR q H)|tauto|]. intros r Hw. split; [exact Hs|]. right. now split.
Qed.

Lemma healthy_keeps : keeps P (@supported_op B K V) healthy.
Proof.
  split.
  - intros cfg Hs. split; [exact Hs|]. destruct (supported_cases cfg Hs) as [Hc [H0|H2]]; [left|right]; (split; [assumption|]).
    + apply (new_wf P cfg any_key rel_any (any_laws P _)); [auto|lia].
    + now apply new_wide.
  - intros i cfg t k v t' _ H E. assert (Hp := healthy_insert cfg t k v H). rewrite E in Hp. exact Hp.
  - intros i cfg t k v old t' _ H E. assert (Hp := healthy_insert_unique cfg t k v H). rewrite E in Hp. exact Hp.
  - intros cfg t Q BR q old t' H E. assert (Hp := healthy_remove cfg t BR q H). rewrite E in Hp. exact Hp.
  - intros cfg t t' [Hs [[H0 H]|[H2 H]]] Hv; (split; [exact Hs|]); [left|right]; (split; [assumption|]).
    + eapply wf_root_values; eassumption.
    + destruct H as [[Hw Hr] Ha], Hv as [E1 E2]. unfold all_wide, root1, twide. rewrite <- E1, <- (erase_fanout _ _ E2).
      split; [split; [eapply erase_wf; eassumption|exact Hr]|]. intros i Hi. eapply erase_wide; [exact E2|]. exact (Ha i Hi).
Qed.

Lemma healthy_survives cfg (o : mop B K V) (t t' : tree) : healthy cfg t -> fst t' = fst t -> survives P cfg o t t' -> healthy cfg t'.
Proof.
  intros [Hs [[H0 H]|[H2 H]]] Ef Hsv; (split; [exact Hs|]); [left|right]; (split; [assumption|]).
  - destruct H as [Hw Hr].
    destruct (Hsv any_key rel_any 0 True any_key (any_laws P _) (fun _ _ => Logic.I) (fun _ _ _ _ _ => Logic.I) (fun _ _ => Logic.I)
      (fun _ => Nat.le_0_l _) Hw) as (G1 & _ & _ & G4 & _).
    unfold wf_root. rewrite Ef. split; [exact G1|]. intros _ Hl. rewrite (G4 Hl). exact (Hr Logic.I Hl).
  - destruct H as [[Hw Hr] Ha].
    destruct (Hsv any_key rel_any 1 True any_key (any_laws P _) (fun _ _ => Logic.I) (fun _ _ _ _ _ => Logic.I) (fun _ _ => Logic.I)
      (fun _ => Nat.le_trans _ _ _ (le_S _ _ (le_n 1)) H2) Hw) as (G1 & _ & G3 & G4 & _).
    unfold all_wide, root1, twide. rewrite Ef. split; [split; [exact G1|intros Hl; rewrite (G4 Hl); exact (Hr Hl)]|].
    intros i Hi. destruct i as [|i]; [lia|]. apply G3. exact (Ha (S i) Hi).
Qed.

Lemma healthy_no_panic (F : pforest B K V) (o : mop B K V) : Forall (slot_inv healthy) F ->
  (forall i cfg t, ptree_at F i = Some (cfg, t) -> wf cfg any_key rel_any 0 False (fst t) (snd t)) -> pstep P F o <> Panic.
Proof.
  intros HF Hw E. destruct o as [cfg|i k v|i k v|i Q BR q|i Q BR q v|i|i]; cbn [pstep] in E; [discriminate E|..];
    (destruct (ptree_at F i) as [[cfg t]|] eqn:Et; [|discriminate E];
     assert (Hi := slot_at healthy F i cfg t HF Et); assert (Hwt := Hw i cfg t Et)).
  - assert (Hp := healthy_insert cfg t k v Hi). destruct (rtree_insert P cfg t k v); cbn [bind post] in *; try discriminate E; tauto.
  - assert (Hp := healthy_insert_unique cfg t k v Hi). destruct (rtree_insert_unique P cfg t k v) as [[old t']| | |]; cbn [bind post] in *; try discriminate E; tauto.
  - assert (Hp := healthy_remove cfg t BR q Hi). destruct (rtree_remove P cfg BR t q) as [[old t']| | |]; cbn [bind post] in *; try discriminate E; tauto.
  - destruct (node_get_mut_spec P BR cfg any_key rel_any 0 False False ltac:(tauto) (fst t) (snd t) q Hwt) as (r & E1 & _).
    unfold rtree_get_mut in E. rewrite E1 in E. cbn [bind] in E. destruct r as [[old put]|]; discriminate E.
  - unfold rtree_clone in E. rewrite (clone_node_spec _ _ _ _ _ _ _ Hwt) in E. discriminate E.
  - destruct (drop_node_spec _ _ _ _ _ _ _ Hwt) as (l & E1 & _). unfold rtree_drop in E. rewrite E1 in E. discriminate E.
Qed.
End Healthy.

(** ** Bounds that account for some of the keys *)
Section Cover.
Context {B K V : Type} (P : Params B K) (ok : K -> Prop) (incl : B -> B -> Prop) (BL : bounds_laws (bops P) incl) (m : K -> bool).
Notation kb := (key_bounds P).

Definition covers (b : B) (l : list K) : Prop := forall k, In k l -> m k = true -> incl b (kb k).

Lemma filter_concat (ls : list (list K)) : concat (map (filter m) ls) = filter m (concat ls).
Proof. induction ls as [|l ls IH]; cbn; [reflexivity|]. now rewrite filter_app, IH. Qed.

Lemma covers_laws : rel_laws P ok covers.
Proof.
  assert (H : forall b l, covers b l <-> rel_cover P incl b (filter m l)).
  { intros b l. unfold covers, rel_cover. split; intros H k Hk; [apply filter_In in Hk as [H1 H2]; auto|]. intros Hm. apply H, filter_In. auto. }
  assert (C := cover_laws P ok incl BL). split.
  - intros b l l' Hp Hb. intros k Hk. apply Hb. now rewrite Hp.
  - intros k [].
  - intros k Hk k' [<-|[]] _. apply (Spec.incl_refl _ _ BL).
  - intros a b l l' Ha Hb k Hk Hm. apply in_app_or in Hk as [Hk|Hk].
    + eapply (incl_trans _ _ BL); [apply (union_l _ _ BL)|auto].
    + eapply (incl_trans _ _ BL); [apply (union_r _ _ BL)|auto].
  - intros bs ls Hall. apply H. rewrite <- filter_concat. apply (rel_union_all _ _ _ C). clear C.
    induction Hall as [|b l bs ls Hb _ IH]; cbn [map]; constructor; [now apply H|exact IH].
  - intros b l k k' Hb _ _ _ k2 Hk2 Hm. eapply (incl_trans _ _ BL); [apply (union_l _ _ BL)|auto].
Qed.

Definition covered (cfg : config) (t : rtree B K V) : Prop := wf_root cfg ok covers 0 False False t.
Definition ok_op (o : mop B K V) : Prop := forall k, inserts o k -> ok k.
Definition unseen_op (o : mop B K V) : Prop := forall k, inserts o k -> m k = false.

Lemma covered_keeps : keeps P ok_op covered.
Proof.
  split.
  - intros cfg _. apply (new_wf P cfg ok covers covers_laws); tauto.
  - intros i cfg t k v t' Hk H E. eapply (wf_root_insert P cfg ok covers covers_laws 0 False False); [tauto|tauto|tauto|exact H|exact (Hk k eq_refl)|exact E].
  - intros i cfg t k v old t' Hk H E. eapply (wf_root_insert_unique P cfg ok covers covers_laws 0 False False); [tauto|tauto|tauto|exact H|exact (Hk k eq_refl)|exact E].
  - intros cfg t Q BR q old t' H E. eapply (wf_root_remove P cfg ok covers covers_laws 0 False False); [tauto|tauto|tauto|tauto|tauto|exact H|exact E].
  - intros cfg t t' H Hv. eapply wf_root_values; eassumption.
Qed.

Lemma covered_survives cfg (o : mop B K V) (t t' : rtree B K V) : ok_op o -> unseen_op o -> covered cfg t -> fst t' = fst t ->
  survives P cfg o t t' -> covered cfg t'.
Proof.
  intros Ho Hu [Hw _] Ef Hsv. split; [|tauto]. rewrite Ef.
  refine (proj1 (Hsv ok covers 0 False (fun k => ok k /\ m k = false) covers_laws _ _ _ _ Hw)).
  - tauto.
  - intros b l l' Hb Hl k Hk Hm. destruct (Hl k Hk) as [H|[_ H]]; [now apply Hb|congruence].
  - intros k Hk. split; [now apply Ho|now apply Hu].
  - tauto.
Qed.
End Cover.

(** ** Lookups depend only on what they are asked *)
Section OneQuery.
Context {B K V Q : Type} (P : Params B K) (BR : Borrowed B K Q) (q : Q).
(** The same lookup for the only query there is. *)
Definition one_query : Borrowed B K Q :=
  {| borrow := borrow BR; q_eq := fun a _ => q_eq BR a q; q_bounds := fun _ => q_bounds BR q |}.

Lemma node_get_one level (n : node B K V) : node_get P one_query level n q = node_get P BR level n q.
Proof.
  revert n; induction level as [|l IH]; intros n; cbn [node_get]; [reflexivity|].
  destruct (read_inner (node_children n)) as [cs| | |]; cbn [bind]; [|reflexivity..].
  induction cs as [|c cs IHcs]; [reflexivity|]. rewrite IHcs, IH. reflexivity.
Qed.

Lemma get_covered cfg ok incl (t : rtree B K V) : lookup_laws P BR incl ok ->
  covered P ok incl (fun k => q_eq BR (borrow BR k) q) cfg t ->
  rtree_get P BR t q = Ok (option_map snd (find (fun kv : K * V => q_eq BR (borrow BR (fst kv)) q) (contents t))).
Proof.
  intros LL [Hw _]. unfold rtree_get. rewrite <- node_get_one.
  apply (node_get_spec P one_query cfg ok (covers P incl (fun k => q_eq BR (borrow BR k) q)) 0 False True); [|exact Hw|exact Logic.I].
  intros _ b l k q' Hb Hin Hok Hq. cbn [one_query q_eq borrow q_bounds] in *.
  eapply (contains_complete _ _ _ _ LL); [exact Hok|exact Hq|]. exact (Hb k Hin Hq).
Qed.

Lemma node_remove_one cfg level (n : node B K V) : node_remove P cfg one_query level n q = node_remove P cfg BR level n q.
Proof.
  revert n; induction level as [|l IH]; intros n; cbn [node_remove]; [reflexivity|].
  destruct (read_inner (node_children n)) as [cs| | |]; cbn [bind]; [|reflexivity..].
  generalize (length cs) as i. intros i. revert cs; induction i as [|i IHi]; intros cs; [reflexivity|].
  destruct (unwrap (nth_error cs i)) as [c| | |]; cbn [bind]; [|reflexivity..].
  cbn [one_query q_bounds]. destruct (b_intersects (bops P) (node_bounds c) (q_bounds BR q)); [|apply IHi].
  rewrite IH. destruct (node_remove P cfg BR l c q) as [[[[v|] c'] u]| | |]; cbn [bind]; [reflexivity| |reflexivity..].
  apply IHi.
Qed.

Lemma remove_covered cfg ok incl (t t' : rtree B K V) o : bounds_laws (bops P) incl -> lookup_laws P BR incl ok ->
  covered P ok incl (fun k => q_eq BR (borrow BR k) q) cfg t ->
  rtree_remove P cfg BR t q = Ok (o, t') ->
  (o <> None <-> exists k v, In (k, v) (contents t) /\ q_eq BR (borrow BR k) q = true) /\
  match o with
  | None => t' = t
  | Some v => exists k, q_eq BR (borrow BR k) q = true /\ Permutation (contents t) ((k, v) :: contents t')
  end.
Proof.
  intros BL LL Hw E.
  assert (H := container_remove_spec (V := V) P cfg ok _ (covers_laws P ok incl BL (fun k => q_eq BR (borrow BR k) q)) 0 False one_query False
    ltac:(tauto) ltac:(tauto) ltac:(tauto) ltac:(tauto) ltac:(tauto) True).
  assert (E' : container_remove P cfg one_query t q = Ok (o, t')).
  { rewrite <- E. unfold rtree_remove, container_remove. now rewrite node_remove_one. }
  specialize (H ltac:(intros _ b l k q' Hb Hin Hok Hq; cbn [one_query q_eq borrow q_bounds] in *;
    eapply (intersects_complete _ _ _ _ LL); [exact Hok|exact Hq|exact (Hb k Hin Hq)]) t q Hw).
  rewrite E' in H. destruct H as [_ H]. destruct o as [v|].
  - destruct H as (k & Hk & Hp). assert (Hq : q_eq BR (borrow BR k) q = true) by apply Hk. split; [|eauto]. split; [|discriminate].
    intros _. exists k, v. split; [|exact Hq]. eapply Permutation_in; [symmetry; exact Hp|now left].
  - destruct H as [-> Hf]. split; [|reflexivity]. split; [congruence|]. intros (k & v & Hin & Hq). specialize (Hf Logic.I).
    exfalso. apply (find_none _ _ Hf) in Hin. cbn in Hin. congruence.
Qed.
End OneQuery.

(** ** Filtered iteration *)
Section Filtered.
Context {B K V Q : Type} (P : Params B K) (brw : K -> Q) (f : SpatialFilter B Q) (cfg : config) (ok : K -> Prop) (incl : B -> B -> Prop).
Notation tk := (fun kv : K * V => test_key f (brw (fst kv))).
Notation covers := (covers P incl (fun k => test_key f (brw k))).

Lemma covers_prune b (l : list (K * V)) : filter_lawful P brw incl ok (test_bounds f) (test_key f) ->
  covers b (map fst l) -> Forall (fun kv => ok (fst kv)) l -> test_bounds f b = false -> filter tk l = [].
Proof.
  intros HF HC Hok Hb. induction l as [|[k v] l IH]; cbn; [reflexivity|].
  inversion Hok as [|? ? Hk Hl]; subst. cbn in Hk.
  destruct (test_key f (brw k)) eqn:E.
  - assert (Hin : incl b (key_bounds P k)) by (apply HC; [left; reflexivity|exact E]). rewrite (HF b k Hk E Hin) in Hb. discriminate Hb.
  - apply IH; [|exact Hl]. intros k' Hk'. apply HC. now right.
Qed.

Lemma pruned_covered lo strict level (n : node B K V) : filter_lawful P brw incl ok (test_bounds f) (test_key f) ->
  wf cfg ok covers lo strict level n -> pruned brw f n = filter tk (entries n).
Proof.
  intros HF. revert n; induction level as [|l IH]; intros n Hwf; destruct (wf_inv _ _ _ _ _ _ _ Hwf) as (b & x & ->); [reflexivity|].
  rewrite wf_inner in Hwf. destruct Hwf as (_ & _ & Hcs). cbn [pruned entries].
  induction Hcs as [|c cs [Hc _] Hcs IHcs]; cbn; [reflexivity|]. rewrite filter_app, IHcs. f_equal.
  destruct (test_bounds f (node_bounds c)) eqn:E; [now apply IH|].
  symmetry. eapply covers_prune; [exact HF|exact (wf_rel _ _ _ _ _ _ _ Hc)|exact (wf_ok _ _ _ _ _ _ _ Hc)|exact E].
Qed.

Lemma filter_covered (t : rtree B K V) : filter_lawful P brw incl ok (test_bounds f) (test_key f) ->
  covered P ok incl (fun k => test_key f (brw k)) cfg t ->
  exists s, rtree_filter_iter t f = Ok s /\ iterates (iter_next_with brw f) s (filter tk (contents t)).
Proof.
  intros HF [Hw _]. unfold rtree_filter_iter, filter_iter_new.
  destruct (test_bounds f (node_bounds (snd t))) eqn:Eb.
  - destruct (iter_new_spec brw f t (wf_kinded _ _ _ _ _ _ _ Hw)) as (s & E & H1 & H2). exists s.
    split; [exact E|]. unfold contents. rewrite <- (pruned_covered _ _ _ _ HF Hw), <- H2. now apply stack_iterates.
  - exists []. split; [reflexivity|]. unfold contents.
    rewrite (covers_prune (node_bounds (snd t))); [apply (stack_iterates brw f []); intros [|i] x; discriminate|exact HF| |exact (wf_ok _ _ _ _ _ _ _ Hw)|exact Eb].
    exact (wf_rel _ _ _ _ _ _ _ Hw).
Qed.
End Filtered.
