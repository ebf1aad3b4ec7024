(** The model with recorded and checked calls (CheckModel.v): it agrees with Model.v or panics, and it agrees with Model.v if
    everything it asks for fits; and how much it asks for. *)
From Verif Require Export CheckModel Reach Main.

(** *** Agreement *)

(** [m] has outcome [r], or else it panicked and [fits] is false. *)
Definition ag {A B F} (fits : Prop) (m : C A B F) (r : res A) : Prop := snd m = r \/ (snd m = Panic /\ ~ fits).

Section Ag.
Context {B F : Type} (fits : Prop).

Lemma ag_bind {A A'} (m : C A B F) r (k : A -> C A' B F) k' :
  ag fits m r -> (forall a, r = Ok a -> ag fits (k a) (k' a)) -> ag fits (cbind m k) (bind r k').
Proof.
  intros [E|[E Hn]] Hk; unfold ag, cbind; rewrite E.
  - destruct r as [a| | |]; cbn [bind snd]; [|now left..]. exact (Hk a eq_refl).
  - now right.
Qed.

Lemma ag_ret {A} (a : A) : ag fits (@cret B F A a) (Ok a). Proof. now left. Qed.
Lemma ag_lift {A} (r : res A) : ag fits (@clift B F A r) r. Proof. now left. Qed.

(** The checked side makes a pure step. *)
Lemma ag_lift_bind {A A'} (r : res A) (k : A -> C A' B F) k' :
  (forall a, r = Ok a -> ag fits (k a) (k' a)) -> ag fits (cbind (clift r) k) (bind r k').
Proof. intros H. apply ag_bind; [apply ag_lift|exact H]. Qed.
End Ag.

Lemma slice_swap_Forall {T} (R : T -> Prop) i j l l' : slice_swap i j l = Ok l' -> Forall R l -> Forall R l'.
Proof.
  unfold slice_swap. destruct (nth_error l i) as [x|] eqn:Ei; [|discriminate]. destruct (nth_error l j) as [y|] eqn:Ej; [|discriminate].
  intros E. injection E as <-. intros H. apply Forall_set_nth; [apply Forall_set_nth; [exact H|]|]; eapply Forall_nth_error; eassumption.
Qed.

Lemma swap_remove_Forall {T} (R : T -> Prop) i l x l' : swap_remove i l = Ok (x, l') -> Forall R l -> R x /\ Forall R l'.
Proof.
  intros E H. assert (Hi : i < length l).
  { unfold swap_remove in E. destruct (nth_error l i) eqn:Ei; [now apply nth_error_lt in Ei|discriminate]. }
  destruct (swap_remove_spec i l Hi) as (y & l2 & E' & Hx & Hp & _). rewrite E in E'. injection E' as <- <-.
  eapply Forall_perm in H; [|exact Hp]. now inversion H.
Qed.

Lemma nth_error_rep {T} (x : T) i m : i < m -> nth_error (repeat x m) i = Some x.
Proof. revert i; induction m as [|m IH]; intros [|i] H; cbn; try lia; auto. apply IH; lia. Qed.

Section Agree.
Context {B K V : Type} (P : Params B K) (CK : Checks (vops P)) (cfg : config).
Notation VO := (vops P).
Notation BO := (bops P).
Notation kb := (key_bounds P).
Context (fits : Prop) (G : B -> Prop).
Context (Gvol : forall b, G b -> fits -> vol_fits CK b = true).
Context (Gsub : forall a b, G a -> G b -> fits -> sub_fits CK (volume VO a) (volume VO b) = true).
Context (Gunion : forall a b, G a -> G b -> G (b_union BO a b)).
Notation ag := (ag fits).

Ltac split_ands := repeat match goal with |- _ /\ _ => split end.

Lemma ag_vol b : G b -> ag (k_vol P CK b) (Ok (volume VO b)).
Proof. intros H. unfold CheckProof.ag, k_vol. cbn [snd]. destruct (vol_fits CK b) eqn:E; [now left|]. right. split; [reflexivity|]. intros Hf. rewrite (Gvol b H Hf) in E. discriminate. Qed.
Lemma ag_sub a b : G a -> G b -> ag (k_sub P CK (volume VO a) (volume VO b)) (Ok (n64_sub VO (volume VO a) (volume VO b))).
Proof. intros Ha Hb. unfold CheckProof.ag, k_sub. cbn [snd]. destruct (sub_fits CK _ _) eqn:E; [now left|]. right. split; [reflexivity|]. intros Hf. rewrite (Gsub a b Ha Hb Hf) in E. discriminate. Qed.
Lemma ag_union a b : ag (k_union P a b) (Ok (b_union BO a b)). Proof. now left. Qed.
Lemma ag_union_all l : ag (k_union_all P l) (Ok (b_union_all BO l)). Proof. now left. Qed.

(** Peel the checked side when the plain value is known. *)
Lemma ag_step {A A'} (m : C A B (N64 VO)) a (k : A -> C A' B (N64 VO)) r : ag m (Ok a) -> ag (k a) r -> ag (cbind m k) r.
Proof.
  intros Hm Hk. change r with (bind (Ok a) (fun _ => r)). apply ag_bind; [exact Hm|]. intros a' E. injection E as <-. exact Hk.
Qed.

Lemma ag_increase a b : G a -> G b -> ag (k_increase P CK a b) (Ok (volume_increase P a b)).
Proof.
  intros Ha Hb. unfold k_increase. eapply ag_step; [apply ag_union|].
  eapply ag_step; [apply ag_vol; auto|]. eapply ag_step; [apply ag_vol; auto|]. apply ag_sub; auto.
Qed.

Lemma ag_select_cmp b x y : G b -> G (snd x) -> G (snd y) -> ag (k_select_cmp P CK b x y) (Ok (select_cmp P b x y)).
Proof.
  intros Hb Hx Hy. unfold k_select_cmp, select_cmp. eapply ag_step; [apply ag_increase; auto|].
  eapply ag_step; [apply ag_increase; auto|]. destruct (n64_cmp _ _ _); [|apply ag_ret..].
  eapply ag_step; [apply ag_vol; auto|]. eapply ag_step; [apply ag_vol; auto|]. apply ag_ret.
Qed.

Lemma ag_min_by {T} (R : T -> Prop) kcmp cmp : (forall x y, R x -> R y -> ag (kcmp x y) (Ok (cmp x y))) ->
  forall l best, R best -> Forall R l -> ag (k_min_by_from P kcmp best l) (Ok (min_by_from cmp best l)).
Proof.
  intros Hc. induction l as [|y l IH]; intros best Hb Hl; cbn [k_min_by_from min_by_from]; [apply ag_ret|].
  inversion Hl; subst. eapply ag_step; [apply Hc; auto|]. apply IH; [|assumption]. now destruct (cmp best y).
Qed.

Lemma Forall_combine_seq {T} (R : T -> Prop) l s : Forall R l -> Forall (fun iv => R (snd iv)) (combine (seq s (length l)) l).
Proof. intros H. revert s. induction H as [|x l Hx Hl IH]; intros s; cbn; constructor; cbn; auto. Qed.
Lemma Forall_enumerate {T} (R : T -> Prop) l : Forall R l -> Forall (fun iv => R (snd iv)) (enumerate l).
Proof. apply Forall_combine_seq. Qed.

Lemma ag_select cs b : G b -> Forall G cs -> ag (k_select P CK cs b) (Ok (select P cs b)).
Proof.
  intros Hb Hcs. unfold k_select, select, min_by. apply Forall_enumerate in Hcs.
  destruct (enumerate cs) as [|x l]; [apply ag_ret|]. inversion Hcs as [|? ? Hx Hl]; subst.
  eapply ag_step; [apply (ag_min_by (fun iv => G (snd iv))); auto|apply ag_ret].
  intros y z Hy Hz. now apply ag_select_cmp.
Qed.

Lemma ag_fold {A S} (R : A -> Prop) kf f : (forall s x, R x -> ag (kf s x) (Ok (f s x))) ->
  forall l s, Forall R l -> ag (k_fold (S := S) P kf l s) (Ok (fold_left f l s)).
Proof.
  intros Hf. induction l as [|x l IH]; intros s Hl; cbn [k_fold fold_left]; [apply ag_ret|].
  inversion Hl; subst. eapply ag_step; [apply Hf; auto|]. now apply IH.
Qed.

Section AgSplit.
Context {T : Type} (bnd : T -> B).
Notation good := (fun x => G (bnd x)).

Lemma ag_worst values ov : Forall good values -> G (bnd ov) ->
  ag (k_worst_combination P CK bnd values ov) (worst_combination P bnd values ov).
Proof.
  intros Hv Ho. unfold k_worst_combination, worst_combination. destruct values as [|v0 vs] eqn:Ev; [apply ag_lift|]. rewrite <- Ev in *. clear Ev.
  assert (He := Forall_enumerate _ _ Hv).
  eapply ag_step.
  { apply (ag_fold (fun iv => G (bnd (snd iv)))) with (f := wc_loop1 P bnd ov); [|exact He]. intros [g i1] [i x] Hx. cbn [snd] in Hx. unfold k_loop1, wc_loop1.
    eapply ag_step; [apply ag_union|]. eapply ag_step; [apply ag_vol; auto|]. apply ag_ret. }
  destruct (fold_left _ _ _) as [g i1]. eapply ag_step.
  { instantiate (1 := wc_outer P bnd ov (enumerate values) (g, i1, length values)). generalize (g, i1, length values).
    induction He as [|[i vi] r Hvi Hr IH]; intros s; cbn [k_outer wc_outer]; [apply ag_ret|].
    eapply ag_step; [|apply IH]. apply (ag_fold (fun iv => G (bnd (snd iv)))); [|exact Hr].
    intros [[g' i1'] i2'] [j vj] Hj. cbn [snd] in *. unfold k_loop2, wc_loop2.
    eapply ag_step; [apply ag_union|]. eapply ag_step; [apply ag_union|]. eapply ag_step; [apply ag_vol; auto|]. apply ag_ret. }
  destruct (wc_outer _ _ _ _ _) as [[g' j1] j2]. apply ag_ret.
Qed.

Lemma ag_seed values ov : Forall good values -> G (bnd ov) ->
  ag (k_seed_split_groups P CK bnd values ov) (seed_split_groups P bnd values ov).
Proof.
  intros Hv Ho. unfold k_seed_split_groups, seed_split_groups. apply ag_bind; [now apply ag_worst|].
  intros [i1 i2] _. apply ag_lift_bind. intros vs _. destruct (i2 <? length vs); [|apply ag_ret]. destruct (nth_error vs i2); [apply ag_ret|apply ag_lift].
Qed.

Lemma seed_good values ov vs x : Forall good values -> G (bnd ov) -> seed_split_groups P bnd values ov = Ok (vs, x) ->
  Forall good vs /\ G (bnd x).
Proof.
  intros Hv Ho. unfold seed_split_groups. destruct (worst_combination _ _ _ _) as [[i1 i2]| | |]; try discriminate. cbn [bind].
  destruct (slice_swap 0 i1 values) as [vs'| | |] eqn:Es; try discriminate. cbn [bind]. apply slice_swap_Forall with (R := good) in Es; [|exact Hv].
  destruct (i2 <? length vs'); [|intros E; injection E as <- <-; now split].
  destruct (nth_error vs' i2) as [y|] eqn:Ey; [|discriminate]. intros E. injection E as <- <-.
  split; [apply Forall_set_nth; auto|]. exact (Forall_nth_error _ _ _ _ Es Ey).
Qed.

Lemma ag_increases cs b : Forall good cs -> G b ->
  ag (k_increases P CK bnd cs b (volume VO b)) (Ok (map (fun v => n64_sub VO (volume VO (b_union BO (bnd v) b)) (volume VO b)) cs)).
Proof.
  intros Hc Hb. induction Hc as [|x cs Hx Hcs IH]; cbn [k_increases map]; [apply ag_ret|].
  eapply ag_step; [apply ag_union|]. eapply ag_step; [apply ag_vol; auto|]. eapply ag_step; [apply ag_sub; auto|].
  eapply ag_step; [exact IH|apply ag_ret].
Qed.

Lemma ag_candidate cs b : Forall good cs -> G b ->
  ag (k_best_candidate P CK bnd cs b) (Ok (best_candidate_for_group P bnd cs b)).
Proof.
  intros Hc Hb. unfold k_best_candidate, best_candidate_for_group. eapply ag_step; [apply ag_vol; auto|].
  eapply ag_step; [apply ag_increases; auto|apply ag_ret].
Qed.

Lemma ag_split_loop fuel cap min values g1 group2 b1 b2 :
  Forall good values -> G b1 -> G b2 ->
  ag (k_split_loop P CK bnd fuel cap min values g1 group2 b1 b2) (split_loop P bnd fuel cap min values g1 group2 b1 b2).
Proof.
  revert values g1 group2 b1 b2. induction fuel as [|fuel IH]; intros values g1 group2 b1 b2 Hv H1 H2; cbn [k_split_loop split_loop];
    (destruct (g1 <? length values); [|apply ag_ret]); [apply ag_lift|].
  assert (Hr : Forall good (skipn g1 values)).
  { rewrite <- (firstn_skipn g1 values) in Hv. now apply Forall_app in Hv. }
  eapply ag_step; [apply ag_candidate; auto|]. apply ag_lift_bind. intros [c1 v1] _.
  eapply ag_step; [apply ag_candidate; auto|]. apply ag_lift_bind. intros [c2 v2] _.
  destruct (if n64_lt P v1 v2 then _ else _).
  - apply ag_lift_bind. intros x Ex. eapply ag_step; [apply ag_union|]. apply ag_lift_bind. intros vs Es.
    apply IH; auto. + eapply slice_swap_Forall; eauto. + apply Gunion; auto.
      destruct (nth_error _ c1) eqn:E; [|discriminate]. injection Ex as ->. exact (Forall_nth_error _ _ _ _ Hr E).
  - apply ag_lift_bind. intros x Ex. eapply ag_step; [apply ag_union|]. apply ag_lift_bind. intros [y vs] Es.
    apply ag_lift_bind. intros g2 _. destruct (swap_remove_Forall good _ _ _ _ Es Hv) as [_ Hvs].
    apply IH; auto. apply Gunion; auto.
    destruct (nth_error _ c2) eqn:E; [|discriminate]. injection Ex as ->. exact (Forall_nth_error _ _ _ _ Hr E).
Qed.

Lemma ag_split cap min values ov : Forall good values -> G (bnd ov) ->
  ag (k_split P CK bnd cap min values ov) (split P bnd cap min values ov).
Proof.
  intros Hv Ho. unfold k_split, split. destruct (length values <? 1); [apply ag_lift|]. apply ag_bind; [now apply ag_seed|].
  intros [vs seed] E. destruct (seed_good _ _ _ _ Hv Ho E) as [Hvs Hs]. apply ag_lift_bind. intros g2 Eg. apply ag_lift_bind. intros v0 Ev.
  apply ag_lift_bind. intros w0 Ew. apply ag_split_loop; auto.
  - destruct vs; [discriminate|]. injection Ev as <-. now inversion Hvs.
  - unfold push in Eg. destruct (_ =? _); [discriminate|]. injection Eg as <-. injection Ew as <-. exact Hs.
Qed.
End AgSplit.

(** *** The tree *)
Context (ok : K -> Prop) (rel : B -> list K -> Prop) (L : rel_laws P ok rel).
Context (lo : nat) (strict : Prop).
Notation node := (node B K V).
Notation cap := (max_children cfg).
Notation minc := (min_children cfg).
Notation wf := (wf cfg ok rel lo strict).
Notation child_ok := (child_ok cfg ok rel lo strict).
Notation entry_ok := (entry_ok cfg ok rel lo strict).
Notation wf_root := (wf_root cfg ok rel lo strict False).
Context (Hlo : strict -> lo <= 1 \/ lo <= Nat.min minc (cap - minc)).
Context (Gkey : forall k, ok k -> G (kb k)).
Context (Gchild : forall l (c : node), child_ok l c -> G (node_bounds c)).
Ltac nof := try (intros F; exact (False_ind _ F)).

Lemma entry_good (e : entry B K V) : entry_ok e -> G (entry_bounds P e).
Proof. destruct e as [[l c]|[k v]]; cbn; [apply Gchild|apply Gkey]. Qed.

Lemma children_good l b (cs : list node) : wf (S l) (Node b (CInner cs)) -> Forall (fun c => G (node_bounds c)) cs.
Proof. rewrite wf_inner. intros (_ & _ & H). eapply Forall_impl; [|exact H]. intros c Hc. exact (Gchild l c Hc). Qed.

Lemma ag_self_insert level (n : node) e : wf level n -> entry_ok e ->
  ag (k_self_insert P CK cfg level n e) (self_insert P cfg level n e).
Proof.
  intros Hw He. unfold k_self_insert, self_insert. apply ag_lift_bind. intros ch Ech.
  destruct ch as [cs|es], e as [[el en]|kv]; try apply ag_lift.
  - destruct (negb _); [apply ag_lift|]. unfold try_push. destruct (length cs =? cap).
    + apply ag_bind.
      * apply ag_split; [|exact (Gchild _ _ He)].
        destruct level as [|l]; [destruct (wf_inv _ _ _ _ _ _ _ Hw) as (b & x & ->); discriminate|].
        destruct (wf_inv _ _ _ _ _ _ _ Hw) as (b & x & ->). cbn in Ech. injection Ech as ->. exact (children_good _ _ _ Hw).
      * intros [[[b1 b2] g1] g2] _. apply ag_ret.
    + eapply ag_step; [apply ag_union|apply ag_ret].
  - unfold try_push. destruct (length es =? cap).
    + apply ag_bind.
      * apply ag_split; [|exact (Gkey _ He)].
        destruct level as [|l]; [|destruct (wf_inv _ _ _ _ _ _ _ Hw) as (b & x & ->); discriminate].
        destruct (wf_inv _ _ _ _ _ _ _ Hw) as (b & x & ->). cbn in Ech. injection Ech as ->. rewrite wf_leaf in Hw.
        eapply Forall_impl; [|exact (proj2 (proj2 Hw))]. intros c Hc. exact (Gkey _ Hc).
      * intros [[[b1 b2] g1] g2] _. apply ag_ret.
    + eapply ag_step; [apply ag_union|apply ag_ret].
Qed.

(** What a recursive insertion leaves is fit to be inserted again. *)
Lemma parts_ok l b (cs : list node) i child child' m added : wf (S l) (Node b (CInner cs)) -> nth_error cs i = Some child ->
  ins_post cfg ok rel lo strict l child added (child', Some m) ->
  wf (S l) (Node (b_union_all BO (map node_bounds (set_nth i child' cs))) (CInner (set_nth i child' cs))) /\ entry_ok (EInner m).
Proof.
  intros Hw Hc Hp. destruct m as [lv m]. cbn [ins_post] in Hp. destruct Hp as (-> & _ & Hw1 & Hw2 & Hlo').
  rewrite wf_inner in Hw. destruct Hw as (_ & Hlen & Hcs). split.
  - assert (Hcs' : Forall (child_ok l) (set_nth i child' cs)).
    { apply Forall_set_nth; [exact Hcs|]. split; [exact Hw1|]. intros HS. apply Hlo', HS. }
    rewrite wf_inner. split; [|split; [now rewrite set_nth_length|exact Hcs']].
    eapply (children_rel P cfg ok rel L lo strict l); exact Hcs'.
  - cbn. split; [exact Hw2|]. intros HS. apply Hlo', HS.
Qed.

Lemma ag_node_insert level (n : node) e : wf level n -> entry_ok e -> target_level e <= level ->
  ag (k_node_insert P CK cfg level n e) (node_insert P cfg level n e).
Proof.
  revert n. induction level as [|l IH]; intros n Hw He Ht; cbn [k_node_insert node_insert].
  - destruct (negb _); [apply ag_lift|now apply ag_self_insert].
  - destruct (negb (target_level e =? S l)) eqn:Et; [|now apply ag_self_insert].
    assert (Ht' : target_level e <= l) by (apply negb_true_iff, Nat.eqb_neq in Et; lia).
    destruct (wf_inv _ _ _ _ _ _ _ Hw) as (b & cs & ->). cbn [node_children read_inner bind].
    assert (Hw' := Hw). rewrite wf_inner in Hw'. destruct Hw' as (_ & Hlen & Hcs).
    eapply ag_step; [apply ag_lift|]. eapply ag_step.
    { apply ag_select; [apply entry_good, He|]. apply Forall_map. exact (children_good _ _ _ Hw). }
    apply ag_lift_bind. intros i _. apply ag_lift_bind. intros child Ec.
    assert (Hc : nth_error cs i = Some child) by (destruct (nth_error cs i); [now injection Ec as ->|discriminate]).
    assert (Hcok := Forall_nth_error _ _ _ _ Hcs Hc). destruct Hcok as [Hcw Hcl].
    apply ag_bind; [now apply IH|]. intros [child' sib] Es. destruct sib as [m|]; [|eapply ag_step; [apply ag_union|apply ag_ret]].
    eapply ag_step; [apply ag_union_all|].
    assert (Hpost := node_insert_spec P cfg ok rel L lo strict False ltac:(nof) ltac:(nof) Hlo l child e Hcw ltac:(nof) He Ht').
    rewrite Es in Hpost. cbn [post] in Hpost. destruct (parts_ok l b cs i child child' m _ Hw Hc Hpost) as [H1 H2].
    now apply ag_self_insert.
Qed.

Lemma ag_node_insert_unique level (n : node) k v : wf level n -> ok k ->
  ag (k_node_insert_unique P CK cfg level n k v) (node_insert_unique P cfg level n k v).
Proof.
  assert (Hplain : forall level n, wf level n -> ok k ->
    ag (let^ (n, sibling) := k_node_insert P CK cfg level n (ELeaf (k, v)) in cret (None, n, sibling))
       (let* (n, sibling) := node_insert P cfg level n (ELeaf (k, v)) in Ok (@None V, n, sibling))).
  { intros lv m Hm Hk. apply ag_bind; [apply ag_node_insert; auto; cbn; lia|]. intros [n' sib] _. apply ag_ret. }
  revert n. induction level as [|l IH]; intros n Hw Hk; cbn [k_node_insert_unique node_insert_unique].
  - destruct (wf_inv _ _ _ _ _ _ _ Hw) as (b & es & ->). cbn [node_children read_leaf bind].
    eapply ag_step; [apply ag_lift|]. destruct (entries_get_mut _ _ _) as [[old put]|]; [apply ag_ret|]. now apply (Hplain 0).
  - destruct (wf_inv _ _ _ _ _ _ _ Hw) as (b & cs & ->). cbn [node_children read_inner bind].
    eapply ag_step; [apply ag_lift|].
    destruct (filter _ _) as [|[i child] [|y fs]] eqn:Ef; [now apply (Hplain (S l))| |].
    + assert (Hc : nth_error cs i = Some child).
      { assert (Hin : In (i, child) [(i, child)]) by now left. rewrite <- Ef in Hin. apply filter_In in Hin as [Hin _]. now apply in_enumerate in Hin. }
      assert (Hw' := Hw). rewrite wf_inner in Hw'. destruct Hw' as (_ & Hlen & Hcs).
      destruct (Forall_nth_error _ _ _ _ Hcs Hc) as [Hcw Hcl].
      apply ag_bind; [now apply IH|]. intros [[old child'] sib] Es. destruct sib as [m|]; [|eapply ag_step; [apply ag_union|apply ag_ret]].
      eapply ag_step; [apply ag_union_all|].
      assert (Hpost := node_insert_unique_spec P cfg ok rel L lo strict False ltac:(nof) ltac:(nof) Hlo False (False_rect _) l child k v Hcw ltac:(nof) Hk).
      rewrite Es in Hpost. cbn [post] in Hpost. destruct old as [old|]; cbn [uniq_post] in Hpost; [destruct Hpost as [Hx _]; discriminate|].
      destruct (parts_ok l b cs i child child' m _ Hw Hc (proj1 Hpost)) as [H1 H2].
      apply ag_bind; [now apply ag_self_insert|]. intros [n' sib'] _. apply ag_ret.
    + apply ag_lift_bind. intros found _. destruct found as [[old put]|]; [apply ag_ret|]. now apply (Hplain (S l)).
Qed.

Lemma ag_branch (root sib : container B K V) : ag (k_branch P cfg root sib) (branch P cfg root sib).
Proof.
  unfold k_branch, branch. destruct (negb _); [apply ag_lift|]. eapply ag_step; [apply ag_union|].
  apply ag_lift_bind. intros v _. apply ag_lift_bind. intros v' _. apply ag_ret.
Qed.

Lemma ag_insert_entry (t : rtree B K V) e : wf_root t -> entry_ok e -> target_level e <= fst t ->
  ag (k_insert_entry P CK cfg t e) (insert_entry P cfg t e).
Proof.
  intros [Hw _] He Ht. unfold k_insert_entry, insert_entry. apply ag_bind; [now apply ag_node_insert|].
  intros [n sib] _. destruct sib; [apply ag_branch|apply ag_ret].
Qed.

Lemma ag_insert_unique (t : rtree B K V) k v : wf_root t -> ok k ->
  ag (k_container_insert_unique P CK cfg t k v) (container_insert_unique P cfg t k v).
Proof.
  intros [Hw _] Hk. unfold k_container_insert_unique, container_insert_unique. apply ag_bind; [now apply ag_node_insert_unique|].
  intros [[old n] sib] _. destruct sib; [|apply ag_ret]. apply ag_bind; [apply ag_branch|]. intros r _. apply ag_ret.
Qed.

Lemma ag_node_remove {Q} (BR : Borrowed B K Q) level (n : node) q : ag (k_node_remove P cfg BR level n q) (node_remove P cfg BR level n q).
Proof.
  revert n. induction level as [|l IH]; intros n; cbn [k_node_remove node_remove].
  - apply ag_lift_bind. intros es _. destruct (position _ _); [|apply ag_ret]. apply ag_lift_bind. intros [kv es'] _.
    eapply ag_step; [apply ag_union_all|apply ag_ret].
  - apply ag_lift_bind. intros cs _. generalize (length cs). intros i. revert cs. induction i as [|i IHi]; intros cs; [apply ag_ret|].
    apply ag_lift_bind. intros child _. destruct (b_intersects _ _ _); [|apply IHi]. apply ag_bind; [apply IH|].
    intros [[value child'] unders] _. destruct value as [value|]; [|apply IHi]. apply ag_lift_bind. intros len _.
    apply ag_bind.
    + destruct (len <? minc); [|apply ag_ret]. apply ag_lift_bind. intros [c cs'] _. apply ag_lift_bind. intros cc _. apply ag_ret.
    + intros [cs' unders'] _. eapply ag_step; [apply ag_union_all|apply ag_ret].
Qed.

Lemma ag_insert_entries es : forall (t : rtree B K V), wf_root t -> Forall (fun e => entry_ok e /\ target_level e <= fst t) es ->
  ag (k_insert_entries P CK cfg t es) (insert_entries P cfg t es).
Proof.
  induction es as [|e es IH]; intros t Hw Hes; cbn [k_insert_entries insert_entries]; [apply ag_ret|].
  inversion Hes as [|? ? [He Ht] Hes']; subst. apply ag_bind; [now apply ag_insert_entry|]. intros t' Et.
  assert (H := insert_entry_spec P cfg ok rel L lo strict False ltac:(nof) ltac:(nof) Hlo t e Hw He Ht). rewrite Et in H. cbn [post] in H.
  destruct H as (_ & Hw' & Hl). apply IH; [exact Hw'|]. eapply Forall_impl; [|exact Hes']. intros e' [? ?]. split; [assumption|lia].
Qed.

Context (Hrem : strict -> lo <= minc).

Lemma ag_reinsert arr : forall (t : rtree B K V) level, wf_root t -> arr_ok cfg ok rel lo strict level arr -> level + length arr <= S (fst t) ->
  ag (k_reinsert P CK cfg t level arr) (reinsert P cfg t level arr).
Proof.
  induction arr as [|[ch|] arr IH]; intros t level Hw Ha Hl; cbn [k_reinsert reinsert]; [apply ag_ret| |].
  - assert (Hs := Ha 0 ch eq_refl). rewrite Nat.add_0_r in Hs. cbn [length] in Hl.
    destruct (wrap_children_spec cfg ok rel lo strict False ltac:(nof) Hlo Hrem ltac:(nof) level ch Hs) as (cc & -> & _ & _ & Hent). cbn [bind]. eapply ag_step; [apply ag_lift|].
    assert (Hes : Forall (fun e => entry_ok e /\ target_level e <= fst t) (cc_entries cc)).
    { eapply Forall_impl; [|exact Hent]. intros e [? ?]. split; [assumption|lia]. }
    apply ag_bind; [now apply ag_insert_entries|]. intros t' Et.
    assert (H := insert_entries_spec P cfg ok rel L lo strict False ltac:(nof) ltac:(nof) Hlo Hrem ltac:(nof) (cc_entries cc) t Hw Hes).
    rewrite Et in H. cbn [post] in H. destruct H as (_ & Hw' & Hl'). apply IH; [exact Hw'| |lia].
    intros i ch' Hi. replace (S level + i) with (level + S i) by lia. now apply Ha.
  - cbn [length] in Hl. apply IH; [exact Hw| |lia]. intros i ch' Hi. replace (S level + i) with (level + S i) by lia. now apply Ha.
Qed.

Lemma ag_remove {Q} (BR : Borrowed B K Q) (t : rtree B K V) q : wf_root t ->
  ag (k_container_remove P CK cfg BR t q) (container_remove P cfg BR t q).
Proof.
  intros [Hw _]. destruct t as [level n]. unfold k_container_remove, container_remove. cbn [fst snd] in *.
  apply ag_bind; [apply ag_node_remove|]. intros [[value n'] unders] En.
  assert (Hpost := node_remove_spec P cfg ok rel L lo strict BR False ltac:(nof) Hlo Hrem ltac:(nof) False (False_rect _) level n q Hw). rewrite En in Hpost. cbn [post] in Hpost.
  apply ag_lift_bind. intros arr Ea. destruct value as [v|]; [|apply ag_ret]. cbn [rem_post] in Hpost.
  destruct Hpost as (k & Hk & Hp & Hw' & Hf & Hf0 & Hu & Hnd & Hlv).
  rewrite Forall_forall in Hlv.
  destruct (store_all_spec cfg ok rel lo strict False ltac:(nof) Hlo Hrem ltac:(nof) unders (repeat None level)) as (arr' & Ea' & Hl & Ha & _); auto.
  { intros cc Hin. apply nth_error_rep. now apply Hlv. }
  { intros i ch Hi. apply nth_error_In, repeat_spec in Hi. discriminate. }
  rewrite Ea in Ea'. injection Ea' as <-. rewrite repeat_length in Hl.
  apply ag_lift_bind. intros t1 Et.
  assert (H := try_unbranch_spec cfg ok rel lo strict False ltac:(nof) ltac:(nof) Hlo Hrem ltac:(nof) level n' Hw' ltac:(nof)).
  rewrite Et in H. cbn [post] in H. destruct H as (_ & Hw1 & Hl1).
  apply ag_bind; [apply ag_reinsert; [exact Hw1|exact Ha|lia]|]. intros t2 _. apply ag_ret.
Qed.
End Agree.
