(** At every inner level some node has two children: what keeps the root from running empty when
    [min_children >= 2] is larger than half of [max_children]. *)
From Verif Require Export Reach.

Section WideAt.
Context {B K V : Type}.
Notation node := (node B K V).

(** Some node at level [i] inside [n] (which is at [level]) has two children. *)
Fixpoint wide_at (level i : nat) (n : node) : Prop :=
  (level = i /\ 2 <= fanout n) \/
  match level, node_children n with
  | S l, CInner cs => Exists (wide_at l i) cs
  | _, _ => False
  end.

Lemma wide_inner l i b cs : wide_at (S l) i (Node b (CInner cs)) <-> (S l = i /\ 2 <= length cs) \/ Exists (wide_at l i) cs.
Proof. reflexivity. Qed.

Lemma wide_le level i n : wide_at level i n -> i <= level.
Proof.
  revert n; induction level as [|l IH]; intros n [H|H]; try lia.
  destruct n as [b [cs|es]]; cbn in H; [|destruct H]. apply Exists_exists in H as (c & _ & H). apply IH in H. lia.
Qed.

End WideAt.

Lemma map_node_wide {B K V W} (f : V -> W) level i (n : node B K V) :
  wide_at level i (map_node f n) <-> wide_at level i n.
Proof.
  revert n; induction level as [|l IH]; intros n; cbn [wide_at]; rewrite map_node_fanout;
    destruct n as [b [cs|es]]; cbn [map_node node_children]; try reflexivity.
  rewrite !Exists_exists.
  assert (E : (exists x, In x (map (map_node f) cs) /\ wide_at l i x) <-> (exists x, In x cs /\ wide_at l i x)).
  { split; intros (x & Hx & H).
    - apply in_map_iff in Hx as (c & <- & Hx). apply IH in H. eauto.
    - exists (map_node f x). split; [now apply in_map|]. now apply IH. }
  rewrite E. reflexivity.
Qed.

Lemma erase_wide {B K V} level i (n n' : node B K V) : erase n = erase n' -> wide_at level i n -> wide_at level i n'.
Proof.
  unfold erase. intros E H. apply (map_node_wide (fun _ => tt)) in H. rewrite E in H. now apply map_node_wide in H.
Qed.

Section Wide.
Context {B K V : Type} (P : Params B K) (cfg : config) (ok : K -> Prop).
Notation node := (node B K V).
Notation cap := (max_children cfg).
Notation minc := (min_children cfg).
Notation wf := (wf cfg ok rel_any 1 True).
Notation child_ok := (child_ok cfg ok rel_any 1 True).
Notation entry_ok := (entry_ok cfg ok rel_any 1 True).

Definition sib_wide (level i : nat) (sib : option (container B K V)) : Prop :=
  match sib with Some m => wide_at level i (snd m) | None => False end.

(** What an entry brings: its own nodes, and one more child for the node that takes it. *)
Definition ewide (i : nat) (e : entry B K V) : Prop :=
  match e with EInner c => i = S (fst c) \/ wide_at (fst c) i (snd c) | ELeaf _ => False end.

Context (Hcap : 2 <= cap).
Lemma Hlo1 : True -> 1 <= 1 \/ 1 <= Nat.min minc (cap - minc). Proof. lia. Qed.

Lemma self_insert_wide l b cs (m : node) n' sib i :
  wf (S l) (Node b (CInner cs)) -> child_ok l m -> 1 <= length cs ->
  self_insert P cfg (S l) (Node b (CInner cs)) (EInner (l, m)) = Ok (n', sib) ->
  i = S l \/ Exists (wide_at l i) (m :: cs) ->
  wide_at (S l) i n' \/ sib_wide (S l) i sib.
Proof.
  intros Hwf Hm Hne E Hi. unfold self_insert in E. cbn [children_at node_children read_inner bind fst] in E.
  destruct (Nat.eqb_spec (S l - 1) l) as [_|]; [|lia]. cbn [negb] in E.
  rewrite wf_inner in Hwf. destruct Hwf as (_ & Hl & Hcs).
  unfold try_push in E. destruct (Nat.eqb_spec (length cs) cap) as [Hfull|Hnf].
  - assert (Hs := split_spec P node_bounds ok rel_any (any_laws P ok) keys cap minc cs m Hfull).
    destruct (split P node_bounds cap minc cs m) as [[[[b1 b2] g1] g2]| | |]; try discriminate.
    cbn [bind] in E. injection E as <- <-. cbn [post] in Hs.
    destruct Hs as (Hp & _ & _ & Hsum & _).
    { apply Forall_forall. intros. exact I. }
    cbn [sib_wide snd]. rewrite !wide_inner. destruct Hi as [->|Hi].
    + assert (2 <= length g1 \/ 2 <= length g2) as [H|H] by lia; [left|right]; left; auto.
    + rewrite Hp in Hi. apply Exists_app in Hi as [Hi|Hi]; auto.
  - injection E as <- <-. left. rewrite wide_inner, app_length. cbn [length]. destruct Hi as [->|Hi].
    + left. split; [reflexivity|lia].
    + right. apply Exists_app. inversion Hi; subst; [right; now constructor|now left].
Qed.

Lemma Exists_set_nth_elim {T} (R R' : T -> Prop) i x y (l : list T) :
  nth_error l i = Some x -> Exists R l -> (R x -> R' y) -> (forall z, R z -> R' z) -> Exists R' (set_nth i y l).
Proof.
  intros Hx He Hxy Hz. destruct (nth_error_split_set i x y l Hx) as (l1 & l2 & -> & _ & ->).
  apply Exists_app in He as [He|He]; apply Exists_app.
  - left. eapply Exists_impl; [exact Hz|exact He].
  - right. inversion He; subst; [constructor 1; auto|constructor 2]. eapply Exists_impl; [exact Hz|assumption].
Qed.

Lemma Exists_set_nth_new {T} (R : T -> Prop) i (x y : T) (l : list T) :
  nth_error l i = Some x -> R y -> Exists R (set_nth i y l).
Proof.
  intros Hx Hy. destruct (nth_error_split_set i x y l Hx) as (l1 & l2 & -> & _ & ->).
  apply Exists_app. right. now constructor.
Qed.

Lemma wide_replaced l i b cs j c c' sib (X : Prop) :
  nth_error cs j = Some c -> i <> S l ->
  (wide_at l i c \/ X -> wide_at l i c' \/ sib_wide l i sib) ->
  wide_at (S l) i (Node b (CInner cs)) \/ X ->
  match sib with
  | Some m => Exists (wide_at l i) (snd m :: set_nth j c' cs)
  | None => Exists (wide_at l i) (set_nth j c' cs)
  end.
Proof.
  intros Hc Hi Himp H. rewrite wide_inner in H.
  assert (HH : (wide_at l i c \/ X) \/ Exists (wide_at l i) (set_nth j c' cs)).
  { destruct H as [[[H _]|H]|H]; [congruence| |left; now right].
    destruct (nth_error_split_set j c c' cs Hc) as (l1 & l2 & E1 & _ & E2). rewrite E1 in H.
    apply Exists_app in H as [H|H]; [right; rewrite E2; apply Exists_app; now left|].
    inversion H; subst; [now left; left|]. right. rewrite E2. apply Exists_app. right. now constructor 2. }
  destruct HH as [HH|HH].
  - destruct (Himp HH) as [H'|H'].
    + assert (E := Exists_set_nth_new _ _ _ _ _ Hc H'). destruct sib; [now constructor 2|exact E].
    + destruct sib as [m|]; [|destruct H']. now constructor 1.
  - destruct sib; [now constructor 2|exact HH].
Qed.

(** The common tail. *)
Lemma child_inserted_wide l b cs j c c' sib added eb i n' sib' (X : Prop) :
  wf (S l) (Node b (CInner cs)) -> nth_error cs j = Some c ->
  ins_post cfg ok rel_any 1 True l c added (c', sib) ->
  (X -> i <> S l) ->
  (wide_at l i c \/ X -> wide_at l i c' \/ sib_wide l i sib) ->
  match sib with
  | Some new_child =>
    self_insert P cfg (S l)
      (Node (b_union_all (bops P) (map node_bounds (set_nth j c' cs))) (CInner (set_nth j c' cs)))
      (EInner new_child)
  | None => Ok (Node (b_union (bops P) b eb) (CInner (set_nth j c' cs)), None)
  end = Ok (n', sib') ->
  wide_at (S l) i (Node b (CInner cs)) \/ X ->
  wide_at (S l) i n' \/ sib_wide (S l) i sib'.
Proof.
  intros Hwf Hc Hpost HX Himp E Hw.
  assert (Hwf' := Hwf). rewrite wf_inner in Hwf'. destruct Hwf' as (Hr & Hl & Hcs).
  assert (Hcok : child_ok l c) by (eapply Forall_nth_error; eassumption).
  assert (Hlen : 1 <= length cs) by (apply nth_error_lt in Hc; lia).
  destruct (Nat.eq_dec i (S l)) as [->|Hne].
  - destruct sib as [[lv m]|]; cbn [ins_post] in Hpost.
    + destruct Hpost as (-> & _ & Hw1 & Hw2 & Hlos). specialize (Hlos I).
      eapply self_insert_wide; [| | |exact E|now left].
      * rewrite wf_inner, set_nth_length. repeat split; auto. apply Forall_set_nth; [exact Hcs|]. split; [exact Hw1|tauto].
      * split; [exact Hw2|tauto].
      * now rewrite set_nth_length.
    + injection E as <- <-. left. rewrite wide_inner, set_nth_length in *. destruct Hw as [[Hw|Hw]|Hw]; auto.
      * apply Exists_exists in Hw as (z & _ & Hz). apply wide_le in Hz. lia.
      * now elim (HX Hw).
  - assert (H := wide_replaced l i b cs j c c' sib X Hc Hne Himp Hw).
    destruct sib as [[lv m]|]; cbn [ins_post snd] in *.
    + destruct Hpost as (-> & _ & Hw1 & Hw2 & Hlos). specialize (Hlos I).
      eapply self_insert_wide; [| | |exact E|right; exact H].
      * rewrite wf_inner, set_nth_length. repeat split; auto. apply Forall_set_nth; [exact Hcs|]. split; [exact Hw1|tauto].
      * split; [exact Hw2|tauto].
      * now rewrite set_nth_length.
    + injection E as <- <-. left. rewrite wide_inner. now right.
Qed.

Lemma node_insert_wide level n e n' sib i :
  wf level n -> (level <> 0 -> 1 <= fanout n) -> entry_ok e -> target_level e <= level -> 1 <= i ->
  node_insert P cfg level n e = Ok (n', sib) ->
  wide_at level i n \/ ewide i e -> wide_at level i n' \/ sib_wide level i sib.
Proof.
  revert n n' sib; induction level as [|l IH]; intros n n' sib Hwf Hne He Ht Hi E Hw.
  - exfalso. destruct Hw as [Hw|Hw].
    + apply wide_le in Hw. lia.
    + destruct e as [[el en]|]; cbn in *; [lia|exact Hw].
  - cbn [node_insert] in E. destruct (wf_inv _ _ _ _ _ _ _ Hwf) as (b & cs & ->).
    destruct (Nat.eqb_spec (target_level e) (S l)) as [Et|Et]; cbn [negb] in E.
    { destruct e as [[el en]|]; cbn [target_level fst] in Et; [|discriminate]. assert (el = l) by lia. subst el.
      eapply self_insert_wide; [exact Hwf|exact He|exact (Hne ltac:(lia))|exact E|].
      cbn [ewide fst snd] in Hw. rewrite wide_inner in Hw.
      destruct Hw as [[[Hw _]|Hw]|[Hw|Hw]]; [now left|right; now constructor 2|left; lia|right; now constructor 1]. }
    cbn [node_children read_inner bind] in E.
    destruct (select P (map node_bounds cs) (entry_bounds P e)) as [j|]; [|discriminate].
    cbn [unwrap bind] in E. destruct (nth_error cs j) as [c|] eqn:Hc; [|discriminate]. cbn [unwrap bind] in E.
    assert (Hcok : child_ok l c).
    { rewrite wf_inner in Hwf. destruct Hwf as (_ & _ & Hcs). eapply Forall_nth_error; eassumption. }
    destruct Hcok as [Hcwf Hclo]. specialize (Hclo I).
    assert (Hc1 : l <> 0 -> 1 <= fanout c) by (unfold lo_at in Hclo; destruct l; lia).
    assert (Hins := node_insert_spec P cfg ok rel_any (any_laws P ok) 1 True True (fun x => x) (fun _ => Hcap)
                      (fun _ => or_introl (le_n 1)) l c e Hcwf (fun _ => Hc1) He ltac:(lia)).
    destruct (node_insert P cfg l c e) as [[c' sib0]| | |] eqn:Ec; try discriminate. cbn [post] in Hins. cbn [bind] in E.
    eapply (child_inserted_wide l b cs j c c' sib0 _ _ i n' sib (ewide i e)); [exact Hwf|exact Hc|exact Hins| | |exact E|exact Hw].
    + intros HX ->. destruct e as [[el en]|]; cbn in *; [|exact HX].
      destruct HX as [HX|HX]; [lia|]. apply wide_le in HX. lia.
    + apply (IH c c' sib0); auto. lia.
Qed.

Notation nopan := (fun x : True => x).
Notation capT := (fun _ : True => Hcap).
Notation lo1 := (fun _ : True => or_introl (le_n 1) : 1 <= 1 \/ 1 <= Nat.min minc (cap - minc)).

Lemma node_insert_unique_wide level n k v old n' sib i :
  wf level n -> (level <> 0 -> 1 <= fanout n) -> ok k -> 1 <= i ->
  node_insert_unique P cfg level n k v = Ok (old, n', sib) ->
  wide_at level i n -> wide_at level i n' \/ sib_wide level i sib.
Proof.
  revert n old n' sib; induction level as [|l IH]; intros n old n' sib Hwf Hne Hk Hi E Hw.
  { exfalso. apply wide_le in Hw. lia. }
  cbn [node_insert_unique] in E. destruct (wf_inv _ _ _ _ _ _ _ Hwf) as (b & cs & ->).
  cbn [node_children read_inner bind] in E.
  set (plain := bind (node_insert P cfg (S l) (Node b (CInner cs)) (ELeaf (k, v))) _) in E.
  assert (Hplain : plain = Ok (old, n', sib) -> wide_at (S l) i n' \/ sib_wide (S l) i sib).
  { unfold plain. destruct (node_insert P cfg (S l) (Node b (CInner cs)) (ELeaf (k, v))) as [[m s]| | |] eqn:Ei; try discriminate.
    cbn [bind]. intros [= _ <- <-].
    eapply node_insert_wide; [exact Hwf|exact Hne| | |exact Hi|exact Ei|left; exact Hw]; [exact Hk|cbn; lia]. }
  destruct (filter _ (enumerate cs)) as [|[j c] [|ic2 rest]] eqn:Ef.
  - exact (Hplain E).
  - apply (filter_enumerate_one (fun c => b_contains (bops P) (node_bounds c) (key_bounds P k))) in Ef as (Hc & _ & _).
    assert (Hcok : child_ok l c).
    { rewrite wf_inner in Hwf. destruct Hwf as (_ & _ & Hcs). eapply Forall_nth_error; eassumption. }
    destruct Hcok as [Hcwf Hclo]. specialize (Hclo I).
    assert (Hc1 : l <> 0 -> 1 <= fanout c) by (unfold lo_at in Hclo; destruct l; lia).
    assert (Hins := node_insert_unique_spec P cfg ok rel_any (any_laws P ok) 1 True True nopan capT lo1 False
                      (False_rect _) l c k v Hcwf (fun _ => Hc1) Hk).
    destruct (node_insert_unique P cfg l c k v) as [[[old0 c'] sib0]| | |] eqn:Ec; try discriminate.
    cbn [post uniq_post] in Hins. cbn [bind] in E.
    assert (HIH := IH c old0 c' sib0 Hcwf Hc1 Hk Hi Ec).
    destruct old0 as [o|].
    + destruct Hins as (-> & _). injection E as <- <- <-. left. rewrite wide_inner, set_nth_length in *.
      destruct (Nat.eq_dec i (S l)) as [->|Hil].
      * destruct Hw as [Hw|Hw]; [now left|]. apply Exists_exists in Hw as (z & _ & Hz). apply wide_le in Hz. lia.
      * right. apply (wide_replaced l i b cs j c c' None False Hc Hil); [tauto|]. left. now rewrite wide_inner.
    + destruct Hins as (Hins & _).
      eapply (child_inserted_wide l b cs j c c' sib0 [(k, v)] (key_bounds P k) i n' sib False); [exact Hwf|exact Hc|exact Hins|tauto|tauto| |now left].
      destruct sib0 as [m|].
      * destruct (self_insert P cfg (S l) _ (EInner m)) as [[m1 m2]| | |]; try discriminate. cbn [bind] in E. congruence.
      * cbn [node_bounds] in E. congruence.
  - destruct (node_get_mut_spec P (self_borrow P) cfg ok rel_any 1 True False (False_rect _) (S l)
                  (Node b (CInner cs)) k Hwf) as (r & Er & _ & He).
    rewrite Er in E. cbn [bind] in E. destruct r as [[o put]|]; [|exact (Hplain E)].
    injection E as <- <- <-. left. eapply erase_wide; [|exact Hw]. symmetry. apply He.
Qed.

(** *** Whole trees *)
Definition root1 (t : rtree B K V) : Prop := wf (fst t) (snd t) /\ (fst t <> 0 -> 1 <= fanout (snd t)).
Definition twide (t : rtree B K V) (i : nat) : Prop := wide_at (fst t) i (snd t).
Definition all_wide (t : rtree B K V) : Prop := root1 t /\ forall i, 1 <= i <= fst t -> twide t i.

Lemma all_wide_root t : all_wide t -> fst t <> 0 -> 2 <= fanout (snd t).
Proof.
  intros [_ H] H0. specialize (H (fst t) ltac:(lia)). unfold twide in H.
  destruct t as [[|l] n]; cbn [fst snd] in *; [lia|]. destruct H as [H|H]; [tauto|].
  destruct n as [b [cs|es]]; cbn in H; [|destruct H]. apply Exists_exists in H as (z & _ & Hz). apply wide_le in Hz. lia.
Qed.

Lemma branch_wide level (n m : node) (t' : rtree B K V) i :
  branch P cfg (level, n) (level, m) = Ok t' -> fst t' = S level ->
  i = S level \/ wide_at level i n \/ wide_at level i m -> twide t' i.
Proof.
  unfold branch, push. cbn [fst snd]. rewrite Nat.eqb_refl. cbn [negb].
  destruct (length (@nil node) =? cap); [discriminate|]. cbn [bind app].
  destruct (length [n] =? cap); [discriminate|]. cbn [bind app]. intros [= <-] _. cbn [fst].
  unfold twide. cbn [fst snd]. rewrite Nat.add_comm. cbn [plus]. rewrite wide_inner. cbn [length].
  intros [->|[H|H]]; [left; lia|right; now constructor 1|right; constructor 2; now constructor 1].
Qed.

Lemma insert_entry_wide t e : root1 t -> entry_ok e -> target_level e <= fst t ->
  post (insert_entry P cfg t e) False
    (fun t' => root1 t' /\ fst t <= fst t' <= S (fst t) /\
       forall i, 1 <= i <= fst t' -> twide t i \/ ewide i e \/ i = S (fst t) -> twide t' i).
Proof.
  intros [Hwf Hne] He Ht. destruct t as [level n]. unfold insert_entry, twide. cbn [fst snd] in *.
  eapply post_bind2.
  { apply (node_insert_spec P cfg ok rel_any (any_laws P ok) 1 True True nopan capT lo1); auto. }
  2: tauto.
  intros [n' sib] En Hpost. destruct sib as [[lv m]|]; cbn [ins_post] in Hpost.
  - destruct Hpost as (-> & _ & Hw1 & Hw2 & Hlos).
    assert (Hb := branch_spec P cfg ok rel_any (any_laws P ok) 1 True True capT lo1 level n' m Hw1 Hw2 Hlos).
    destruct (branch P cfg (level, n') (level, m)) as [t'| | |] eqn:Eb; cbn [post] in *; try tauto.
    destruct Hb as (_ & [Hw Hr] & El). split; [split; [exact Hw|intros H; specialize (Hr I H); lia]|].
    split; [lia|]. intros i Hi HH. apply (branch_wide level n' m t' i Eb El).
    destruct HH as [HH|[HH| ->]]; [| |now left]; right;
      apply (node_insert_wide level n e n' (Some (level, m)) i Hwf Hne He Ht ltac:(lia) En); tauto.
  - destruct Hpost as (_ & Hw1 & Hf). cbn [post]. unfold root1. cbn [fst snd]. split; [split; [exact Hw1|intros H; specialize (Hne H); lia]|].
    split; [lia|]. intros i Hi HH.
    destruct (node_insert_wide level n e n' None i Hwf Hne He Ht ltac:(lia) En) as [H|H]; [|exact H|destruct H].
    destruct HH as [HH|[HH| ->]]; [tauto|tauto|lia].
Qed.


Lemma insert_wide t k v : all_wide t -> ok k -> post (rtree_insert P cfg t k v) False all_wide.
Proof.
  intros [Hr Ha] Hk. unfold rtree_insert.
  eapply post_mono; [apply (insert_entry_wide t (ELeaf (k, v)) Hr Hk (Nat.le_0_l _))|tauto|].
  intros t' (Hr' & Hl & H). split; [exact Hr'|]. intros i Hi. apply H; [exact Hi|].
  destruct (Nat.le_gt_cases i (fst t)) as [Hi'|Hi']; [left; apply Ha; lia|]. right; right. lia.
Qed.

Lemma insert_unique_wide t k v : all_wide t -> ok k ->
  post (rtree_insert_unique P cfg t k v) False (fun r => all_wide (snd r)).
Proof.
  intros Hall Hk. assert (H2 := all_wide_root t Hall). destruct Hall as [[Hwf Hne] Ha].
  unfold rtree_insert_unique, container_insert_unique, twide in *. destruct t as [level n]. cbn [fst snd] in *.
  eapply post_bind2.
  { apply (node_insert_unique_spec P cfg ok rel_any (any_laws P ok) 1 True True nopan capT lo1 False (False_rect _)); auto. }
  2: tauto.
  intros [[old n'] sib] En Hpost.
  assert (Hwide := fun i Hi => node_insert_unique_wide level n k v old n' sib i Hwf Hne Hk Hi En).
  assert (Hins : (exists lv m, sib = Some (lv, m) /\ lv = level /\ wf level n' /\ wf level m
                    /\ (True -> lo_at 1 level <= fanout n' /\ lo_at 1 level <= fanout m))
                 \/ (sib = None /\ wf level n' /\ fanout n <= fanout n')).
  { destruct old as [o|]; cbn [uniq_post] in Hpost.
    - destruct Hpost as (-> & Hw & Hf & _). right. repeat split; auto. lia.
    - destruct Hpost as [Hpost _]. destruct sib as [[lv m]|]; cbn [ins_post] in Hpost; [left|right; tauto].
      exists lv, m. tauto. }
  clear Hpost. destruct Hins as [(lv & m & -> & -> & Hw1 & Hw2 & Hlos)|(-> & Hw1 & Hf)].
  - assert (Hb := branch_spec P cfg ok rel_any (any_laws P ok) 1 True True capT lo1 level n' m Hw1 Hw2 Hlos).
    destruct (branch P cfg (level, n') (level, m)) as [t'| | |] eqn:Eb; cbn [post bind] in *; try tauto.
    destruct Hb as (_ & [Hw Hr] & El). cbn [snd].
    split; [split; [exact Hw|intros H; specialize (Hr I H); lia]|].
    intros i Hi. apply (branch_wide level n' m t' i Eb El).
    destruct (Nat.eq_dec i (S level)) as [->|Hne']; [now left|right]. apply Hwide; [lia|]. apply Ha. lia.
  - cbn [bind post snd]. split; [split; [exact Hw1|cbn [fst snd]; intros H; specialize (Hne H); lia]|].
    cbn [fst]. intros i Hi. unfold twide. cbn [fst snd].
    destruct (Hwide i ltac:(lia) (Ha i Hi)) as [H|H]; [exact H|destruct H].
Qed.

(** *** Removal *)
Context (Hmin : 2 <= minc).
Lemma rem1 : True -> 1 <= minc. Proof. lia. Qed.
Definition slot_wide (level i : nat) (ch : children node (K * V)) : Prop :=
  match ch with
  | CInner cs => (level = i /\ cs <> []) \/ Exists (wide_at (level - 1) i) cs
  | CLeaf _ => False
  end.
Definition cc_wide (i : nat) (cc : children_container B K V) : Prop := slot_wide (cc_level cc) i (cc_leak cc).

Lemma node_remove_wide {Q} (BR : Borrowed B K Q) level n q v n' unders i :
  wf level n -> node_remove P cfg BR level n q = Ok (Some v, n', unders) -> 1 <= i < level ->
  wide_at level i n -> wide_at level i n' \/ Exists (cc_wide i) unders.
Proof.
  revert n v n' unders; induction level as [|l IH]; intros n v n' unders Hwf E Hi Hw; [lia|].
  destruct (wf_inv _ _ _ _ _ _ _ Hwf) as (b & cs & ->). cbn [node_remove node_children read_inner bind] in E.
  rewrite wide_inner in Hw. destruct Hw as [[Hw _]|Hw]; [lia|].
  rewrite wf_inner in Hwf. destruct Hwf as (_ & _ & Hcs).
  set (loop := (fix loop (i : nat) (cs0 : list node) : res (option V * node * list (children_container B K V)) := _)) in E.
  assert (Hloop : forall j, j <= length cs -> loop j cs = Ok (Some v, n', unders) -> wide_at (S l) i n' \/ Exists (cc_wide i) unders).
  { clear E. induction j as [|j IHj]; intros Hj E; [discriminate|].
    cbn [loop] in E. destruct (nth_error_exists j cs) as [c Hc]; [lia|]. rewrite Hc in E. cbn [unwrap bind] in E.
    assert (Hcok : child_ok l c) by (eapply Forall_nth_error; eassumption). destruct Hcok as [Hcwf Hclo].
    destruct (b_intersects _ _ _); [|apply IHj; [lia|exact E]].
    assert (Hs := node_remove_spec P cfg ok rel_any (any_laws P ok) 1 True BR False (False_ind _) lo1 rem1 (False_ind _) False (False_rect _) l c q Hcwf).
    destruct (node_remove P cfg BR l c q) as [[[value c'] un]| | |] eqn:Ec; try discriminate. cbn [bind post] in *.
    destruct value as [v'|].
    2:{ cbn [rem_post] in Hs. destruct Hs as (-> & _ & _). rewrite (set_nth_same j c cs Hc) in E. apply IHj; [lia|exact E]. }
    cbn [rem_post] in Hs. destruct Hs as (k & _ & _ & Hw' & Hf & _ & _ & _ & Hlv).
    rewrite (shallow_len_spec cfg ok rel_any 1 True l c' Hw') in E. cbn [bind] in E.
    destruct (nth_error_split_set j c c' cs Hc) as (m1 & m2 & Ecs & Hj' & Eset).
    assert (Hcase : wide_at l i c \/ Exists (wide_at l i) (m1 ++ m2)).
    { rewrite Ecs in Hw. apply Exists_app in Hw as [Hw|Hw]; [right; apply Exists_app; now left|].
      inversion Hw; subst; [now left|right; apply Exists_app; now right]. }
    (* what [c] contributed is now in [c'] or among the nodes taken out below *)
    assert (Hcase' : (wide_at l i c' \/ (l = i /\ 1 <= fanout c')) \/ Exists (cc_wide i) un \/ Exists (wide_at l i) (m1 ++ m2)).
    { destruct Hcase as [Hcase|Hcase]; [|tauto]. destruct (Nat.eq_dec l i) as [->|Hli].
      - left. right. split; [reflexivity|]. assert (2 <= fanout c); [|lia].
        destruct i as [|i']; [lia|]. destruct c as [bc [ccs|ces]]; cbn [wide_at] in Hcase; cbn [node_children] in *.
        + destruct Hcase as [Hcase|Hcase]; [tauto|]. apply Exists_exists in Hcase as (z & _ & Hz). apply wide_le in Hz. lia.
        + destruct Hcase as [Hcase|[]]. tauto.
      - assert (i < l) by (apply wide_le in Hcase; lia).
        destruct (IH c v' c' un Hcwf Ec ltac:(lia) Hcase); tauto. }
    destruct (Nat.ltb_spec (fanout c') minc) as [Hlt|Hge].
    - destruct (swap_remove_spec j (set_nth j c' cs)) as (x & cs' & Es & Hx & Hpx & _).
      { rewrite set_nth_length. lia. }
      assert (x = c').
      { rewrite nth_error_set_nth, Nat.eqb_refl in Hx. destruct (j <? length cs); congruence. }
      subst x. rewrite Es in E. cbn [bind] in E.
      assert (Hpm : Permutation cs' (m1 ++ m2)).
      { rewrite Eset in Hpx. apply (Permutation_cons_inv (a := c')). rewrite <- Hpx. perm. }
      destruct l as [|l']; [lia|]. destruct (wf_inv _ _ _ _ _ _ _ Hw') as (bc & ccs & ->).
      unfold container_children in E. cbn [fst snd node_children read_inner bind] in E. injection E as <- <- <-.
      clear Hcase; destruct Hcase' as [[Hcase|Hcase]|[Hcase|Hcase]].
      + right. apply Exists_app. right. constructor 1. unfold cc_wide. cbn [cc_level cc_leak slot_wide].
        rewrite wide_inner in Hcase. destruct Hcase as [[Hcase Hc2]|Hcase].
        * left. split; [exact Hcase|]. destruct ccs; [cbn in Hc2; lia|discriminate].
        * right. replace (S l' - 1) with l' by lia. exact Hcase.
      + right. apply Exists_app. right. constructor 1. unfold cc_wide. cbn [cc_level cc_leak slot_wide].
        left. split; [apply Hcase|]. destruct Hcase as [_ Hcase]. destruct ccs; [cbn in Hcase; lia|discriminate].
      + right. apply Exists_app. now left.
      + left. rewrite wide_inner. right. now rewrite Hpm.
    - cbn [bind] in E. injection E as <- <- <-. rewrite wide_inner, Eset, Exists_app.
      clear Hcase; destruct Hcase' as [[Hcase|Hcase]|[Hcase|Hcase]].
      + left. right. right. now constructor 1.
      + left. right. right. constructor 1. destruct Hcase as [-> _]. destruct i; cbn [wide_at]; left; split; auto; lia.
      + now right.
      + left. right. apply Exists_app in Hcase as [Hcase|Hcase]; [now left|right; now constructor 2]. }
  eapply Hloop; [|exact E]. lia.
Qed.

(** *** The array of nodes taken out *)
Notation slot := (option (children node (K * V))).
Definition arr_wide (s i : nat) (arr : list slot) : Prop :=
  exists j ch, nth_error arr j = Some (Some ch) /\ slot_wide (s + j) i ch.

Lemma store_all_wide ccs arr arr' i :
  NoDup (map cc_level ccs) -> store_all arr ccs = Ok arr' ->
  arr_wide 0 i arr /\ (forall cc ch, In cc ccs -> nth_error arr (cc_level cc) = Some (Some ch) -> False)
  \/ (Exists (cc_wide i) ccs /\ (forall cc ch, In cc ccs -> nth_error arr (cc_level cc) = Some (Some ch) -> False)) ->
  arr_wide 0 i arr'.
Proof.
  revert arr; induction ccs as [|cc ccs IH]; intros arr Hnd E H; cbn [store_all] in E.
  - injection E as <-. destruct H as [[H _]|[H _]]; [exact H|inversion H].
  - unfold store_underfull in E. destruct (Nat.ltb_spec (cc_level cc) (length arr)) as [Hl|]; [|discriminate].
    cbn [bind] in E. cbn [map] in Hnd. inversion Hnd as [|? ? Hnin Hnd']; subst.
    assert (Hnone : forall cc' ch, In cc' (cc :: ccs) -> nth_error arr (cc_level cc') = Some (Some ch) -> False) by tauto.
    assert (Hnone' : forall cc' ch, In cc' ccs ->
      nth_error (set_nth (cc_level cc) (Some (cc_leak cc)) arr) (cc_level cc') = Some (Some ch) -> False).
    { intros cc' ch Hin. rewrite nth_error_set_nth. destruct (Nat.eqb_spec (cc_level cc) (cc_level cc')) as [E'|E'].
      - elim Hnin. rewrite E'. now apply in_map.
      - apply Hnone. now right. }
    assert (Hkeep : arr_wide 0 i arr -> arr_wide 0 i (set_nth (cc_level cc) (Some (cc_leak cc)) arr)).
    { intros (j & ch & Hj & Hc). exists j, ch. split; [|exact Hc]. rewrite nth_error_set_nth.
      destruct (Nat.eqb_spec (cc_level cc) j) as [<-|]; [|exact Hj].
      exfalso. eapply Hnone; [now left|exact Hj]. }
    apply (IH _ Hnd' E). destruct H as [[H _]|[H _]]; [left; split; auto|].
    inversion H as [? ? Hcc|? ? Hcc]; subst; [left|right; split; auto].
    split; [|exact Hnone']. exists (cc_level cc), (cc_leak cc). split; [|exact Hcc].
    rewrite nth_error_set_nth, Nat.eqb_refl. destruct (Nat.ltb_spec (cc_level cc) (length arr)); [reflexivity|lia].
Qed.

Lemma insert_entries_wide es (t : rtree B K V) :
  root1 t -> Forall (fun e => entry_ok e /\ target_level e <= fst t) es ->
  post (insert_entries P cfg t es) False
    (fun t' => root1 t' /\ fst t <= fst t' /\
       forall i, 1 <= i <= fst t' -> twide t i \/ Exists (ewide i) es \/ fst t < i -> twide t' i).
Proof.
  revert t; induction es as [|e es IH]; intros t Hr Hes; cbn [insert_entries].
  - cbn [post]. split; [exact Hr|]. split; [lia|]. intros i Hi [H|[H|H]]; [exact H|inversion H|lia].
  - inversion Hes as [|? ? [He Hl] Hes']; subst.
    eapply post_bind; [apply (insert_entry_wide t e Hr He Hl)|]. intros t1 _ (Hr1 & Hl1 & H1).
    eapply post_mono; [apply (IH t1 Hr1)|tauto|].
    { eapply Forall_impl; [|exact Hes']. intros e0 [? ?]. split; [assumption|lia]. }
    intros t2 (Hr2 & Hl2 & H2). split; [exact Hr2|]. split; [lia|]. intros i Hi HH.
    destruct (Nat.le_gt_cases i (fst t1)) as [Hi1|Hi1]; [|apply H2; [exact Hi|right; now right]].
    destruct HH as [HH|[HH|HH]].
    + apply H2; [exact Hi|]. left. apply H1; [lia|]. now left.
    + inversion HH; subst; apply H2; [exact Hi| |exact Hi|right; now left]. left. apply H1; [lia|]. right; now left.
    + apply H2; [exact Hi|]. left. apply H1; [lia|]. right; right. lia.
Qed.

Lemma reinsert_wide arr (t : rtree B K V) level :
  root1 t -> arr_ok cfg ok rel_any 1 True level arr -> level + length arr <= S (fst t) ->
  post (reinsert P cfg t level arr) False
    (fun t' => root1 t' /\ fst t <= fst t' /\
       forall i, 1 <= i <= fst t' -> twide t i \/ arr_wide level i arr \/ fst t < i -> twide t' i).
Proof.
  revert t level; induction arr as [|[ch|] arr IH]; intros t level Hr Ha Hl; cbn [reinsert].
  - cbn [post]. split; [exact Hr|]. split; [lia|]. intros i Hi [H|[(j & ch & H & _)|H]]; [exact H| |lia].
    destruct j; discriminate.
  - assert (Hs := Ha 0 ch eq_refl). rewrite Nat.add_0_r in Hs. cbn [length] in Hl.
    destruct (wrap_children_spec cfg ok rel_any 1 True False (False_ind _) lo1 rem1 (False_ind _) level ch Hs) as (cc & Ecc & _ & _ & Hent).
    rewrite Ecc. cbn [bind].
    eapply post_bind; [apply (insert_entries_wide (cc_entries cc) t Hr)|].
    { eapply Forall_impl; [|exact Hent]. intros e [? ?]. split; [assumption|lia]. }
    intros t1 _ (Hr1 & Hl1 & H1). eapply post_mono; [apply (IH t1 (S level) Hr1)|tauto|].
    + intros i ch' Hi. replace (S level + i) with (level + S i) by lia. now apply Ha.
    + lia.
    + intros t2 (Hr2 & Hl2 & H2). split; [exact Hr2|]. split; [lia|]. intros i Hi HH.
      destruct (Nat.le_gt_cases i (fst t1)) as [Hi1|Hi1]; [|apply H2; [exact Hi|right; now right]].
      destruct HH as [HH|[([|j] & ch' & Hj & HH)|HH]].
      * apply H2; [exact Hi|]. left. apply H1; [lia|]. now left.
      * apply H2; [exact Hi|]. left. apply H1; [lia|]. right; left.
        injection Hj as <-. rewrite Nat.add_0_r in HH. destruct ch as [cs|es]; [|destruct HH].
        destruct level as [|l]; [destruct Hs|]. cbn in Ecc. injection Ecc as <-. cbn [cc_entries].
        cbn [slot_wide] in HH. destruct HH as [[<- Hne]|HH].
        -- destruct cs as [|c cs]; [congruence|]. constructor 1. cbn [ewide fst]. left. lia.
        -- apply Exists_exists in HH as (c & Hc & HH). apply Exists_exists. exists (EInner (S l - 1, c)).
           split; [apply in_map_iff; eauto|]. right. exact HH.
      * apply H2; [exact Hi|]. right; left. exists j, ch'. split; [exact Hj|].
        replace (S level + j) with (level + S j) by lia. exact HH.
      * apply H2; [exact Hi|]. left. apply H1; [lia|]. right; now right.
  - cbn [length] in Hl. eapply post_mono; [apply (IH t (S level) Hr)|tauto|].
    + intros i ch' Hi. replace (S level + i) with (level + S i) by lia. now apply Ha.
    + lia.
    + intros t2 (Hr2 & Hl2 & H2). split; [exact Hr2|]. split; [lia|]. intros i Hi HH. apply H2; [exact Hi|].
      destruct HH as [HH|[([|j] & ch' & Hj & HH)|HH]]; [tauto|discriminate| |tauto].
      right; left. exists j, ch'. split; [exact Hj|]. replace (S level + j) with (level + S j) by lia. exact HH.
Qed.

Lemma try_unbranch_wide level (n : node) :
  wf level n -> (level <> 0 -> 1 <= fanout n) ->
  post (try_unbranch (level, n)) False
    (fun t => root1 t /\ fst t <= level <= S (fst t) /\
       forall i, 1 <= i <= fst t -> i = level \/ wide_at level i n -> twide t i).
Proof.
  intros Hwf Hroot. unfold try_unbranch. cbn [fst snd].
  destruct level as [|l]; destruct (wf_inv _ _ _ _ _ _ _ Hwf) as (b & x & ->); cbn [node_children read_leaf read_inner bind].
  - cbn [post]. split; [split; [exact Hwf|cbn; congruence]|]. cbn [fst]. split; [lia|]. intros i Hi; lia.
  - destruct (Nat.eqb_spec (length x) 1) as [E|E].
    + destruct x as [|c [|? ?]]; try discriminate. cbn [swap_remove nth_error bind post].
      cbn [removelast set_nth last]. unfold root1, twide. cbn [snd fst].
      rewrite wf_inner in Hwf. destruct Hwf as (_ & _ & Hc). inversion Hc as [|? ? [Hw Hl] _]; subst.
      specialize (Hl I). unfold lo_at in Hl.
      split; [split; [exact Hw|destruct l; lia]|]. split; [lia|]. intros i Hi [H|H]; [lia|].
      rewrite wide_inner in H. destruct H as [H|H]; [lia|]. inversion H as [? ? H'|? ? H']; subst; [exact H'|inversion H'].
    + cbn [post]. unfold root1, twide. cbn [fst snd]. split; [split; [exact Hwf|exact Hroot]|]. split; [lia|].
      intros i Hi [->|H]; [|exact H]. specialize (Hroot ltac:(lia)). rewrite wide_inner. left.
      cbn [fanout node_children] in Hroot. split; [reflexivity|lia].
Qed.

Lemma remove_wide (t : rtree B K V) {Q} (BR : Borrowed B K Q) q : all_wide t ->
  post (rtree_remove P cfg BR t q) False (fun r => all_wide (snd r)).
Proof.
  intros Hall. assert (H2 := all_wide_root t Hall). destruct Hall as [[Hwf Hne] Ha].
  unfold rtree_remove, container_remove. destruct t as [level n]. unfold twide in Ha. cbn [fst snd] in *.
  eapply post_bind2; [apply (node_remove_spec P cfg ok rel_any (any_laws P ok) 1 True BR False (False_ind _) lo1 rem1 (False_ind _) False (False_rect _) level n q Hwf)| |tauto].
  intros [[value n'] unders] En Hpost. cbn beta iota. destruct value as [v|]; cbn [rem_post] in Hpost.
  - destruct Hpost as (k & _ & _ & Hw & Hf & _ & Hu & Hnd & Hlv).
    rewrite Forall_forall in Hlv.
    assert (Hnone : forall cc, In cc unders -> nth_error (repeat (@None (children node (K * V))) level) (cc_level cc) = Some None).
    { intros cc Hin. specialize (Hlv cc Hin). clear - Hlv. revert Hlv. generalize (cc_level cc) as j. induction level as [|m IHm]; intros [|j] Hj; cbn; try lia; auto. apply IHm. lia. }
    destruct (store_all_spec cfg ok rel_any 1 True False (False_ind _) lo1 rem1 (False_ind _) unders (repeat None level)) as (arr & Earr & Hl & Harr & _); auto.
    { intros i ch Hi. apply nth_error_In, repeat_spec in Hi. discriminate. }
    rewrite Earr, repeat_length in *. cbn [bind].
    eapply post_bind; [apply try_unbranch_wide; [exact Hw|]|].
    { intros Hl0. specialize (H2 Hl0). lia. }
    intros t1 _ (Hr1 & Hl1 & Hw1).
    eapply post_bind; [apply reinsert_wide; [exact Hr1|exact Harr|lia]|].
    intros t2 _ (Hr2 & Hl2 & Hw2). cbn [post snd]. split; [exact Hr2|]. intros i Hi. apply Hw2; [exact Hi|].
    destruct (Nat.le_gt_cases i (fst t1)) as [Hi1|Hi1]; [|right; now right].
    assert (Hi2 : i <= level) by lia.
    destruct (Nat.eq_dec i level) as [->|Hil].
    + left. apply Hw1; [lia|now left].
    + destruct (node_remove_wide BR level n q v n' unders i Hwf En ltac:(lia) (Ha i ltac:(lia))) as [H|H].
      * left. apply Hw1; [lia|now right].
      * right; left. eapply store_all_wide; [exact Hnd|exact Earr|]. right. split; [exact H|].
        intros cc ch Hin Hx. rewrite (Hnone cc Hin) in Hx. discriminate.
  - destruct Hpost as (-> & -> & _). cbn [store_all bind post snd]. split; [split; assumption|exact Ha].
Qed.

Lemma new_wide : all_wide (rtree_new P).
Proof.
  split; [split; [|intros H; now elim H]|cbn; lia].
  cbn. split; [exact I|]. split; [lia|constructor].
Qed.

Lemma reachable_wide (t : rtree B K V) : reachable P cfg ok t -> all_wide t.
Proof.
  induction 1 as [|t k v t' _ IH Hk E|t k v o t' _ IH Hk E|t Q BR q o t' _ IH E|t t' _ IH E|t t' _ IH E].
  - apply new_wide.
  - assert (H := insert_wide t k v IH Hk). rewrite E in H. exact H.
  - assert (H := insert_unique_wide t k v IH Hk). rewrite E in H. exact H.
  - assert (H := remove_wide t BR q IH). rewrite E in H. exact H.
  - destruct IH as [[Hw Hr] Ha]. unfold rtree_clone in E. rewrite (clone_node_spec _ _ _ _ _ _ _ Hw) in E.
    cbn in E. injection E as <-. split; [split; [exact Hw|exact Hr]|exact Ha].
  - destruct IH as [[Hw Hr] Ha]. destruct E as [E1 E2]. split; [split|].
    + rewrite <- E1. eapply erase_wf; eassumption.
    + rewrite <- E1, <- (erase_fanout _ _ E2). exact Hr.
    + rewrite <- E1. intros i Hi. unfold twide. rewrite <- E1. eapply erase_wide; [exact E2|]. now apply Ha.
Qed.
End Wide.
