(** Histories in a checked build: agreement with Model.v. *)
From Verif Require Export CheckI32 CostProof.

(** *** Bounds that fit, or those of nothing *)
Section Window.
Context {B K : Type} (P : Params B K) (ok : K -> Prop) (G : B -> Prop).
Notation BO := (bops P).
Context (Gkey : forall k, ok k -> G (key_bounds P k)).
Context (Gunion : forall a b, G a -> G b -> G (b_union BO a b)).
Context (Gel : forall a, G a -> G (b_union BO (b_empty BO) a)) (Ger : forall a, G a -> G (b_union BO a (b_empty BO))).
Context (Gee : b_union BO (b_empty BO) (b_empty BO) = b_empty BO).
Context (Gall : forall l, b_union_all BO l = fold_left (b_union BO) l (b_empty BO)).

Definition rel_win (b : B) (l : list K) : Prop := G b \/ (l = [] /\ b = b_empty BO).

Lemma win_union a b l m : rel_win a l -> rel_win b m -> rel_win (b_union BO a b) (l ++ m).
Proof.
  intros [Ha|[-> ->]] [Hb|[-> ->]]; [left; now apply Gunion|left; now apply Ger|left; now apply Gel|right]. split; [reflexivity|exact Gee].
Qed.

Lemma win_laws : rel_laws P ok rel_win.
Proof.
  split.
  - intros b l l' Hp [H|[-> ->]]; [now left|right]. split; [now apply Permutation_nil|reflexivity].
  - right. auto.
  - intros k Hk. left. now apply Gkey.
  - exact win_union.
  - intros bs ls H. rewrite Gall. change (concat ls) with ([] ++ concat ls).
    assert (H0 : rel_win (b_empty BO) []) by (right; auto). revert H0. generalize (b_empty BO) at 1 2. generalize (@nil K).
    induction H as [|b l bs ls Hb _ IH]; intros m a Ha; cbn [concat fold_left]; [now rewrite app_nil_r|].
    rewrite app_assoc. apply IH, win_union; assumption.
  - intros b l k k' [Hb|[-> _]] Hin Hk _; [|destruct Hin]. left. apply Gunion; auto.
Qed.

Lemma win_child {V} cfg l (c : node B K V) : child_ok cfg ok rel_win 1 True l c -> G (node_bounds c).
Proof.
  intros [Hw Hf]. specialize (Hf I).
  assert (H1 : 1 <= fanout c) by (unfold lo_at in Hf; destruct l; lia).
  assert (He := entries_nonempty cfg ok rel_win 1 True l c I (le_n 1) Hw H1).
  assert (Hr : rel_win (node_bounds c) (keys c)) by (destruct l; cbn in Hw; tauto).
  destruct Hr as [Hr|[Hr _]]; [exact Hr|]. exfalso. unfold keys in Hr. apply map_eq_nil in Hr. rewrite Hr in He. cbn in He. lia.
Qed.
End Window.

(** *** One call and histories *)
Section Runs.
Context {B K V : Type} (P : Params B K) (CK : Checks (vops P)) (cfg : config).
Notation VO := (vops P).
Notation BO := (bops P).
Context (fits : Prop) (G : B -> Prop).
Context (Gvol : forall b, G b -> fits -> vol_fits CK b = true).
Context (Gsub : forall a b, G a -> G b -> fits -> sub_fits CK (volume VO a) (volume VO b) = true).
Context (Gunion : forall a b, G a -> G b -> G (b_union BO a b)).
Context (ok : K -> Prop) (rel : B -> list K -> Prop) (L : rel_laws P ok rel).
Context (lo : nat) (strict : Prop).
Notation cap := (max_children cfg).
Notation minc := (min_children cfg).
Context (Hlo : strict -> lo <= 1 \/ lo <= Nat.min minc (cap - minc)).
Context (Gkey : forall k, ok k -> G (key_bounds P k)).
Context (Gchild : forall l (c : node B K V), child_ok cfg ok rel lo strict l c -> G (node_bounds c)).
Notation wf_root := (wf_root cfg ok rel lo strict False).
Notation tree := (rtree B K V).

Lemma step_wf (t t' : tree) o x : wf_root t -> ok_op ok o -> ((forall k, o <> ORemove k) \/ (strict -> lo <= minc)) ->
  step P cfg t o = Ok (x, t') -> wf_root t'.
Proof.
  intros Hw Hok Hrm. destruct o as [k v|k v|k|k|k v| | |]; cbn [step ok_op op_key] in *.
  - destruct (rtree_insert P cfg t k v) eqn:E; cbn; try discriminate. intros [= _ <-].
    exact (wf_root_insert P cfg ok rel L lo strict False ltac:(tauto) ltac:(tauto) Hlo t _ k v Hw Hok E).
  - destruct (rtree_insert_unique P cfg t k v) as [[p t1]| | |] eqn:E; cbn; try discriminate. intros [= _ <-].
    exact (wf_root_insert_unique P cfg ok rel L lo strict False ltac:(tauto) ltac:(tauto) Hlo t _ k v p Hw Hok E).
  - destruct Hrm as [Hrm|Hrm]; [elim (Hrm k); reflexivity|].
    destruct (rtree_remove P cfg (self_borrow P) t k) as [[p t1]| | |] eqn:E; cbn; try discriminate. intros [= _ <-].
    exact (wf_root_remove P cfg ok rel L lo strict False ltac:(tauto) ltac:(tauto) Hlo Hrm ltac:(tauto) t _ (self_borrow P) k p Hw E).
  - destruct (rtree_get P (self_borrow P) t k) eqn:E; cbn; try discriminate. now intros [= _ <-].
  - destruct (node_get_mut_spec P (self_borrow P) cfg ok rel lo strict False ltac:(tauto) (fst t) (snd t) k (proj1 Hw)) as (r & E & _ & He).
    unfold rtree_get_mut. rewrite E. cbn [bind]. destruct r as [[old put]|]; cbn; intros [= _ <-]; [|exact Hw].
    eapply wf_root_values; [exact Hw|]. split; [reflexivity|]. cbn [snd]. now rewrite He.
  - destruct (rtree_len t) eqn:E; cbn; try discriminate. now intros [= _ <-].
  - destruct (rtree_is_empty t) eqn:E; cbn; try discriminate. now intros [= _ <-].
  - destruct (rtree_clone cfg t) as [t1| | |] eqn:E; cbn; try discriminate. intros [= _ <-].
    now rewrite (wf_root_clone cfg ok rel lo strict False t t1 Hw E).
Qed.

Lemma ag_kstep (t : tree) o : wf_root t -> ok_op ok o -> ((forall k, o <> ORemove k) \/ (strict -> lo <= minc)) ->
  ag fits (k_step P CK cfg t o) (step P cfg t o).
Proof.
  intros Hw Hok Hrm. destruct o as [k v|k v|k|k|k v| | |]; cbn [k_step step ok_op op_key] in *; try (apply ag_lift).
  - apply ag_bind; [|intros; apply ag_ret].
    exact (ag_insert_entry P CK cfg fits G Gvol Gsub Gunion ok rel L lo strict Hlo Gkey Gchild t (ELeaf (k, v)) Hw Hok (Nat.le_0_l _)).
  - apply ag_bind; [|intros [? ?] _; apply ag_ret].
    exact (ag_insert_unique P CK cfg fits G Gvol Gsub Gunion ok rel L lo strict Hlo Gkey Gchild t k v Hw Hok).
  - destruct Hrm as [Hrm|Hrm]; [elim (Hrm k); reflexivity|].
    apply ag_bind; [|intros [? ?] _; apply ag_ret].
    exact (ag_remove P CK cfg fits G Gvol Gsub Gunion ok rel L lo strict Hlo Gkey Gchild Hrm (self_borrow P) t k Hw).
Qed.

Lemma ag_krun os : ((forall k, ~ In (ORemove k) os) \/ (strict -> lo <= minc)) -> forall t : tree, wf_root t -> Forall (ok_op ok) os ->
  ag fits (k_run P CK cfg t os) (run P cfg t os).
Proof.
  intros Hrm. induction os as [|o os IH]; intros t Hw Hok; cbn [k_run run]; [apply ag_ret|].
  inversion Hok as [|? ? Hok1 Hok2]; subst.
  assert (Hrm1 : (forall k, o <> ORemove k) \/ (strict -> lo <= minc)) by (destruct Hrm as [Hrm|Hrm]; [left; intros k ->; apply (Hrm k); now left|now right]).
  apply ag_bind; [now apply ag_kstep|]. intros [x t'] Ex.
  apply ag_bind; [|intros [? ?] _; apply ag_ret]. apply IH; [|exact (step_wf t t' o x Hw Hok1 Hrm1 Ex)|exact Hok2].
  destruct Hrm as [Hrm|Hrm]; [left; intros k Hin; apply (Hrm k); now right|now right].
Qed.
End Runs.

Lemma krun_agrees_or_panics {B K V} (P : Params B K) CK cfg (os : list (op K V)) :
  snd (k_run P CK cfg (rtree_new P : rtree B K V) os) = run P cfg (rtree_new P) os \/ snd (k_run P CK cfg (rtree_new P : rtree B K V) os) = Panic.
Proof.
  destruct (ag_krun P CK cfg False (fun _ => True) ltac:(tauto) ltac:(tauto) ltac:(tauto) any_key rel_any (any_laws P _) 0 False ltac:(tauto)
    (fun _ _ => I) (fun _ _ _ => I) os ltac:(right; tauto) (rtree_new P : rtree B K V)) as [H|[H _]]; auto.
  - apply (inv_any P cfg any_key), r_new.
  - apply Forall_forall. intros o _. unfold ok_op, any_key. now destruct (op_key o).
Qed.

(** *** [i32] boxes in a window *)
Local Open Scope Z_scope.
Section I32Window.
Context (lo hi : Z) (D : nat).
Notation G := (@box_in_window lo hi D).
Notation BO := (box_bounds_ops i32_ops (D := D)).

Lemma vzip_vmap2 {N} (f g : N -> N -> N) D0 (a b c d : svec N D0) :
  vzip (vmap2 f a c) (vmap2 g b d) = map (fun p => (f (fst (fst p)) (fst (snd p)), g (snd (fst p)) (snd (snd p)))) (combine (vzip a b) (vzip c d)).
Proof.
  unfold vzip. induction D0 as [|D0 IH]; [reflexivity|]. cbn [vmap2 vlist combine map fst snd]. f_equal. apply IH.
Qed.
Lemma vzip_len {N} D0 (a b : svec N D0) : length (vzip a b) = D0.
Proof. unfold vzip. rewrite combine_length, !vlist_len. apply Nat.min_id. Qed.

Lemma s_min_or (a b : i32) : s_min i32_ops a b = a \/ s_min i32_ops a b = b.
Proof. unfold s_min. destruct (s_le i32_ops a b); auto. Qed.
Lemma s_max_or (a b : i32) : s_max i32_ops a b = a \/ s_max i32_ops a b = b.
Proof. unfold s_max. destruct (s_le i32_ops a b); auto. Qed.

Lemma window_union a b : G a -> G b -> G (box_union i32_ops a b).
Proof.
  unfold box_in_window, box_union, cw_min, cw_max. cbn [bmin bmax]. intros Ha Hb. rewrite vzip_vmap2. apply Forall_map, Forall_forall.
  intros [[x y] [z w]] Hin. cbn [fst snd]. assert (H1 := in_combine_l _ _ _ _ Hin). assert (H2 := in_combine_r _ _ _ _ Hin).
  rewrite Forall_forall in Ha, Hb. specialize (Ha _ H1). specialize (Hb _ H2). cbn [fst snd] in Ha, Hb.
  destruct (s_min_or x z) as [->| ->], (s_max_or y w) as [->| ->]; tauto.
Qed.

Lemma min_MAX (x : i32) : i32_val (s_min i32_ops x (i32_of 2147483647)) = i32_val x /\ i32_val (s_min i32_ops (i32_of 2147483647) x) = i32_val x.
Proof.
  assert (Hr := proj2_sig x). apply andb_prop in Hr as [_ Hr]. apply Z.leb_le in Hr. change (proj1_sig x) with (i32_val x) in Hr.
  unfold s_min. cbn [i32_ops s_le s_max_value]. rewrite i32_of_val. change (wrap32 2147483647) with 2147483647.
  destruct (Z.leb_spec (i32_val x) 2147483647); destruct (Z.leb_spec 2147483647 (i32_val x)); try (exfalso; lia); split; try reflexivity.
  rewrite i32_of_val. change (wrap32 2147483647) with 2147483647. lia.
Qed.
Lemma max_MIN (x : i32) : i32_val (s_max i32_ops x (i32_of (-2147483648))) = i32_val x /\ i32_val (s_max i32_ops (i32_of (-2147483648)) x) = i32_val x.
Proof.
  assert (Hr := proj2_sig x). apply andb_prop in Hr as [Hr _]. apply Z.leb_le in Hr. change (proj1_sig x) with (i32_val x) in Hr.
  unfold s_max. cbn [i32_ops s_le s_min_value]. rewrite i32_of_val. change (wrap32 (-2147483648)) with (-2147483648).
  destruct (Z.leb_spec (i32_val x) (-2147483648)); destruct (Z.leb_spec (-2147483648) (i32_val x)); try (exfalso; lia); split; try reflexivity.
  rewrite i32_of_val. change (wrap32 (-2147483648)) with (-2147483648). lia.
Qed.

Lemma combine_const {A C} (l : list A) (x : C) : combine l (repeat x (length l)) = map (fun a => (a, x)) l.
Proof. induction l as [|a l IH]; [reflexivity|]. cbn. now rewrite IH. Qed.

Lemma vzip_const {N} D0 (x y : N) : vzip (vconst D0 x) (vconst D0 y) = repeat (x, y) D0.
Proof. unfold vzip. induction D0 as [|D0 IH]; [reflexivity|]. cbn [vconst vlist combine repeat fst snd]. f_equal. exact IH. Qed.

Lemma window_empty_r a : G a -> G (box_union i32_ops a (box_empty i32_ops)).
Proof.
  unfold box_in_window, box_union, cw_min, cw_max. cbn [bmin bmax box_empty]. intros Ha. rewrite vzip_vmap2. apply Forall_map, Forall_forall.
  intros [[x y] [z w]] Hin. cbn [fst snd]. assert (H1 := in_combine_l _ _ _ _ Hin). apply in_combine_r in Hin. rewrite vzip_const in Hin. apply repeat_spec in Hin. injection Hin as -> ->.
  rewrite Forall_forall in Ha. specialize (Ha _ H1). cbn [fst snd] in Ha. destruct (min_MAX x) as [-> _], (max_MIN y) as [-> _]. exact Ha.
Qed.
Lemma window_empty_l a : G a -> G (box_union i32_ops (box_empty i32_ops) a).
Proof.
  unfold box_in_window, box_union, cw_min, cw_max. cbn [bmin bmax box_empty]. intros Ha. rewrite vzip_vmap2. apply Forall_map, Forall_forall.
  intros [[z w] [x y]] Hin. cbn [fst snd]. assert (H1 := in_combine_r _ _ _ _ Hin). apply in_combine_l in Hin. rewrite vzip_const in Hin. apply repeat_spec in Hin. injection Hin as -> ->.
  rewrite Forall_forall in Ha. specialize (Ha _ H1). cbn [fst snd] in Ha. destruct (min_MAX x) as [_ ->], (max_MIN y) as [_ ->]. exact Ha.
Qed.
Lemma empty_union : box_union i32_ops (box_empty i32_ops) (box_empty i32_ops) = box_empty i32_ops :> saabb i32 D.
Proof.
  unfold box_union, box_empty. cbn [bmin bmax].
  assert (H : forall (f : i32 -> i32 -> i32) x n, f x x = x -> vmap2 f (vconst n x) (vconst n x) = vconst n x).
  { intros f x n Hx. induction n as [|n IH]; [reflexivity|]. cbn [vmap2 vconst fst snd]. now rewrite Hx, IH. }
  unfold cw_min, cw_max. rewrite !H; [reflexivity| |]; unfold s_min, s_max; match goal with |- context [if ?c then _ else _] => destruct c end; reflexivity.
Qed.
End I32Window.
