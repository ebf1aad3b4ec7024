(** Proofs about the debug output. *)
From Coq Require Import DecimalString DecimalZ DecimalFacts.
From Verif Require Export Main GeomProof DebugSpec.
Open Scope string_scope.

Lemma sapp_assoc (a b c : string) : (a ++ b) ++ c = a ++ b ++ c.
Proof. induction a as [|x a IH]; cbn; [reflexivity|now rewrite IH]. Qed.
Lemma sapp_nil (a : string) : a ++ "" = a.
Proof. induction a as [|x a IH]; cbn; [reflexivity|now rewrite IH]. Qed.

(** ** Calls *)
Section Runs.
Context {X : Type} (ok : X -> bool).

Definition runs (m : fmt X) (l : list X) : Prop :=
  exists t, m = Ok (t, until_failure ok l, forallb ok l).

Lemma until_app (a b : list X) :
  until_failure ok (a ++ b) = if forallb ok a then (a ++ until_failure ok b)%list else until_failure ok a.
Proof.
  induction a as [|x a IH]; cbn; [reflexivity|]. destruct (ok x); cbn; [|reflexivity].
  rewrite IH. now destruct (forallb ok a).
Qed.
Lemma until_all (a : list X) : forallb ok a = true -> until_failure ok a = a.
Proof.
  induction a as [|x a IH]; cbn; [reflexivity|]. destruct (ok x); cbn; [|discriminate]. intros H. now rewrite IH.
Qed.

Lemma runs_write s : runs (fwrite s) [].
Proof. now exists s. Qed.
Lemma runs_seq a b l1 l2 : runs a l1 -> runs b l2 -> runs (fseq a b) (l1 ++ l2).
Proof.
  intros (t1 & ->) (t2 & ->). unfold fseq, runs. cbn [bind]. rewrite until_app, forallb_app.
  destruct (forallb ok l1) eqn:E; cbn [andb]; [|eauto]. rewrite (until_all l1 E). eauto.
Qed.
Lemma runs_pad a l : runs a l -> runs (fpad a) l.
Proof. intros (t & ->). unfold fpad. cbn. eexists; reflexivity. Qed.
Lemma runs_eq a l l' : runs a l -> l = l' -> runs a l'.
Proof. now intros H <-. Qed.

Lemma runs_struct_fields pretty (fs : list (string * fmt X * list X)) : forall h,
  Forall (fun f => runs (snd (fst f)) (snd f)) fs ->
  runs (struct_fields pretty h (map fst fs)) (concat (map snd fs)).
Proof.
  induction fs as [|[[name m] l] fs IH]; intros h H; [apply runs_write|].
  inversion H as [|? ? H1 H2]; subst. cbn [map fst snd concat struct_fields] in *.
  apply runs_seq; [|now apply IH].
  destruct pretty.
  - eapply runs_eq; [apply runs_seq; [apply runs_write|]; apply runs_pad;
      apply runs_seq; [apply runs_write|]; apply runs_seq; [apply runs_write|];
      apply runs_seq; [exact H1|apply runs_write]|]. cbn. apply app_nil_r.
  - eapply runs_eq; [apply runs_seq; [apply runs_write|]; apply runs_seq; [apply runs_write|];
      apply runs_seq; [apply runs_write|exact H1]|]. reflexivity.
Qed.
Lemma runs_struct pretty name (fs : list (string * fmt X * list X)) :
  Forall (fun f => runs (snd (fst f)) (snd f)) fs ->
  runs (debug_struct pretty name (map fst fs)) (concat (map snd fs)).
Proof.
  intros H. unfold debug_struct. eapply runs_eq.
  - apply runs_seq; [apply runs_write|]. apply runs_seq; [now apply runs_struct_fields|].
    destruct (map fst fs); apply runs_write.
  - cbn. apply app_nil_r.
Qed.
Lemma runs_list_entries pretty (vs : list (fmt X * list X)) : forall h,
  Forall (fun f => runs (fst f) (snd f)) vs ->
  runs (list_entries pretty h (map fst vs)) (concat (map snd vs)).
Proof.
  induction vs as [|[m l] vs IH]; intros h H; [apply runs_write|].
  inversion H as [|? ? H1 H2]; subst. cbn [map fst snd concat list_entries] in *.
  apply runs_seq; [|now apply IH].
  destruct pretty.
  - eapply runs_eq; [apply runs_seq; [apply runs_write|]; apply runs_pad; apply runs_seq; [exact H1|apply runs_write]|].
    cbn. apply app_nil_r.
  - eapply runs_eq; [apply runs_seq; [apply runs_write|exact H1]|]. reflexivity.
Qed.
Lemma runs_list pretty (vs : list (fmt X * list X)) :
  Forall (fun f => runs (fst f) (snd f)) vs ->
  runs (debug_list pretty (map fst vs)) (concat (map snd vs)).
Proof.
  intros H. unfold debug_list. eapply runs_eq.
  - apply runs_seq; [apply runs_write|]. apply runs_seq; [now apply runs_list_entries|apply runs_write].
  - cbn. apply app_nil_r.
Qed.
Lemma runs_list_map {T} pretty (f : T -> fmt X) (g : T -> list X) l :
  (forall x, In x l -> runs (f x) (g x)) -> runs (debug_list pretty (map f l)) (flat_map g l).
Proof.
  intros H. assert (G := runs_list pretty (map (fun x => (f x, g x)) l)). rewrite !map_map in G. cbn [fst snd] in G.
  rewrite flat_map_concat_map. apply G. apply Forall_forall. intros p Hp. apply in_map_iff in Hp.
  destruct Hp as (x & <- & Hx). now apply H.
Qed.
Lemma runs_pair pretty a b l1 l2 : runs a l1 -> runs b l2 -> runs (debug_pair pretty a b) (l1 ++ l2).
Proof.
  intros H1 H2. unfold debug_pair. destruct pretty.
  - eapply runs_eq.
    + apply runs_seq; [apply runs_write|]. apply runs_seq; [apply runs_pad, runs_seq; [exact H1|apply runs_write]|].
      apply runs_seq; [apply runs_pad, runs_seq; [exact H2|apply runs_write]|apply runs_write].
    + cbn. now rewrite !app_nil_r.
  - eapply runs_eq.
    + apply runs_seq; [apply runs_write|]. apply runs_seq; [exact H1|]. apply runs_seq; [apply runs_write|].
      apply runs_seq; [exact H2|apply runs_write].
    + cbn. now rewrite !app_nil_r.
Qed.
End Runs.

Section Calls.
Context {B K V : Type} (db : user_debug B) (dk : user_debug K) (dv : user_debug V) (pretty : bool).
Context (cfg : config) (okk : K -> Prop) (rel : B -> list K -> Prop) (lo : nat) (strict : Prop).
Notation runs := (runs (show_ok db dk dv pretty)).
Notation wf := (wf cfg okk rel lo strict).

Lemma runs_user {T} (d : user_debug T) (tag : T -> shown B K V) x :
  (forall y, show_ok db dk dv pretty (tag y) = snd (d pretty y)) -> runs (user_fmt d tag pretty x) [tag x].
Proof.
  intros E. exists (fst (d pretty x)). cbn. rewrite E. unfold user_fmt. now destruct (snd (d pretty x)).
Qed.

Lemma runs_entry (kv : K * V) : runs (entry_debug dk dv pretty kv) [ShowK (fst kv); ShowV (snd kv)].
Proof. apply (runs_pair _ _ _ _ [ShowK (fst kv)] [ShowV (snd kv)]); now apply runs_user. Qed.

Lemma runs_node level (n : node B K V) : wf level n -> runs (node_debug db dk dv pretty level n) (shown_order n).
Proof.
  assert (Hfields : forall (b : B) items l, runs items l ->
    runs (debug_struct pretty "Node" [("bounds", user_fmt db ShowB pretty b); ("node", items)]) (ShowB b :: l)).
  { intros b items l H.
    eapply runs_eq; [apply (runs_struct _ pretty "Node"
      [("bounds", user_fmt db ShowB pretty b, [ShowB b]); ("node", items, l)]%list)|].
    - repeat constructor; cbn [fst snd]; [now apply runs_user|exact H].
    - cbn. now rewrite app_nil_r. }
  revert n; induction level as [|l IH]; intros n Hwf; cbn [node_debug];
    destruct (wf_inv _ _ _ _ _ _ _ Hwf) as (b & x & ->);
    cbn [node_children read_leaf read_inner bind node_bounds shown_order]; apply Hfields.
  - apply runs_list_map. intros kv _. apply runs_entry.
  - rewrite wf_inner in Hwf. destruct Hwf as (_ & _ & Hcs). apply runs_list_map. intros c Hc. apply IH.
    rewrite Forall_forall in Hcs. now apply Hcs.
Qed.

Lemma runs_tree (t : rtree B K V) : wf (fst t) (snd t) -> runs (rtree_debug db dk dv pretty t) (shown_order (snd t)).
Proof.
  intros H. eapply runs_eq; [apply (runs_struct _ pretty "RTree"
    [("root", node_debug db dk dv pretty (fst t) (snd t), shown_order (snd t))]%list)|].
  - repeat constructor. cbn [fst snd]. now apply runs_node.
  - cbn. apply app_nil_r.
Qed.
End Calls.

Section Order.
Context {B K V : Type} (cfg : config) (okk : K -> Prop) (rel : B -> list K -> Prop) (lo : nat) (strict : Prop).
Notation wf := (wf cfg okk rel lo strict).
Lemma shown_keys_app (a b : list (shown B K V)) : shown_keys (a ++ b) = (shown_keys a ++ shown_keys b)%list.
Proof. apply flat_map_app. Qed.
Lemma shown_values_app (a b : list (shown B K V)) : shown_values (a ++ b) = (shown_values a ++ shown_values b)%list.
Proof. apply flat_map_app. Qed.
Lemma shown_entries level (n : node B K V) : wf level n ->
  shown_keys (shown_order n) = map fst (entries n) /\ shown_values (shown_order n) = map snd (entries n).
Proof.
  revert n; induction level as [|l IH]; intros n Hwf; destruct (wf_inv _ _ _ _ _ _ _ Hwf) as (b & x & ->);
    cbn [shown_order entries].
  - change (shown_keys (ShowB b :: ?l)) with (shown_keys l).
    change (shown_values (ShowB b :: ?l)) with (shown_values l). clear Hwf.
    induction x as [|kv x [IH1 IH2]]; [now split|]. cbn [flat_map map].
    rewrite shown_keys_app, shown_values_app, IH1, IH2. now split.
  - rewrite wf_inner in Hwf. destruct Hwf as (_ & _ & Hcs).
    change (shown_keys (ShowB b :: ?l)) with (shown_keys l).
    change (shown_values (ShowB b :: ?l)) with (shown_values l).
    induction Hcs as [|c cs [Hc _] Hcs IHcs]; [now split|]. cbn [flat_map].
    destruct (IH c Hc) as [E1 E2]. destruct IHcs as [F1 F2].
    now rewrite shown_keys_app, shown_values_app, !map_app, E1, E2, F1, F2.
Qed.
End Order.

(** ** The text of the compact form *)
Section Text.
Context {B K V : Type} (db : user_debug B) (dk : user_debug K) (dv : user_debug V).
Context (cfg : config) (okk : K -> Prop) (rel : B -> list K -> Prop) (lo : nat) (strict : Prop).
Notation wf := (wf cfg okk rel lo strict).
Notation fmt := (fmt (shown B K V)).
Context (Hb : forall b, snd (db false b) = true) (Hk : forall k, snd (dk false k) = true)
        (Hv : forall v, snd (dv false v) = true).
Let sb b := fst (db false b). Let sk k := fst (dk false k). Let sv v := fst (dv false v).

Definition writes (m : fmt) (t : string) : Prop := exists l, m = Ok (t, l, true).
Lemma writes_write s : writes (fwrite s) s.
Proof. eexists; reflexivity. Qed.
Lemma writes_seq a b t1 t2 : writes a t1 -> writes b t2 -> writes (fseq a b) (t1 ++ t2).
Proof. intros (l1 & ->) (l2 & ->). unfold fseq. cbn. eexists; reflexivity. Qed.
Lemma writes_eq a t t' : writes a t -> t = t' -> writes a t'.
Proof. now intros H <-. Qed.

(** [join]: the list entries after the first. *)
Fixpoint tail_text (l : list string) : string := match l with [] => "" | x :: r => ", " ++ x ++ tail_text r end.
Lemma concat_text (l : list string) :
  String.concat ", " l = match l with [] => "" | x :: r => x ++ tail_text r end.
Proof.
  destruct l as [|x l]; [reflexivity|]. revert x; induction l as [|y l IH]; intros x.
  - cbn. now rewrite sapp_nil.
  - change (String.concat ", " (x :: y :: l)) with (x ++ ", " ++ String.concat ", " (y :: l)).
    rewrite IH. reflexivity.
Qed.
Lemma writes_list (vs : list (fmt * string)) : Forall (fun f => writes (fst f) (snd f)) vs ->
  writes (debug_list false (map fst vs)) ("[" ++ String.concat ", " (map snd vs) ++ "]").
Proof.
  intros H. unfold debug_list.
  assert (HT : forall vs, Forall (fun f => writes (fst f) (snd f)) vs ->
            writes (list_entries false true (map fst vs)) (tail_text (map snd vs))).
  { clear. induction vs as [|[m t] vs IH]; intros H; [apply writes_write|].
    inversion H as [|? ? H1 H2]; subst. cbn [map fst snd list_entries tail_text] in *.
    eapply writes_eq; [apply writes_seq; [apply writes_seq; [apply writes_write|exact H1]|exact (IH H2)]|].
    now rewrite sapp_assoc. }
  apply writes_seq; [apply writes_write|]. apply writes_seq; [|apply writes_write].
  rewrite concat_text. destruct vs as [|[m t] vs]; [apply writes_write|].
  inversion H as [|? ? H1 H2]; subst. cbn [map fst snd list_entries] in *.
  eapply writes_eq; [apply writes_seq; [apply writes_seq; [apply writes_write|exact H1]|exact (HT vs H2)]|]. reflexivity.
Qed.
Lemma writes_list_map {T} (f : T -> fmt) (g : T -> string) l :
  (forall x, List.In x l -> writes (f x) (g x)) ->
  writes (debug_list false (map f l)) ("[" ++ String.concat ", " (map g l) ++ "]").
Proof.
  intros H. assert (G := writes_list (map (fun x => (f x, g x)) l)). rewrite !map_map in G. cbn [fst snd] in G.
  apply G. apply Forall_forall. intros p Hp. apply in_map_iff in Hp. destruct Hp as (x & <- & Hx). now apply H.
Qed.
Lemma writes_user {T} (d : user_debug T) (tag : T -> shown B K V) x :
  snd (d false x) = true -> writes (user_fmt d tag false x) (fst (d false x)).
Proof. intros E. unfold user_fmt. rewrite E. eexists; reflexivity. Qed.
Lemma writes_entry kv : writes (entry_debug dk dv false kv) ("(" ++ sk (fst kv) ++ ", " ++ sv (snd kv) ++ ")").
Proof.
  unfold entry_debug, debug_pair. apply writes_seq; [apply writes_write|].
  apply writes_seq; [now apply writes_user|]. apply writes_seq; [apply writes_write|].
  apply writes_seq; [now apply writes_user|apply writes_write].
Qed.
Lemma writes_node level (n : node B K V) : wf level n ->
  writes (node_debug db dk dv false level n) (node_text sb sk sv n).
Proof.
  assert (Hfields : forall (b : B) items t, writes items ("[" ++ t ++ "]") ->
    writes (debug_struct false "Node" [("bounds", user_fmt db ShowB false b); ("node", items)])
      ("Node { bounds: " ++ sb b ++ ", node: [" ++ t ++ "] }")).
  { intros b items t H. unfold debug_struct. cbn [struct_fields].
    eapply writes_eq.
    - repeat first [exact H|apply writes_write|apply writes_seq|apply writes_user; apply Hb].
    - fold (sb b). cbn. rewrite !sapp_assoc. cbn. rewrite !sapp_assoc. reflexivity. }
  revert n; induction level as [|l IH]; intros n Hwf; cbn [node_debug];
    destruct (wf_inv _ _ _ _ _ _ _ Hwf) as (b & x & ->);
    cbn [node_children read_leaf read_inner bind node_bounds node_text]; apply Hfields.
  - apply writes_list_map. intros kv _. apply writes_entry.
  - rewrite wf_inner in Hwf. destruct Hwf as (_ & _ & Hcs). apply writes_list_map. intros c Hc. apply IH.
    rewrite Forall_forall in Hcs. now apply Hcs.
Qed.
Lemma writes_tree (t : rtree B K V) : wf (fst t) (snd t) ->
  writes (rtree_debug db dk dv false t) ("RTree { root: " ++ node_text sb sk sv (snd t) ++ " }").
Proof.
  intros H. unfold rtree_debug, debug_struct. cbn [struct_fields]. eapply writes_eq.
  - repeat first [exact (writes_node _ _ H)|apply writes_write|apply writes_seq].
  - cbn. rewrite !sapp_assoc. reflexivity.
Qed.
End Text.

(** ** The text determines the tree *)
Lemma sapp_inv (a s t : string) : a ++ s = a ++ t -> s = t.
Proof. induction a as [|c a IH]; cbn; [auto|]. intros H. injection H as H. auto. Qed.

Definition self_delimited {T : Type} (f : T -> string) (x : T) : Prop :=
  forall y s1 s2, f x ++ s1 = f y ++ s2 -> x = y /\ s1 = s2.

Lemma tail_inj {T : Type} (f : T -> string) (l1 l2 : list T) (s1 s2 : string) :
  (forall x y r1 r2, In x l1 -> In y l2 -> f x ++ String "," r1 = f y ++ String "," r2 -> x = y /\ r1 = r2) ->
  (forall x y r1 r2, In x l1 -> In y l2 -> f x ++ String "," r1 = f y ++ String "]" r2 -> False) ->
  (forall x y r1 r2, In x l1 -> In y l2 -> f x ++ String "]" r1 = f y ++ String "," r2 -> False) ->
  (forall x y r1 r2, In x l1 -> In y l2 -> f x ++ String "]" r1 = f y ++ String "]" r2 -> x = y /\ r1 = r2) ->
  tail_text (map f l1) ++ String "]" s1 = tail_text (map f l2) ++ String "]" s2 -> l1 = l2 /\ s1 = s2.
Proof.
  revert l2; induction l1 as [|x l1 IH]; intros [|y l2] Hcc Hcb Hbc Hbb E; cbn in E.
  - injection E as E. auto.
  - discriminate E.
  - discriminate E.
  - injection E as E. rewrite ?sapp_assoc in E.
    assert (Hxy : x = y /\ tail_text (map f l1) ++ String "]" s1 = tail_text (map f l2) ++ String "]" s2).
    { destruct l1 as [|x' l1], l2 as [|y' l2]; cbn in E |- *.
      - destruct (Hbb x y _ _ (or_introl eq_refl) (or_introl eq_refl) E) as [-> ->]. auto.
      - destruct (Hbc x y _ _ (or_introl eq_refl) (or_introl eq_refl) E).
      - destruct (Hcb x y _ _ (or_introl eq_refl) (or_introl eq_refl) E).
      - destruct (Hcc x y _ _ (or_introl eq_refl) (or_introl eq_refl) E) as [-> ->]. auto. }
    destruct Hxy as [-> Exy]. destruct (IH l2) as [-> ->]; auto; intros; eauto using in_cons.
Qed.

Lemma tail_inj_any {T : Type} (f : T -> string) (l1 l2 : list T) (s1 s2 : string) :
  (forall x y r1 r2, In x l1 -> In y l2 -> f x ++ r1 = f y ++ r2 -> x = y /\ r1 = r2) ->
  tail_text (map f l1) ++ String "]" s1 = tail_text (map f l2) ++ String "]" s2 -> l1 = l2 /\ s1 = s2.
Proof.
  intros H. apply tail_inj; intros x y r1 r2 Hx Hy E; destruct (H x y _ _ Hx Hy E) as [-> E2];
    try discriminate E2; injection E2 as E2; auto.
Qed.

Lemma tail_inj_delim {T : Type} (f : T -> string) (l1 l2 : list T) (s1 s2 : string) : delimited f ->
  tail_text (map f l1) ++ String "]" s1 = tail_text (map f l2) ++ String "]" s2 -> l1 = l2 /\ s1 = s2.
Proof.
  intros H.
  assert (D1 : forall r, starts_delim (String "," r)) by (intros r; exists ","%char, r; split; cbn; auto).
  assert (D2 : forall r, starts_delim (String "]" r)) by (intros r; exists "]"%char, r; split; cbn; auto).
  apply tail_inj; intros x y r1 r2 _ _ E; apply H in E; auto; destruct E as [-> E]; try discriminate E;
    injection E as E; auto.
Qed.

Section Inj.
Context {B K V : Type} (sb : B -> string) (sk : K -> string) (sv : V -> string).
Context (Db : delimited sb) (Dk : delimited sk) (Dv : delimited sv).
Context (cfg1 cfg2 : config) (ok1 ok2 : K -> Prop) (rel1 rel2 : B -> list K -> Prop) (lo1 lo2 : nat).
Notation text := (node_text sb sk sv).
Notation wf1 := (wf cfg1 ok1 rel1 lo1 True).
Notation wf2 := (wf cfg2 ok2 rel2 lo2 True).
Let etext (kv : K * V) := "(" ++ sk (fst kv) ++ ", " ++ sv (snd kv) ++ ")".

Lemma entry_inj (x y : K * V) s1 s2 : etext x ++ s1 = etext y ++ s2 -> x = y /\ s1 = s2.
Proof.
  destruct x as [k v], y as [k' v']. unfold etext. cbn. intros E. injection E as E. rewrite ?sapp_assoc in E.
  apply Dk in E; [|exists ","%char; eexists; split; [reflexivity|cbn; auto]..].
  destruct E as [-> E]. cbn in E. injection E as E. rewrite ?sapp_assoc in E.
  apply Dv in E; [|exists ")"%char; eexists; split; [reflexivity|cbn; auto]..].
  destruct E as [-> E]. cbn in E. injection E as E. auto.
Qed.

Lemma node_inj l1 : forall l2 (n m : node B K V) s1 s2, wf1 l1 n -> wf2 l2 m ->
  (l1 <> 0 -> 1 <= fanout n) -> (l2 <> 0 -> 1 <= fanout m) ->
  text n ++ s1 = text m ++ s2 -> n = m /\ s1 = s2 /\ l1 = l2.
Proof.
  induction l1 as [|l1 IH]; intros l2 n m s1 s2 Hn Hm Fn Fm E;
    destruct (wf_inv _ _ _ _ _ _ _ Hn) as (b & x & ->).
  - destruct l2 as [|l2]; destruct (wf_inv _ _ _ _ _ _ _ Hm) as (b' & x' & ->); cbn [node_text] in E;
      (rewrite ?sapp_assoc in E; apply (sapp_inv "Node { bounds: ") in E);
      rewrite ?sapp_assoc in E;
      (apply Db in E; [|exists ","%char; eexists; split; [reflexivity|cbn; auto]..]);
      destruct E as [-> E]; apply (sapp_inv ", node: [") in E; rewrite !concat_text in E.
    + change (fun kv : K * V => "(" ++ sk (fst kv) ++ ", " ++ sv (snd kv) ++ ")") with etext in E.
      destruct x as [|kv x], x' as [|kv' x']; cbn [map] in E.
      * cbn in E. injection E as E. auto.
      * cbn in E. discriminate E.
      * cbn in E. discriminate E.
      * rewrite ?sapp_assoc in E. apply entry_inj in E. destruct E as [-> E].
        apply (tail_inj_any etext) in E; [|intros; now apply entry_inj].
        destruct E as [-> E]. apply (sapp_inv " }") in E. auto.
    + exfalso. specialize (Fm ltac:(discriminate)). destruct x' as [|c x']; [cbn in Fm; lia|].
      destruct x as [|kv x]; destruct c as [bc [cc|ec]]; cbn in E; discriminate E.
  - destruct l2 as [|l2]; destruct (wf_inv _ _ _ _ _ _ _ Hm) as (b' & x' & ->); cbn [node_text] in E;
      (rewrite ?sapp_assoc in E; apply (sapp_inv "Node { bounds: ") in E);
      rewrite ?sapp_assoc in E;
      (apply Db in E; [|exists ","%char; eexists; split; [reflexivity|cbn; auto]..]);
      destruct E as [-> E]; apply (sapp_inv ", node: [") in E; rewrite !concat_text in E.
    + exfalso. specialize (Fn ltac:(discriminate)). destruct x as [|c x]; [cbn in Fn; lia|].
      destruct x' as [|kv x']; destruct c as [bc [cc|ec]]; cbn in E; discriminate E.
    + specialize (Fn ltac:(discriminate)). specialize (Fm ltac:(discriminate)).
      destruct x as [|c x]; [cbn in Fn; lia|]. destruct x' as [|c' x']; [cbn in Fm; lia|].
      cbn [map] in E. rewrite ?sapp_assoc in E.
      rewrite wf_inner in Hn, Hm. destruct Hn as (_ & _ & Hn), Hm as (_ & _ & Hm).
      assert (Hf : forall l lo, l <> 0 -> lo_at lo l >= 1) by (intros [|l] lo Hl; unfold lo_at; lia).
      inversion Hn as [|? ? [Hc Lc] Hx]; subst. inversion Hm as [|? ? [Hc' Lc'] Hx']; subst.
      specialize (Lc Logic.I). specialize (Lc' Logic.I).
      apply (IH l2) in E; [|exact Hc|exact Hc'|intros Hl; specialize (Hf _ lo1 Hl); lia|intros Hl; specialize (Hf _ lo2 Hl); lia].
      destruct E as (-> & E & ->).
      apply (tail_inj_any text) in E.
      * destruct E as [-> E]. apply (sapp_inv " }") in E. auto.
      * intros y y' r1 r2 Hy Hy' E'. rewrite Forall_forall in Hx, Hx'.
        destruct (Hx y Hy) as [W L]. destruct (Hx' y' Hy') as [W' L']. specialize (L Logic.I). specialize (L' Logic.I).
        apply (IH l2) in E'; [|exact W|exact W'|intros Hl; specialize (Hf _ lo1 Hl); lia|intros Hl; specialize (Hf _ lo2 Hl); lia].
        destruct E' as (-> & -> & _). auto.
Qed.
End Inj.

(** ** The crate's own texts are delimited *)
Definition no_delim (s : string) : Prop := forall c, In c (list_ascii_of_string s) -> ~ In c [","; ")"; "]"; " "]%char.

Lemma no_delim_cut (a b s1 s2 : string) : no_delim a -> no_delim b -> starts_delim s1 -> starts_delim s2 ->
  a ++ s1 = b ++ s2 -> a = b /\ s1 = s2.
Proof.
  intros Ha Hb (c1 & r1 & -> & H1) (c2 & r2 & -> & H2).
  revert b Hb; induction a as [|c a IH]; intros [|d b] Hb E; cbn in E.
  - auto.
  - injection E as -> E. destruct (Hb d); cbn; auto.
  - injection E as -> E. destruct (Ha c2); cbn; auto.
  - injection E as -> E. destruct (IH ltac:(intros x Hx; apply Ha; now right) b ltac:(intros x Hx; apply Hb; now right) E) as [-> ->].
    auto.
Qed.

Lemma uint_no_delim u : no_delim (NilEmpty.string_of_uint u).
Proof.
  induction u as [|u IH|u IH|u IH|u IH|u IH|u IH|u IH|u IH|u IH|u IH]; intros c Hc; cbn in Hc;
    [destruct Hc|..]; (destruct Hc as [<-|Hc]; [cbn; intuition discriminate|exact (IH c Hc)]).
Qed.
Lemma int_no_delim i : no_delim (NilZero.string_of_int i).
Proof.
  destruct i as [u|u]; intros c Hc; cbn in Hc.
  - destruct u; try exact (uint_no_delim _ c Hc). cbn in Hc. destruct Hc as [<-|[]]. cbn; intuition discriminate.
  - destruct Hc as [<-|Hc]; [cbn; intuition discriminate|].
    destruct u; try exact (uint_no_delim _ c Hc). cbn in Hc. destruct Hc as [<-|[]]. cbn; intuition discriminate.
Qed.

Lemma uint_revapp_nil u v : Decimal.revapp u v = Decimal.Nil -> u = Decimal.Nil /\ v = Decimal.Nil.
Proof.
  revert v; induction u as [|u IH|u IH|u IH|u IH|u IH|u IH|u IH|u IH|u IH|u IH]; intros v H; cbn in H;
    [auto|..]; apply IH in H; destruct H as [_ H]; discriminate H.
Qed.
Lemma to_int_not_nil z : Z.to_int z <> Decimal.Pos Decimal.Nil /\ Z.to_int z <> Decimal.Neg Decimal.Nil.
Proof.
  assert (H : forall p, Pos.to_uint p <> Decimal.Nil).
  { intros p E. apply (f_equal Pos.of_uint) in E. rewrite DecimalPos.Unsigned.of_to in E. cbn in E. discriminate E. }
  destruct z as [|p|p]; cbn; split; intros E; try discriminate E; injection E as E; exact (H p E).
Qed.
Lemma i32_delimited pretty : delimited (fun x => fst (i32_debug pretty x)).
Proof.
  intros x y s1 s2 H1 H2 E. cbn in E. apply no_delim_cut in E; auto using int_no_delim.
  destruct E as [E ->]. split; [|reflexivity]. apply i32_eq.
  apply (f_equal NilZero.int_of_string) in E.
  rewrite !NilZero.isi in E by apply to_int_not_nil. injection E as E.
  apply (f_equal Z.of_int) in E. now rewrite !DecimalZ.of_to in E.
Qed.

(** Texts that end themselves. *)
Definition prefix_free {T : Type} (show : T -> string) : Prop :=
  forall x y s1 s2, show x ++ s1 = show y ++ s2 -> x = y /\ s1 = s2.
Lemma prefix_free_delimited {T} (show : T -> string) : prefix_free show -> delimited show.
Proof. intros H x y s1 s2 _ _. apply H. Qed.

Lemma plain_list {N : Type} (d : N -> string) (l : list N) :
  plain (debug_list false (map (fun x => as_fmt (d x, true)) l)) = ("[" ++ String.concat ", " (map d l) ++ "]", true).
Proof.
  unfold debug_list.
  rewrite concat_text. destruct l as [|x l]; [reflexivity|].
  assert (HT' : list_entries (X := Empty_set) false true (map (fun x => as_fmt (d x, true)) l) = Ok (tail_text (map d l), []%list, true)).
  { induction l as [|y l IH]; [reflexivity|]. cbn [map list_entries tail_text]. rewrite IH. unfold fseq, fwrite, as_fmt. cbn.
    reflexivity. }
  cbn [map list_entries]. rewrite HT'. unfold fseq, fwrite, as_fmt. cbn. reflexivity.
Qed.

Lemma vlist_inj {N : Type} (D : nat) (a b : svec N D) : vlist a = vlist b -> a = b.
Proof.
  induction D as [|D IH]; [now destruct a, b|]. destruct a as [x a], b as [y b]. cbn. intros E. injection E as -> E.
  now rewrite (IH a b E).
Qed.
Lemma vlist_len {N : Type} (D : nat) (a : svec N D) : length (vlist a) = D.
Proof. induction D as [|D IH]; [reflexivity|]. destruct a as [x a]. cbn. now rewrite (IH a). Qed.
Lemma svec_prefix_free {N : Type} (d : user_debug N) (D : nat) :
  (forall x, snd (d false x) = true) -> delimited (fun x => fst (d false x)) ->
  (forall v, snd (svec_debug d D false v) = true) /\ prefix_free (fun v => fst (svec_debug d D false v)).
Proof.
  intros Hok Hd.
  assert (E : forall v, svec_debug d D false v = ("[" ++ String.concat ", " (map (fun x => fst (d false x)) (vlist v)) ++ "]", true)).
  { intros v. unfold svec_debug. rewrite <- (plain_list (fun x => fst (d false x))). do 2 f_equal. apply map_ext. intros x.
    rewrite <- (Hok x). now destruct (d false x). }
  split; [intros v; now rewrite E|]. intros x y s1 s2. rewrite !E. cbn [fst]. rewrite !concat_text. intros H.
  rewrite ?sapp_assoc in H. apply (sapp_inv "[") in H.
  assert (G : vlist x = vlist y /\ s1 = s2).
  { assert (L : length (vlist x) = length (vlist y)) by (now rewrite !vlist_len).
    destruct (vlist x) as [|a l], (vlist y) as [|b m]; cbn [map] in H.
    - cbn in H. injection H as H. auto.
    - discriminate L.
    - discriminate L.
    - rewrite ?sapp_assoc in H. 
      assert (H' : tail_text (map (fun x => fst (d false x)) (a :: l)) ++ String "]" s1
                   = tail_text (map (fun x => fst (d false x)) (b :: m)) ++ String "]" s2).
      { cbn [map tail_text]. rewrite ?sapp_assoc. f_equal. exact H. }
      now apply tail_inj_delim in H'. }
  destruct G as [G ->]. split; [|reflexivity]. now apply vlist_inj.
Qed.

Lemma aabb_prefix_free {T : Type} (d : user_debug T) :
  (forall x, snd (d false x) = true) -> delimited (fun x => fst (d false x)) ->
  (forall v, snd (aabb_debug d false v) = true) /\ prefix_free (fun v => fst (aabb_debug d false v)).
Proof.
  intros Hok Hd.
  assert (E : forall v, aabb_debug d false v =
            ("AABB { min: " ++ fst (d false (bmin v)) ++ ", max: " ++ fst (d false (bmax v)) ++ " }", true)).
  { intros v. unfold aabb_debug, debug_struct. cbn [struct_fields]. unfold fseq, fwrite, as_fmt. cbn.
    rewrite !Hok. cbn. rewrite ?sapp_assoc. cbn. rewrite ?sapp_assoc. reflexivity. }
  split; [intros v; now rewrite E|]. intros x y s1 s2. rewrite !E. cbn [fst]. intros H.
  rewrite ?sapp_assoc in H. apply (sapp_inv "AABB { min: ") in H.
  apply Hd in H; [|exists ","%char; eexists; split; [reflexivity|cbn; auto]..]. destruct H as [H1 H].
  rewrite ?sapp_assoc in H. apply (sapp_inv ", max: ") in H.
  apply Hd in H; [|exists " "%char; eexists; split; [reflexivity|cbn; auto]..]. destruct H as [H2 H].
  apply (sapp_inv " }") in H. split; [|exact H]. destruct x, y. cbn in H1, H2. now subst.
Qed.

(** ** [_debug_assert_eq] *)
Section AssertEq.
Context {B K V : Type} (keqb : K -> K -> bool) (veqb : V -> V -> bool).
Context (cfg1 cfg2 : config) (ok1 ok2 : K -> Prop) (rel1 rel2 : B -> list K -> Prop) (lo1 lo2 : nat) (st1 st2 : Prop).
Notation wf1 := (wf (V := V) cfg1 ok1 rel1 lo1 st1).
Notation wf2 := (wf (V := V) cfg2 ok2 rel2 lo2 st2).

Lemma entries_eqb_spec (a b : list (K * V)) : entries_eqb keqb veqb a b = true <->
  Forall2 (fun x y => keqb (fst x) (fst y) = true /\ veqb (snd x) (snd y) = true) a b.
Proof.
  revert b; induction a as [|[k v] a IH]; intros [|[k' v'] b]; cbn.
  - split; auto.
  - split; [intros H; discriminate H|intros H; inversion H].
  - split; [intros H; discriminate H|intros H; inversion H].
  - rewrite !andb_true_iff, IH. split; [intros ([H1 H2] & H); constructor; auto|].
    intros H; inversion H as [|? ? ? ? [H1 H2] H3]; subst. cbn in H1, H2. auto.
Qed.

Lemma node_assert_eq_spec l1 : forall l2 (n m : node B K V), wf1 l1 n -> wf2 l2 m ->
  (node_assert_eq keqb veqb l1 n l2 m = Ok tt /\ l1 = l2 /\ alike keqb veqb n m) \/
  (node_assert_eq keqb veqb l1 n l2 m = Panic /\ ~ (l1 = l2 /\ alike keqb veqb n m)).
Proof.
  induction l1 as [|l1 IH]; intros l2 n m Hn Hm; destruct (wf_inv _ _ _ _ _ _ _ Hn) as (b & x & ->);
    destruct l2 as [|l2]; destruct (wf_inv _ _ _ _ _ _ _ Hm) as (b' & x' & ->); cbn [node_assert_eq Nat.eqb assert bind].
  - cbn [node_children read_leaf bind]. destruct (entries_eqb keqb veqb x x') eqn:E; cbn [assert].
    + left. split; [reflexivity|]. split; [reflexivity|]. constructor. now apply entries_eqb_spec.
    + right. split; [reflexivity|]. intros [_ H]. inversion H as [? ? ? ? H1|]; subst.
      apply entries_eqb_spec in H1. congruence.
  - right. split; [reflexivity|]. intros [H _]; discriminate H.
  - right. split; [reflexivity|]. intros [H _]; discriminate H.
  - change (Nat.eqb (S l1) (S l2)) with (Nat.eqb l1 l2).
    destruct (Nat.eqb_spec l1 l2) as [<-|Hl]; cbn [assert bind];
      [|right; split; [reflexivity|intros [H _]; injection H as H; auto]].
    cbn [node_children read_inner bind]. rewrite wf_inner in Hn, Hm. destruct Hn as (_ & _ & Hn), Hm as (_ & _ & Hm).
    destruct (Nat.eqb_spec (List.length x) (List.length x')) as [HL|HL]; cbn [assert bind].
    + set (zip := (fix zip (cs cs' : list (node B K V)) : res unit := _)).
      assert (G : (zip x x' = Ok tt /\ Forall2 (alike keqb veqb) x x') \/ (zip x x' = Panic /\ ~ Forall2 (alike keqb veqb) x x')).
      { revert x' HL Hm; induction Hn as [|c cs [Hc _] Hn IHn]; intros [|c' cs'] HL Hm; try discriminate HL.
        - left. split; [reflexivity|constructor].
        - inversion Hm as [|? ? [Hc' _] Hm']; subst. cbn in HL. injection HL as HL. cbn [zip].
          destruct (IH l1 c c' Hc Hc') as [(E & _ & Ha)|(E & Ha)]; rewrite E; cbn [bind].
          + fold zip. destruct (IHn cs' HL Hm') as [[E2 Hr]|[E2 Hr]]; rewrite E2.
            * left. split; [reflexivity|now constructor].
            * right. split; [reflexivity|]. intros H; inversion H; subst; auto.
          + right. split; [reflexivity|]. intros H; inversion H; subst; auto. }
      destruct G as [[-> G]|[-> G]]; [left|right].
      * split; [reflexivity|]. split; [reflexivity|now constructor].
      * split; [reflexivity|]. intros [_ H]; inversion H; subst; auto.
    + right. split; [reflexivity|]. intros [_ H]; inversion H as [|? ? ? ? H1]; subst. apply HL. clear -H1. induction H1; cbn; auto.
Qed.
End AssertEq.
