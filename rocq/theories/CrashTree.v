(** Unwinding: the tree operations. *)
From Verif Require Export CrashProof.

Lemma res_map_id {A} (r : res A) : r = res_map (fun x => x) r.
Proof. now destruct r. Qed.
Lemma unwrap_not_ub {A} (o : option A) : unwrap o <> UB. Proof. now destruct o. Qed.
Lemma unwrap_not_oof {A} (o : option A) : unwrap o <> OutOfFuel. Proof. now destruct o. Qed.
Lemma slice_swap_not_ub {T} i j (l : list T) : slice_swap i j l <> UB /\ slice_swap i j l <> OutOfFuel.
Proof. unfold slice_swap. destruct (nth_error l i), (nth_error l j); now split. Qed.
Lemma swap_remove_not_ub {T} i (l : list T) : swap_remove i l <> UB /\ swap_remove i l <> OutOfFuel.
Proof. unfold swap_remove. destruct (nth_error l i); now split. Qed.
Lemma slice_swap_perm {T} i j (l l' : list T) : slice_swap i j l = Ok l' -> Permutation l l' /\ length l' = length l.
Proof.
  intros E. destruct (slice_swap_spec i j l) as (l2 & E2 & Hp & _).
  - unfold slice_swap in E. destruct (nth_error l i) eqn:Ei; [|discriminate]. now apply nth_error_lt in Ei.
  - unfold slice_swap in E. destruct (nth_error l i), (nth_error l j) eqn:Ej; try discriminate. now apply nth_error_lt in Ej.
  - rewrite E in E2. injection E2 as <-. split; [exact Hp|]. symmetry. now apply Permutation_length.
Qed.
Lemma swap_remove_perm {T} i (l : list T) x l' : swap_remove i l = Ok (x, l') -> Permutation l (x :: l') /\ length l = S (length l').
Proof.
  intros E. destruct (swap_remove_spec i l) as (y & l2 & E2 & _ & Hp' & _).
  - unfold swap_remove in E. destruct (nth_error l i) eqn:Ei; [|discriminate]. now apply nth_error_lt in Ei.
  - rewrite E in E2. injection E2 as <- <-.
    split; [exact Hp'|]. apply Permutation_length in Hp'. exact Hp'.
Qed.

Section XSplitProof.
Context {B K V T : Type} (crash : nat -> bool) (gv : list (xthing K V)) (lk : Prop) (P : Params B K) (cfg : config).
Context (bnd : T -> B) (drop_elem : T -> D K V unit) (th : T -> list (xthing K V)).
Notation spec := (spec crash gv lk).
Notation cspec := (cspec gv lk).
Notation cap := (max_children cfg).
Notation minc := (min_children cfg).
Context (Hdrop : forall x, cspec (drop_elem x) (th x) nothing any).

Lemma xtry_push_spec (l : list T) x H : length l <= cap ->
  spec (xtry_push cap l x) (push cap l x) (fun l => l) H
    (fun _ => H) (fun l' => l' = l ++ [x] /\ length l' <= cap) (fun _ => H) (fun y => y = x).
Proof.
  intros Hl s L Ho. unfold xtry_push, push. destruct (Nat.eqb_spec (length l) cap) as [Ee|Hne].
  - exists (inr x), s. splits; auto. exists []. now split.
  - destruct (Nat.ltb_spec cap (length l)); [lia|]. exists (inl (l ++ [x])), s. splits; auto.
    rewrite app_length. cbn. lia.
Qed.

Lemma abort_spec id2 group2 values H : Permutation H (flat_map th values ++ XBuf id2 :: flat_map th group2) ->
  forall QE : list T -> Prop, QE values ->
  cspec (let$ _ := drop_vec drop_elem id2 group2 in dret values) H (flat_map th) QE.
Proof.
  intros Hp QE HQ. eapply cspec_bind with (F := flat_map th values).
  2:{ apply (cspec_drop_vec gv lk drop_elem th id2 group2 Hdrop). }
  - rewrite Hp. perm.
  - intros [] _. apply cspec_ret; [apply keep_refl|exact HQ].
Qed.

Lemma xsplit_loop_spec fuel values g1 id2 group2 b1 b2 :
  length values - g1 <= fuel -> length group2 <= cap ->
  spec (xsplit_loop crash P cfg bnd drop_elem fuel values g1 id2 group2 b1 b2)
    (split_loop P bnd fuel cap minc values g1 group2 b1 b2) (fun r => r)
    (flat_map th values ++ XBuf id2 :: flat_map th group2)
    (fun r => flat_map th (snd (fst r)) ++ XBuf id2 :: flat_map th (snd r))
    (fun r => Permutation (snd (fst r) ++ snd r) (values ++ group2) /\ length (snd (fst r)) <= length values /\ length (snd r) <= cap)
    (flat_map th) (fun values' => part_of values' values /\ length values' <= length values).
Proof.
  revert values g1 group2 b1 b2; induction fuel as [|fuel IH]; intros values g1 group2 b1 b2 Hf Hg; cbn [xsplit_loop split_loop].
  { destruct (Nat.ltb_spec g1 (length values)); [lia|]. apply spec_ret; [reflexivity| |reflexivity]. cbn. auto. }
  assert (Hab : forall H, Permutation H (flat_map th values ++ XBuf id2 :: flat_map th group2) ->
    cspec (let$ _ := drop_vec drop_elem id2 group2 in dret values) H (flat_map th)
      (fun values' => part_of values' values /\ length values' <= length values)).
  { intros H Hp. apply abort_spec; [exact Hp|]. split; [apply part_refl|reflexivity]. }
  destruct (Nat.ltb_spec g1 (length values)) as [Hlt|Hge].
  2:{ apply spec_ret; [reflexivity| |reflexivity]. cbn. auto. }
  apply spec_user; [|now apply Hab].
  apply (spec_lift crash gv lk (fun x => x)); [apply res_map_id|apply unwrap_not_ub|apply unwrap_not_oof| |now apply Hab].
  intros [c1 v1] E1.
  apply (spec_lift crash gv lk (fun x => x)); [apply res_map_id|apply unwrap_not_ub|apply unwrap_not_oof| |now apply Hab].
  intros [c2 v2] E2.
  destruct (if n64_lt P v1 v2 then _ else _).
  - apply (spec_lift crash gv lk (fun x => x)); [apply res_map_id|apply unwrap_not_ub|apply unwrap_not_oof| |now apply Hab].
    intros x Ex. apply spec_user; [|now apply Hab].
    apply (spec_lift crash gv lk (fun x => x)); [apply res_map_id|apply slice_swap_not_ub|apply slice_swap_not_ub| |now apply Hab].
    intros values' Es. apply slice_swap_perm in Es as [Hp Hl].
    eapply spec_perm; [rewrite Hp; reflexivity|].
    eapply spec_mono; [| |apply IH; lia].
    + intros r (H1 & H2 & H3). split; [rewrite H1, Hp; reflexivity|]. lia.
    + intros r (H1 & H2). split; [|lia]. eapply part_perm_r; [exact Hp|exact H1].
  - apply (spec_lift crash gv lk (fun x => x)); [apply res_map_id|apply unwrap_not_ub|apply unwrap_not_oof| |now apply Hab].
    intros x Ex. apply spec_user; [|now apply Hab].
    apply (spec_lift crash gv lk (fun x => x)); [apply res_map_id|apply swap_remove_not_ub|apply swap_remove_not_ub| |now apply Hab].
    intros [y values'] Es. apply swap_remove_perm in Es as [Hp Hl].
    set (H := flat_map th values ++ XBuf id2 :: flat_map th group2).
    eapply spec_bind with (H1 := H) (F := []); [perm|apply xtry_push_spec; exact Hg| |].
    + intros g2 [-> Hl2] _. eapply spec_perm with (H' := flat_map th values' ++ XBuf id2 :: flat_map th (group2 ++ [y])).
      { unfold H. rewrite (Permutation_flat_map_ th _ _ Hp), flat_map_app. cbn [flat_map]. perm. }
      eapply spec_mono; [| |apply IH; lia].
      * intros r (H1 & H2 & H3). split; [rewrite H1, Hp; perm|]. lia.
      * intros r (H1 & H2). split; [|lia]. eapply part_perm_r; [exact Hp|].
        eapply part_perm_r; [apply (Permutation_app_comm [y] values')|]. now apply part_app_r.
    + intros e ->. eapply cspec_bind with (H1 := th y) (F := flat_map th values' ++ XBuf id2 :: flat_map th group2).
      * unfold H. rewrite (Permutation_flat_map_ th _ _ Hp). cbn [flat_map]. perm.
      * apply Hdrop.
      * intros [] _. apply abort_spec; [perm|]. split; [|lia]. eapply part_perm_r; [exact Hp|].
        eapply part_perm_r; [apply (Permutation_app_comm [y] values')|]. apply part_app_r, part_refl.
Qed.

Lemma seed_split_perm values ov values' seed : seed_split_groups P bnd values ov = Ok (values', seed) ->
  Permutation (ov :: values) (seed :: values') /\ length values' = length values.
Proof.
  intros E. unfold seed_split_groups in E. destruct (worst_combination P bnd values ov) as [[i1 i2]| | |]; try discriminate.
  cbn [bind] in E. destruct (slice_swap 0 i1 values) as [vs| | |] eqn:Es; try discriminate. cbn [bind] in E.
  apply slice_swap_perm in Es as [Hp Hl]. destruct (_ <? _).
  - destruct (nth_error vs i2) as [x|] eqn:Ex; [|discriminate]. injection E as <- <-. rewrite set_nth_length. split; [|exact Hl].
    rewrite Hp. destruct (nth_error_split_set i2 x ov vs Ex) as (l1 & l2 & -> & _ & ->). perm.
  - injection E as <- <-. split; [now rewrite Hp|exact Hl].
Qed.

Lemma seed_split_not_ub values ov : seed_split_groups P bnd values ov <> UB /\ seed_split_groups P bnd values ov <> OutOfFuel.
Proof.
  unfold seed_split_groups. destruct values as [|v vs]; [now split|].
  destruct (worst_combination P bnd (v :: vs) ov) as [[i1 i2]| | |] eqn:Ew; cbn [bind].
  2:{ now split. }
  2:{ exfalso. cbn in Ew. destruct (fold_left _ _ _), (wc_outer _ _ _ _ _) as [[? ?] ?]. discriminate. }
  2:{ exfalso. cbn in Ew. destruct (fold_left _ _ _), (wc_outer _ _ _ _ _) as [[? ?] ?]. discriminate. }
  destruct (slice_swap 0 i1 (v :: vs)) as [l| | |] eqn:Es; cbn [bind].
  2:{ now split. }
  2:{ now apply slice_swap_not_ub in Es. }
  2:{ now apply slice_swap_not_ub in Es. }
  destruct (_ <? _); [|now split]. destruct (nth_error l i2); now split.
Qed.

Lemma xsplit_spec values ov : length values <= cap ->
  spec (xsplit crash P cfg bnd drop_elem values ov) (split P bnd cap minc values ov)
    (fun r => let '(b1, b2, g1, (_, g2)) := r in (b1, b2, g1, g2))
    (flat_map th values ++ th ov)
    (fun r => let '(_, _, g1, (id2, g2)) := r in flat_map th g1 ++ XBuf id2 :: flat_map th g2)
    (fun r => let '(_, _, g1, (id2, g2)) := r in
       Permutation (g1 ++ g2) (ov :: values) /\ length g1 <= cap /\ length g2 <= cap /\ 1 <= length values)
    (flat_map th) (fun values' => part_of values' (ov :: values) /\ length values' <= cap).
Proof.
  intros Hcap. unfold xsplit, split. destruct (Nat.ltb_spec (length values) 1) as [Hlt|Hge].
  { apply spec_unwind1; [reflexivity|]. eapply cspec_bind with (H1 := th ov) (F := flat_map th values); [perm|apply Hdrop|].
    intros [] _. apply cspec_ret; [apply keep_refl|]. split; [|exact Hcap].
    eapply part_perm_r; [apply (Permutation_app_comm [ov] values)|]. apply part_app_r, part_refl. }
  eapply spec_dbind with (H1 := []); [perm|apply dspec_new_buf|]. intros id2 _. cbn [app].
  assert (Hab0 : cspec (let$ _ := drop_elem ov in let$ _ := drop_vec drop_elem id2 [] in dret values)
      ([XBuf id2] ++ flat_map th values ++ th ov) (flat_map th) (fun values' => part_of values' (ov :: values) /\ length values' <= cap)).
  { eapply cspec_bind with (H1 := th ov) (F := flat_map th values ++ [XBuf id2]); [perm|apply Hdrop|].
    intros [] _. apply abort_spec; [perm|]. split; [|exact Hcap].
    eapply part_perm_r; [apply (Permutation_app_comm [ov] values)|]. apply part_app_r, part_refl. }
  apply spec_user; [|exact Hab0].
  apply (spec_lift crash gv lk (fun x => x)); [apply res_map_id|apply seed_split_not_ub|apply seed_split_not_ub| |exact Hab0].
  intros [values' seed] Es. apply seed_split_perm in Es as [Hp Hl].
  assert (Hp2 : Permutation (ov :: values) (values' ++ [seed])) by (rewrite Hp; perm).
  assert (Hpt : Permutation (XBuf id2 :: flat_map th values ++ th ov) (flat_map th values' ++ XBuf id2 :: th seed)).
  { apply (Permutation_flat_map_ th) in Hp2. rewrite flat_map_app in Hp2. cbn [flat_map] in Hp2. rewrite app_nil_r in Hp2.
    transitivity (XBuf id2 :: th ov ++ flat_map th values); [perm|]. rewrite Hp2. perm. }
  assert (HQ : part_of values' (ov :: values) /\ length values' <= cap).
  { split; [|lia]. eapply part_perm_r; [exact Hp2|]. apply part_app_r, part_refl. }
  eapply spec_bind with (F := []); [|apply xtry_push_spec; cbn; lia| |].
  { rewrite app_nil_r. exact Hpt. }
  2:{ intros e ->. eapply cspec_bind with (H1 := th seed) (F := flat_map th values' ++ [XBuf id2]); [perm|apply Hdrop|].
      intros [] _. apply abort_spec; [perm|exact HQ]. }
  intros group2 [-> Hl2] _. cbn [app] in *.
  assert (Hab : forall H, Permutation H (flat_map th values' ++ XBuf id2 :: flat_map th [seed]) ->
    cspec (let$ _ := drop_vec drop_elem id2 [seed] in dret values') H (flat_map th)
      (fun values' => part_of values' (ov :: values) /\ length values' <= cap)).
  { intros H HH. apply abort_spec; [exact HH|exact HQ]. }
  eapply spec_perm with (H' := flat_map th values' ++ XBuf id2 :: flat_map th [seed]); [cbn [flat_map]; perm|].
  apply (spec_lift crash gv lk (fun x => x)); [apply res_map_id|apply unwrap_not_ub|apply unwrap_not_oof| |now apply Hab].
  intros v0 E0. cbn [nth_error]. 
  apply (spec_lift crash gv lk (fun x => x) (unwrap (Some seed))); [reflexivity|discriminate|discriminate| |now apply Hab].
  intros w0 [= <-]. apply spec_user; [|now apply Hab].
  eapply spec_bind_ret with (F := []); [|apply xsplit_loop_spec; [lia|exact Hl2]| |].
  { now rewrite app_nil_r. }
  - intros [[[b1 b2] g1] g2] (H1 & H2 & H3) Hr. cbn [fst snd] in *. apply spec_ret; [exact Hr| |].
    + rewrite H1, Hp2. splits; auto; lia.
    + cbn [fst snd]. now rewrite app_nil_r.
  - intros vs (H1 & H2). apply cspec_ret; [rewrite app_nil_r; apply keep_refl|]. split; [|lia].
    eapply part_perm_r; [exact Hp2|]. now apply part_app_r.
Qed.
End XSplitProof.

(** ** Nodes *)
Set Default Proof Using "Type".
Section XNodes.
(** [lk]: nothing can leak; [ns]: nothing will be split. *)
Context {B K V : Type} (crash : nat -> bool) (bdrop : bool) (gv : list (xthing K V)) (lk ns : Prop) (P : Params B K) (cfg : config).
Notation xnode := (xnode B K V).
Notation xcontainer := (xcontainer B K V).
Notation xentry := (xentry B K V).
Notation spec := (spec crash gv lk).
Notation cspec := (cspec gv lk).
Notation dspec := (dspec gv).
Notation cap := (max_children cfg).
Notation minc := (min_children cfg).
Notation xthings := (xthings bdrop).
Notation xthings_c := (xthings_c bdrop).
Notation bnd_things := (bnd_things bdrop).

Lemma xnode_ind' (R : xnode -> Prop) :
  (forall b bid id es, R (XNode b bid id (CLeaf es))) ->
  (forall b bid id cs, Forall R cs -> R (XNode b bid id (CInner cs))) -> forall n, R n.
Proof.
  intros Hl Hi. fix IH 1. intros [b bid id [cs|es]].
  - apply Hi. induction cs as [|c cs IHcs]; constructor; [apply IH|assumption].
  - apply Hl.
Qed.

Lemma spec_map {A E A0 C0} (f : A0 -> C0) (m : X K V A E) (r : res A0) fg H th QA te QE :
  spec m r fg H th QA te QE -> spec m (res_map f r) (fun a => f (fg a)) H th QA te QE.
Proof.
  intros Hm s L Ho. destruct (Hm s L Ho) as ([a|e] & s' & E' & Ec & HR); [exists (inl a), s'|exists (inr e), s'];
    (split; [exact E'|split; [exact Ec|]]).
  - destruct HR as (-> & HR). split; [reflexivity|exact HR].
  - destruct HR as ([Hc| ->] & HR); (split; [|exact HR]); [left; exact Hc|right; reflexivity].
Qed.

Definition xthings_ch (ch : children xnode (K * V)) : list (xthing K V) :=
  match ch with CInner cs => flat_map xthings cs | CLeaf es => flat_map xkv_things es end.

Lemma xthings_eq (n : xnode) : xthings n = bnd_things (x_bid n) ++ XBuf (x_id n) :: xthings_ch (x_children n).
Proof. destruct n as [b bid id [cs|es]]; reflexivity. Qed.

(** The node has the shape its level says, and no vector is longer than its buffer. *)
Fixpoint xwf (level : nat) (n : xnode) : Prop :=
  match level, x_children n with
  | 0, CLeaf es => length es <= cap
  | S l, CInner cs => length cs <= cap /\ Forall (xwf l) cs
  | _, _ => False
  end.

Lemma xwf_leaf n : xwf 0 n -> exists b bid id es, n = XNode b bid id (CLeaf es) /\ length es <= cap.
Proof. destruct n as [b bid id [cs|es]]; cbn; [intros []|]. intros H. exists b, bid, id, es. auto. Qed.
Lemma xwf_inner l n : xwf (S l) n -> exists b bid id cs, n = XNode b bid id (CInner cs) /\ length cs <= cap /\ Forall (xwf l) cs.
Proof. destruct n as [b bid id [cs|es]]; cbn; [|intros []]. intros H. exists b, bid, id, cs. auto. Qed.

Definition xentry_wf (e : xentry) : Prop := match e with XEInner c => xwf (fst c) (snd c) | XELeaf _ => True end.
Definition xthings_e (e : xentry) : list (xthing K V) := match e with XEInner c => xthings_c c | XELeaf kv => xkv_things kv end.
Definition xforget_e (e : xentry) : entry B K V := match e with XEInner c => EInner (xforget_c c) | XELeaf kv => ELeaf kv end.
Definition xentries_e (e : xentry) : list (K * V) := match e with XEInner c => xentries (snd c) | XELeaf kv => [kv] end.

Lemma xentries_inner b bid id (cs : list xnode) : xentries (XNode b bid id (CInner cs)) = flat_map xentries cs.
Proof. unfold xentries. cbn [xforget entries]. induction cs as [|c cs IH]; cbn; [reflexivity|]. now rewrite IH. Qed.
Lemma xentries_leaf b bid id (es : list (K * V)) : xentries (XNode b bid id (CLeaf es) : xnode) = es.
Proof. reflexivity. Qed.
Definition xentries_ch (ch : children xnode (K * V)) : list (K * V) := match ch with CInner cs => flat_map xentries cs | CLeaf es => es end.
Lemma xentries_eq (n : xnode) : xentries n = xentries_ch (x_children n).
Proof. destruct n as [b bid id [cs|es]]; [apply xentries_inner|reflexivity]. Qed.

Lemma x_bounds_forget (n : xnode) : x_bounds n = node_bounds (xforget n).
Proof. destruct n as [b bid id [cs|es]]; reflexivity. Qed.
Lemma map_x_bounds (cs : list xnode) : map x_bounds cs = map node_bounds (map xforget cs).
Proof. rewrite map_map. apply map_ext, x_bounds_forget. Qed.

(** *** Reading *)
Lemma dspec_dseq_use (cs : list xnode) H :
  (forall c, In c cs -> part_of (bnd_things (x_bid c)) H) -> dspec (dseq (fun c => use_bnd bdrop (x_bid c)) cs) H (fun _ => H) any.
Proof.
  induction cs as [|c cs IH]; intros Hc; cbn [dseq].
  - apply dspec_ret; [reflexivity|exact Logic.I].
  - eapply dspec_bind with (F := []); [rewrite app_nil_r; reflexivity|apply dspec_use_bnd; apply Hc; now left|].
    intros a _. rewrite app_nil_r. apply IH. intros d Hd. apply Hc. now right.
Qed.

Lemma part_of_in_flat {A C} (f : A -> list C) x l : In x l -> part_of (f x) (flat_map f l).
Proof. intros Hin. apply in_split in Hin as (l1 & l2 & ->). exists (flat_map f l1 ++ flat_map f l2). rewrite flat_map_app. cbn [flat_map]. perm. Qed.

Lemma bnd_part (c : xnode) : part_of (bnd_things (x_bid c)) (xthings c).
Proof. rewrite xthings_eq. apply part_app_r, part_refl. Qed.

Lemma dspec_read_inner b bid id (cs : list xnode) H :
  part_of (XBuf id :: flat_map xthings cs) H ->
  dspec (xread_inner bdrop (XNode b bid id (CInner cs))) H (fun _ => H) (fun cs' => cs' = cs).
Proof.
  intros Hp. unfold xread_inner. cbn [x_id x_children].
  eapply dspec_bind with (F := []); [rewrite app_nil_r; reflexivity|apply dspec_use; [|reflexivity]|].
  { destruct Hp as [r Hp]. rewrite Hp. now left. }
  intros a _. rewrite app_nil_r. eapply dspec_bind with (F := []); [rewrite app_nil_r; reflexivity|apply dspec_dseq_use|].
  { intros c Hc. eapply part_trans; [apply bnd_part|]. eapply part_trans; [|exact Hp].
    eapply part_trans; [apply (part_of_in_flat xthings c cs Hc)|].
    eapply part_perm_r; [apply (Permutation_app_comm [XBuf id])|]. apply part_app_r, part_refl. }
  intros a' _. rewrite app_nil_r. apply dspec_ret; reflexivity.
Qed.

Lemma dspec_read_leaf b bid id (es : list (K * V)) H : In (XBuf id) H ->
  dspec (xread_leaf (XNode b bid id (CLeaf es) : xnode)) H (fun _ => H) (fun es' => es' = es).
Proof.
  intros Hin. unfold xread_leaf. cbn [x_id x_children].
  eapply dspec_bind with (F := []); [rewrite app_nil_r; reflexivity|apply dspec_use; [exact Hin|reflexivity]|].
  intros a _. rewrite app_nil_r. apply dspec_ret; reflexivity.
Qed.

(** *** Destroying *)
Lemma dspec_drop_bare (n : xnode) : dspec (drop_bare bdrop n) (bnd_things (x_bid n)) nothing any.
Proof. apply dspec_drop_bnd. Qed.
Lemma cspec_drop_bare (n : xnode) : ~ lk -> cspec (drop_bare bdrop n) (xthings n) nothing any.
Proof.
  intros Hn s L Ho. destruct (dspec_drop_bare n s (XBuf (x_id n) :: xthings_ch (x_children n) ++ L)) as (a & s' & E & Ec & HQ & Ho').
  { eapply xown_perm; [|exact Ho]. rewrite xthings_eq. perm. }
  exists a, s'. splits; auto. exists (XBuf (x_id n) :: xthings_ch (x_children n)). split; [exact Ho'|tauto].
Qed.

Lemma dspec_drop_node level (n : xnode) : xwf level n ->
  dspec (xdrop_node bdrop level n) (XBuf (x_id n) :: xthings_ch (x_children n)) nothing any.
Proof.
  revert n; induction level as [|l IH]; intros n Hwf; cbn [xdrop_node].
  - apply xwf_leaf in Hwf as (b & bid & id & es & -> & Hl). cbn [x_id x_children xthings_ch].
    eapply dspec_bind with (F := []); [rewrite app_nil_r; reflexivity|apply dspec_read_leaf; now left|].
    intros es' ->. rewrite app_nil_r. apply dspec_drop_vec. apply dspec_drop_kv.
  - apply xwf_inner in Hwf as (b & bid & id & cs & -> & Hl & Hcs). cbn [x_id x_children xthings_ch].
    eapply dspec_bind with (F := []); [rewrite app_nil_r; reflexivity|apply dspec_read_inner; apply part_refl|].
    intros cs' ->. rewrite app_nil_r.
    eapply dspec_bind with (H1 := flat_map (fun c => XBuf (x_id c) :: xthings_ch (x_children c)) cs)
      (F := XBuf id :: flat_map (fun c => bnd_things (x_bid c)) cs).
    + clear. induction cs as [|c cs IHcs]; cbn [flat_map]; [perm|]. rewrite xthings_eq.
      transitivity ((bnd_things (x_bid c) ++ XBuf (x_id c) :: xthings_ch (x_children c)) ++ XBuf id :: flat_map xthings cs); [perm|].
      rewrite IHcs. perm.
    + apply dspec_dseq. intros c Hc. apply IH. rewrite Forall_forall in Hcs. now apply Hcs.
    + intros a _. cbn [nothing app]. apply (dspec_drop_vec gv (drop_bare bdrop) (fun c => bnd_things (x_bid c))).
      apply dspec_drop_bare.
Qed.

Lemma dspec_drop_container (c : xcontainer) : xwf (fst c) (snd c) -> dspec (xdrop_container bdrop c) (xthings_c c) nothing any.
Proof.
  intros Hwf. unfold xdrop_container, CrashSpec.xthings_c. rewrite xthings_eq.
  eapply dspec_bind with (F := bnd_things (x_bid (snd c))); [|apply dspec_drop_node; exact Hwf|]; [perm|].
  intros a _. apply dspec_drop_bare.
Qed.

Lemma dspec_drop_entry (e : xentry) : xentry_wf e -> dspec (xdrop_entry bdrop e) (xthings_e e) nothing any.
Proof. destruct e as [c|kv]; cbn; intros Hwf; [now apply dspec_drop_container|apply dspec_drop_kv]. Qed.

Lemma dspec_set_bounds (n : xnode) b :
  dspec (set_bounds bdrop n b) (xthings n) xthings (fun n' => exists bid, n' = XNode b bid (x_id n) (x_children n)).
Proof.
  unfold set_bounds. rewrite xthings_eq.
  eapply dspec_bind with (F := XBuf (x_id n) :: xthings_ch (x_children n)); [reflexivity|apply dspec_drop_bnd|].
  intros a _. cbn [nothing app]. eapply dspec_bind with (H1 := []); [cbn [app]; reflexivity|apply dspec_new_bnd|].
  intros bid _. apply dspec_ret; [now rewrite xthings_eq|]. now exists bid.
Qed.

(** Continuing after a drop while unwinding. *)
Lemma cspec_then {A} (m : D K V unit) (n : A) H H1 F th (Q : A -> Prop) :
  Permutation H (H1 ++ F) -> dspec m H1 nothing any -> keep lk (th n) F -> Q n -> cspec (let$ _ := m in dret n) H th Q.
Proof.
  intros Hp Hm HF HQ. eapply cspec_bind; [exact Hp|apply dspec_cspec; exact Hm|].
  intros a _. now apply cspec_ret.
Qed.

Lemma spec_try_push {T C E A0} (l : list T) x (k : list T + T -> X K V C E) (r : res A0) fg H th QA te QE :
  length l <= cap -> spec (k (try_push cap l x)) r fg H th QA te QE -> spec (dbind (xtry_push cap l x) k) r fg H th QA te QE.
Proof.
  intros Hl Hk s L Ho. destruct (Hk s L Ho) as (o & s' & E' & HR). exists o, s'. split; [|exact HR].
  unfold dbind, xtry_push. unfold try_push in E'. destruct (_ =? _) eqn:Ee; [exact E'|].
  apply Nat.eqb_neq in Ee. destruct (Nat.ltb_spec cap (length l)); [lia|exact E'].
Qed.

(** *** Insertion *)
Definition xout : Type := (xnode * option xcontainer)%type.
Definition xforget_out (r : xout) : node B K V * option (container B K V) := (xforget (fst r), option_map xforget_c (snd r)).
Definition xthings_o (o : option xcontainer) : list (xthing K V) := match o with Some c => xthings_c c | None => [] end.
Definition xentries_o (o : option xcontainer) : list (K * V) := match o with Some c => xentries (snd c) | None => [] end.
Definition xwf_o (level : nat) (o : option xcontainer) : Prop :=
  match o with Some c => fst c = level /\ xwf level (snd c) /\ 1 <= cap | None => True end.
Definition xout_ok (level : nat) (es : list (K * V)) (r : xout) : Prop :=
  xwf level (fst r) /\ xwf_o level (snd r) /\ Permutation (xentries (fst r) ++ xentries_o (snd r)) es /\ (ns -> snd r = None).
(** [n] is what is left of a node with the entries [es0], into which [es] minus [es0] was being inserted. *)
Definition xleft_ok (level : nat) (es0 es : list (K * V)) (n : xnode) : Prop :=
  xwf level n /\ part_of (xentries n) es /\ (ns -> part_of es0 (xentries n)).
Definition ins_spec (level : nat) (m : X K V xout xnode) (r : res (node B K V * option (container B K V))) (n : xnode) (e : xentry) : Prop :=
  spec m r xforget_out (xthings n ++ xthings_e e) (fun r => xthings (fst r) ++ xthings_o (snd r))
    (xout_ok level (xentries n ++ xentries_e e)) xthings (xleft_ok level (xentries n) (xentries n ++ xentries_e e)).

Lemma groups_forget (r : B * B * list xnode * (nat * list xnode)) :
  groups_map xforget (let '(b1, b2, g1, (_, g2)) := r in (b1, b2, g1, g2))
  = (let '(b1, b2, g1, (_, g2)) := r in (b1, b2, map xforget g1, map xforget g2)).
Proof. destruct r as [[[b1 b2] g1] [id2 g2]]. reflexivity. Qed.

Lemma xself_insert_spec level (n : xnode) (e : xentry) : xwf level n -> xentry_wf e ->
  (lk -> match x_children n with CInner cs => length cs < cap | CLeaf _ => True end) ->
  (ns -> match x_children n with CInner cs => length cs < cap | CLeaf es => length es < cap end) ->
  ins_spec level (xself_insert crash bdrop P cfg level n e) (self_insert P cfg level (xforget n) (xforget_e e)) n e.
Proof.
  intros Hwf He Hlk Hns. unfold ins_spec, xself_insert.
  assert (Hab : cspec (let$ _ := xdrop_entry bdrop e in dret n) (xthings n ++ xthings_e e) xthings (xleft_ok level (xentries n) (xentries n ++ xentries_e e))).
  { eapply cspec_then with (F := xthings n); [|apply dspec_drop_entry; exact He|apply keep_refl|]; [perm|].
    split; [exact Hwf|]. split; [apply part_app_r, part_refl|intros _; apply part_refl]. }
  apply spec_user; [|exact Hab].
  destruct level as [|l]; cbn [xchildren_at].
  - apply xwf_leaf in Hwf as (b & bid & id & es & -> & Hl).
    eapply spec_dbind with (F := []) (th := fun _ => xthings (XNode b bid id (CLeaf es)) ++ xthings_e e)
      (Q := fun ch => ch = CLeaf es); [rewrite app_nil_r; reflexivity| |].
    { eapply dspec_bind with (F := []); [rewrite app_nil_r; reflexivity|apply dspec_read_leaf|].
      - rewrite xthings_eq. rewrite <- app_assoc. apply in_or_app. right. now left.
      - intros es' ->. apply dspec_ret; [now rewrite app_nil_r|reflexivity]. }
    intros ch ->. rewrite app_nil_r. destruct e as [c|kv].
    + cbn [self_insert children_at xforget xforget_e node_children read_leaf bind]. apply spec_unwind1; [reflexivity|exact Hab].
    + cbn [self_insert children_at xforget xforget_e node_children read_leaf bind x_entry_bounds entry_bounds x_bounds].
      destruct kv as [k v]. apply spec_try_push; [exact Hl|]. unfold try_push. destruct (Nat.eqb_spec (length es) cap) as [Ee|Hne].
      * assert (Hnns : ~ ns) by (intros Hn; specialize (Hns Hn); cbn in Hns; lia).
        eapply spec_bind with (H1 := flat_map xkv_things es ++ xkv_things (k, v)) (F := bnd_things bid ++ [XBuf id]).
        { cbn [CrashSpec.xthings xthings_e]. perm. }
        { apply (xsplit_spec crash gv lk P cfg (fun kv : K * V => key_bounds P (fst kv)) drop_kv xkv_things); [|exact Hl].
          intros x. apply dspec_cspec, dspec_drop_kv. }
        -- intros [[[b1 b2] g1] [id2 g2]] (Hp & Hg1 & Hg2 & H1) _. cbn [with_ch].
           eapply spec_dbind with (H1 := xthings (XNode b bid id (CLeaf g1))) (F := XBuf id2 :: flat_map xkv_things g2);
             [cbn [CrashSpec.xthings]; perm|apply dspec_set_bounds|].
           intros n' [bid' ->]. cbn [x_id x_children]. eapply spec_dbind with (H1 := []); [cbn [app]; reflexivity|apply dspec_new_bnd|].
           intros bid2 _. apply spec_ret; [reflexivity| |].
           ++ split; [exact Hg1|]. split; [cbn; splits; auto; lia|]. cbn [fst snd xentries_o xentries_e]. split; [|tauto]. rewrite !xentries_leaf, Hp. perm.
           ++ cbn [fst snd xthings_o CrashSpec.xthings_c CrashSpec.xthings]. perm.
        -- intros es' (Hp & Hl'). cbn [with_ch]. apply cspec_ret; [cbn [CrashSpec.xthings]; apply keep_perm; perm|].
           split; [exact Hl'|]. split; [|tauto]. cbn [xentries_e]. rewrite !xentries_leaf. eapply part_perm_r; [|exact Hp]. perm.
      * cbn [with_ch x_bounds]. apply spec_user.
        -- eapply spec_dbind with (H1 := xthings (XNode b bid id (CLeaf (es ++ [(k, v)])))) (F := []); [|apply dspec_set_bounds|].
           { cbn [CrashSpec.xthings xthings_e]. rewrite flat_map_app. cbn [flat_map]. perm. }
           intros n' [bid' ->]. cbn [x_id x_children]. apply spec_ret; [reflexivity| |].
           ++ split; [cbn; rewrite app_length; cbn; lia|]. split; [exact Logic.I|]. split; [|reflexivity]. cbn [fst snd xentries_o xentries_e].
              rewrite !xentries_leaf. perm.
           ++ cbn [fst snd xthings_o]. perm.
        -- apply cspec_ret.
           ++ cbn [CrashSpec.xthings xthings_e]. apply keep_perm. rewrite flat_map_app. cbn [flat_map]. perm.
           ++ split; [cbn; rewrite app_length; cbn; lia|]. cbn [xentries_e]. rewrite !xentries_leaf. split; [apply part_refl|intros _; apply part_app_r, part_refl].
  - apply xwf_inner in Hwf as (b & bid & id & cs & -> & Hl & Hcs).
    eapply spec_dbind with (F := []) (th := fun _ => xthings (XNode b bid id (CInner cs)) ++ xthings_e e)
      (Q := fun ch => ch = CInner cs); [rewrite app_nil_r; reflexivity| |].
    { eapply dspec_bind with (F := []); [rewrite app_nil_r; reflexivity|apply dspec_read_inner|].
      - apply part_app_r. rewrite xthings_eq. cbn [x_id x_children xthings_ch x_bid].
        eapply part_perm_r; [apply Permutation_app_comm|]. apply part_app_r, part_refl.
      - intros cs' ->. apply dspec_ret; [now rewrite app_nil_r|reflexivity]. }
    intros ch ->. rewrite app_nil_r. destruct e as [[el en]|kv].
    2:{ cbn [self_insert children_at xforget xforget_e node_children read_inner bind]. apply spec_unwind1; [reflexivity|exact Hab]. }
    cbn [self_insert children_at xforget xforget_e node_children read_inner bind x_entry_bounds entry_bounds x_bounds xforget_c fst snd].
    destruct (Nat.eqb_spec (S l - 1) el) as [<-|Hne]; cbn [negb]; [|apply spec_unwind1; [reflexivity|exact Hab]].
    replace (S l - 1) with l in * by lia. cbn [xentry_wf fst snd] in He.
    apply spec_try_push; [exact Hl|]. unfold try_push. rewrite map_length. destruct (Nat.eqb_spec (length cs) cap) as [Ee|Hne].
    + assert (Hnlk : ~ lk) by (intros Hn; specialize (Hlk Hn); cbn in Hlk; lia).
      assert (Hnns : ~ ns) by (intros Hn; specialize (Hns Hn); cbn in Hns; lia).
      rewrite (split_map P xforget node_bounds x_bounds x_bounds_forget).
      eapply spec_bind with (H1 := flat_map xthings cs ++ xthings en) (F := bnd_things bid ++ [XBuf id]).
      { cbn [CrashSpec.xthings xthings_e CrashSpec.xthings_c snd]. perm. }
      { apply spec_map. apply (xsplit_spec crash gv lk P cfg (@x_bounds B K V) (drop_bare bdrop) xthings); [|exact Hl].
        intros x. now apply cspec_drop_bare. }
      * intros [[[b1 b2] g1] [id2 g2]] (Hp & Hg1 & Hg2 & H1) _. cbn [with_ch groups_map].
        assert (Hall : Forall (xwf l) (g1 ++ g2)) by (apply (Forall_perm _ _ _ (Permutation_sym Hp)); now constructor).
        apply Forall_app in Hall as [Hw1 Hw2].
        eapply spec_dbind with (H1 := xthings (XNode b bid id (CInner g1))) (F := XBuf id2 :: flat_map xthings g2);
          [cbn [CrashSpec.xthings]; perm|apply dspec_set_bounds|].
        intros n' [bid' ->]. cbn [x_id x_children]. eapply spec_dbind with (H1 := []); [cbn [app]; reflexivity|apply dspec_new_bnd|].
        intros bid2 _. apply spec_ret; [reflexivity| |].
        -- split; [now split|]. split; [cbn [xwf_o fst snd xwf x_children]; splits; auto; lia|]. cbn [fst snd xentries_o xentries_e]. split; [|tauto].
           rewrite !xentries_inner, <- flat_map_app. rewrite (Permutation_flat_map_ xentries _ _ Hp). cbn [flat_map]. perm.
        -- cbn [fst snd xthings_o CrashSpec.xthings_c CrashSpec.xthings]. perm.
      * intros cs' (Hp & Hl'). cbn [with_ch]. apply cspec_ret; [cbn [CrashSpec.xthings]; apply keep_perm; perm|].
        split; [split; [exact Hl'|]|split; [|tauto]].
        -- eapply part_Forall; [exact Hp|]. now constructor.
        -- cbn [xentries_e snd]. rewrite !xentries_inner. eapply part_perm_r; [|apply part_flat_map; exact Hp]. cbn [flat_map]. perm.
    + cbn [with_ch x_bounds].
      assert (Hw : Forall (xwf l) (cs ++ [en])) by (apply Forall_app; auto).
      apply spec_user.
      * eapply spec_dbind with (H1 := xthings (XNode b bid id (CInner (cs ++ [en])))) (F := []); [|apply dspec_set_bounds|].
        { cbn [CrashSpec.xthings xthings_e CrashSpec.xthings_c snd]. rewrite flat_map_app. cbn [flat_map]. perm. }
        intros n' [bid' ->]. cbn [x_id x_children]. apply spec_ret.
        -- unfold xforget_out. cbn [fst snd xforget option_map]. rewrite map_app, x_bounds_forget. reflexivity.
        -- split; [split; [rewrite app_length; cbn; lia|exact Hw]|]. split; [exact Logic.I|]. split; [|reflexivity]. cbn [fst snd xentries_o xentries_e].
           rewrite !xentries_inner, flat_map_app. cbn [flat_map]. perm.
        -- cbn [fst snd xthings_o]. perm.
      * apply cspec_ret.
        -- cbn [CrashSpec.xthings xthings_e CrashSpec.xthings_c snd]. apply keep_perm. rewrite flat_map_app. cbn [flat_map]. perm.
        -- split; [split; [rewrite app_length; cbn; lia|exact Hw]|]. cbn [xentries_e snd]. rewrite !xentries_inner, flat_map_app. cbn [flat_map].
           rewrite app_nil_r. split; [apply part_refl|intros _; apply part_app_r, part_refl].
Qed.
End XNodes.
